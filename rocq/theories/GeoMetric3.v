(** The three-dimensional metric, rotation terms and winds *)
From Coq Require Import Reals Lra Lia.
From Coquelicot Require Import Coquelicot.
From Verif Require Import GeoModel GeoSpec GeoProofs GeoArea GeoAngles GeoWinds.
Local Open Scope R_scope.

Definition unit_n (o : rotation) (X Y : R) : vec := vscal (/ delta X Y) (gn o X Y).
Lemma cartesian_unit : forall o r X Y, to_cartesian o r X Y = vscal r (unit_n o X Y).
Proof. intros. rewrite cartesian_gn. unfold unit_n. vec3; unfold Rdiv; ring. Qed.
Definition n1 (o : rotation) (X Y : R) : vec := vscal (1 + X ^ 2) (dX o 1 X Y).
Definition n2 (o : rotation) (X Y : R) : vec := vscal (1 + Y ^ 2) (dY o 1 X Y).
Lemma derive_tan1 : forall x, regular x -> is_derive tan x (1 + tan x ^ 2).
Proof. intros x H. unfold tan, regular in *. auto_derive; [exact H|]. field. exact H. Qed.
Lemma derive_n1 : forall o x1 x2, regular x1 -> is_derive3 (fun s => unit_n o (tan s) (tan x2)) x1 (n1 o (tan x1) (tan x2)).
Proof.
  intros o x1 x2 H. unfold n1. apply (derive3_comp (fun X => unit_n o X (tan x2)) tan); [|apply derive_tan1; auto].
  destruct (derive3_X o 1 (tan x1) (tan x2)) as (A & B & C).
  assert (K : forall X, to_cartesian o 1 X (tan x2) = unit_n o X (tan x2)) by (intros; rewrite cartesian_unit; vec3; ring).
  split; [|split]; (eapply is_derive_ext; [intros t; rewrite <- K; reflexivity|]); auto.
Qed.
Lemma derive_n2 : forall o x1 x2, regular x2 -> is_derive3 (fun s => unit_n o (tan x1) (tan s)) x2 (n2 o (tan x1) (tan x2)).
Proof.
  intros o x1 x2 H. unfold n2. apply (derive3_comp (fun Y => unit_n o (tan x1) Y) tan); [|apply derive_tan1; auto].
  destruct (derive3_Y o 1 (tan x1) (tan x2)) as (A & B & C).
  assert (K : forall Y, to_cartesian o 1 (tan x1) Y = unit_n o (tan x1) Y) by (intros; rewrite cartesian_unit; vec3; ring).
  split; [|split]; (eapply is_derive_ext; [intros t; rewrite <- K; reflexivity|]); auto.
Qed.
Lemma derive3_scal : forall (f : R -> R) (g : R -> vec) t df dg, is_derive f t df -> is_derive3 g t dg -> is_derive3 (fun s => vscal (f s) (g s)) t (vadd (vscal df (g t)) (vscal (f t) dg)).
Proof.
  intros f g t df dg Hf (A & B & C). split; [|split]; unfold vscal, vadd, vx, vy, vz in *; cbn [fst snd] in *.
  - exact (is_derive_mult f _ t df _ Hf A Rmult_comm).
  - exact (is_derive_mult f _ t df _ Hf B Rmult_comm).
  - exact (is_derive_mult f _ t df _ Hf C Rmult_comm).
Qed.
Definition e_1 (o : rotation) (h h1 X Y : R) : vec := vadd (vscal h1 (unit_n o X Y)) (vscal h (n1 o X Y)).
Definition e_2 (o : rotation) (h h2 X Y : R) : vec := vadd (vscal h2 (unit_n o X Y)) (vscal h (n2 o X Y)).
Definition e_3 (o : rotation) (h3 X Y : R) : vec := vscal h3 (unit_n o X Y).
Lemma derive3_ext : forall f g t d, (forall s, f s = g s) -> is_derive3 f t d -> is_derive3 g t d.
Proof. intros f g t d E (A & B & C). split; [|split]; (eapply is_derive_ext; [intros s; rewrite <- E; reflexivity|]); auto. Qed.
Lemma tangents3_values : forall o H x1 x2 eta h1 h2 h3, regular x1 -> regular x2 -> partials3 H x1 x2 eta h1 h2 h3 ->
  tangents3 o H x1 x2 eta (e_1 o (H x1 x2 eta) h1 (tan x1) (tan x2)) (e_2 o (H x1 x2 eta) h2 (tan x1) (tan x2)) (e_3 o h3 (tan x1) (tan x2)).
Proof.
  intros o H x1 x2 eta h1 h2 h3 G1 G2 (D1 & D2 & D3). unfold tangents3, place3. split; [|split].
  - eapply derive3_ext; [intros s; symmetry; apply cartesian_unit|]. apply (derive3_scal (fun s => H s x2 eta) (fun s => unit_n o (tan s) (tan x2))); [exact D1|apply derive_n1; auto].
  - eapply derive3_ext; [intros s; symmetry; apply cartesian_unit|]. apply (derive3_scal (fun s => H x1 s eta) (fun s => unit_n o (tan x1) (tan s))); [exact D2|apply derive_n2; auto].
  - eapply derive3_ext; [intros s; symmetry; apply cartesian_unit|]. unfold e_3. destruct D3.
    replace (vscal h3 (unit_n o (tan x1) (tan x2))) with (vadd (vscal h3 (unit_n o (tan x1) (tan x2))) (vscal (H x1 x2 eta) (0, 0, 0))) by (vec3; ring).
    apply (derive3_scal (fun s => H x1 x2 s) (fun _ => unit_n o (tan x1) (tan x2))); [split; auto|].
    split; [|split]; unfold vx, vy, vz; cbn [fst snd]; apply (is_derive_const (K:=R_AbsRing) (V:=R_NormedModule)).
Qed.
Lemma tangents3_unique : forall o H x1 x2 eta a b c a' b' c', tangents3 o H x1 x2 eta a b c -> tangents3 o H x1 x2 eta a' b' c' -> a = a' /\ b = b' /\ c = c'.
Proof. intros o H x1 x2 eta a b c a' b' c' (A & B & C) (A' & B' & C'). repeat split; eapply derive3_unique; eauto. Qed.
Lemma n_dots : forall o X Y, let n := unit_n o X Y in dot n n = 1 /\ dot n (n1 o X Y) = 0 /\ dot n (n2 o X Y) = 0 /\
  dot (n1 o X Y) (n1 o X Y) = (1 + X ^ 2) ^ 2 * (1 + Y ^ 2) / delta X Y ^ 4 /\ dot (n1 o X Y) (n2 o X Y) = - (X * Y * (1 + X ^ 2) * (1 + Y ^ 2) / delta X Y ^ 4) /\
  dot (n2 o X Y) (n2 o X Y) = (1 + X ^ 2) * (1 + Y ^ 2) ^ 2 / delta X Y ^ 4.
Proof.
  intros o X Y n. unfold n, unit_n, n1, n2. rewrite !dot_scal_l, !dot_scal_r, dXX, dYY, dXY. pose proof (delta_pos X Y) as P. pose proof (delta_sq X Y) as S.
  destruct (dots o X Y) as (G1 & G2 & G3 & G4 & G5 & G6). unfold dX, dY. rewrite !dot_add_r, !dot_scal_r, (dot_comm (gn o X Y) (fE1 o)), (dot_comm (gn o X Y) (fE2 o)), G1, G2, G3. rewrite <- S.
  repeat split; field; lra.
Qed.
(** the metric is the one of the tangent vectors *)
Lemma metric3_gram : forall o H x1 x2 eta h1 h2 h3 dx dy deta e1 e2 e3, regular x1 -> regular x2 -> partials3 H x1 x2 eta h1 h2 h3 -> tangents3 o H x1 x2 eta e1 e2 e3 ->
  metric3_cov dx dy deta (H x1 x2 eta) (tan x1) (tan x2) h1 h2 h3 = gram3 dx dy deta e1 e2 e3.
Proof.
  intros o H x1 x2 eta h1 h2 h3 dx dy deta e1 e2 e3 G1 G2 D T. destruct (tangents3_unique _ _ _ _ _ _ _ _ _ _ _ T (tangents3_values o H x1 x2 eta h1 h2 h3 G1 G2 D)) as (-> & -> & ->).
  set (X := tan x1). set (Y := tan x2). set (h := H x1 x2 eta). destruct (n_dots o X Y) as (N0 & N1 & N2 & N3 & N4 & N5). unfold metric3_cov, gram3, e_1, e_2, e_3.
  replace ((1 + X ^ 2 + Y ^ 2) ^ 2) with (delta X Y ^ 4) by (fold (delta2 X Y); rewrite <- delta_sq; ring). pose proof (delta_pos X Y) as P.
  rewrite !dot_scal_l, !dot_scal_r, !dot_add_l, !dot_add_r, !dot_scal_l, !dot_scal_r, !(dot_comm (n1 o X Y) (unit_n o X Y)), !(dot_comm (n2 o X Y) (unit_n o X Y)), N0, N1, N2, N3, N4, N5.
  f_equal; field; lra.
Qed.
Lemma metric3_inverse : forall dx dy deta r X Y r1 r2 r3, dx <> 0 -> dy <> 0 -> deta <> 0 -> r <> 0 -> r3 <> 0 -> inverse3 (metric3_cov dx dy deta r X Y r1 r2 r3) (metric3_contra dx dy deta r X Y r1 r2 r3).
Proof.
  intros dx dy deta r X Y r1 r2 r3 H1 H2 H3 Hr Hr3. unfold inverse3, metric3_cov, metric3_contra; cbn [t11 t12 t13 t22 t23 t33].
  assert (1 + X ^ 2 <> 0) by nra. assert (1 + Y ^ 2 <> 0) by nra. assert (1 + X ^ 2 + Y ^ 2 <> 0) by nra. repeat split; field; repeat split; auto.
Qed.
Lemma metric3_det : forall dx dy deta r X Y r1 r2 r3, metric3_rootG dx dy deta r X Y r3 ^ 2 = det3 (metric3_cov dx dy deta r X Y r1 r2 r3).
Proof.
  intros dx dy deta r X Y r1 r2 r3. unfold metric3_rootG, det3, metric3_cov; cbn [t11 t12 t13 t22 t23 t33]. fold (delta2 X Y). fold (delta X Y). pose proof (delta_pos X Y) as P. pose proof (delta2_pos X Y) as Q.
  transitivity ((dx / 2 * (dy / 2) * (deta / 2) * r ^ 2 * (1 + X ^ 2) * (1 + Y ^ 2)) ^ 2 * Rabs r3 ^ 2 / (delta2 X Y ^ 2 * delta X Y ^ 2)); [field; lra|].
  rewrite delta_sq. replace (Rabs r3 ^ 2) with (r3 ^ 2) by (rewrite <- (pow2_abs r3); reflexivity). unfold delta2 in *. field. lra.
Qed.
Lemma metric3_rootG_pos : forall dx dy deta r X Y r3, 0 < dx -> 0 < dy -> 0 < deta -> r <> 0 -> r3 <> 0 -> 0 < metric3_rootG dx dy deta r X Y r3.
Proof.
  intros dx dy deta r X Y r3 H1 H2 H3 Hr Hr3. unfold metric3_rootG. fold (delta2 X Y). fold (delta X Y). pose proof (delta_pos X Y) as P. pose proof (delta2_pos X Y) as Q.
  assert (0 < Rabs r3) by (apply Rabs_pos_lt; auto). assert (0 < r ^ 2) by (apply sq_pos; auto). assert (0 < 1 + X ^ 2) by nra. assert (0 < 1 + Y ^ 2) by nra.
  set (q := r ^ 2) in *. set (x := 1 + X ^ 2) in *. set (y := 1 + Y ^ 2) in *. apply Rdiv_lt_0_compat; [repeat (apply Rmult_lt_0_compat; [|lra]); lra|]. apply Rmult_lt_0_compat; auto.
Qed.

(** ** Rotation terms *)
Definition fcomb (o : rotation) (p q s : R) : vec := vadd (vscal p (fC o)) (vadd (vscal q (fE1 o)) (vscal s (fE2 o))).
Lemma fcomb_lin : forall o k l p q s p' q' s', vadd (vscal k (fcomb o p q s)) (vscal l (fcomb o p' q' s')) = fcomb o (k * p + l * p') (k * q + l * q') (k * s + l * s').
Proof. intros. unfold fcomb. vec3; ring. Qed.
Lemma fcomb_scal : forall o k p q s, vscal k (fcomb o p q s) = fcomb o (k * p) (k * q) (k * s).
Proof. intros. unfold fcomb. vec3; ring. Qed.
Lemma fcomb_add : forall o p q s p' q' s', vadd (fcomb o p q s) (fcomb o p' q' s') = fcomb o (p + p') (q + q') (s + s').
Proof. intros. unfold fcomb. vec3; ring. Qed.
Lemma axis_fcomb : forall o p q s, cross axis (fcomb o p q s) = fcomb o (a1 o * s - a2 o * q) (a2 o * p - a0 o * s) (a0 o * q - a1 o * p).
Proof.
  intros o p q s. destruct (frame_right o) as (A & B & C). rewrite (axis_frame o) at 1. unfold fcomb. set (c := fC o) in *. set (e1 := fE1 o) in *. set (e2 := fE2 o) in *.
  transitivity (vadd (vscal (a1 o * s - a2 o * q) (cross e1 e2)) (vadd (vscal (a2 o * p - a0 o * s) (cross e2 c)) (vscal (a0 o * q - a1 o * p) (cross c e1)))); [vec3; ring|].
  rewrite A, B, C. reflexivity.
Qed.
Lemma fcomb_eq : forall o p q s p' q' s', p = p' -> q = q' -> s = s' -> fcomb o p q s = fcomb o p' q' s'.
Proof. congruence. Qed.
Lemma n_fcomb : forall o X Y, unit_n o X Y = fcomb o (/ delta X Y) (X / delta X Y) (Y / delta X Y).
Proof. intros. unfold unit_n, gn, fcomb. vec3; unfold Rdiv; ring. Qed.
Lemma n1_fcomb : forall o X Y, n1 o X Y = let k := (1 + X ^ 2) / (delta2 X Y * delta X Y) in fcomb o (- X * k) ((1 + Y ^ 2) * k) (- X * Y * k).
Proof. intros. pose proof (delta_pos X Y). pose proof (delta2_pos X Y). unfold n1, dX, gn, fcomb, delta2 in *. cbv zeta. vec3; field; lra. Qed.
Lemma n2_fcomb : forall o X Y, n2 o X Y = let k := (1 + Y ^ 2) / (delta2 X Y * delta X Y) in fcomb o (- Y * k) (- X * Y * k) ((1 + X ^ 2) * k).
Proof. intros. pose proof (delta_pos X Y). pose proof (delta2_pos X Y). unfold n2, dY, gn, fcomb, delta2 in *. cbv zeta. vec3; field; lra. Qed.
Lemma cross_scal2 : forall k a b, cross (vscal k a) b = vscal k (cross a b).
Proof. intros. vec3; ring. Qed.

Section Column.
Variables (o : rotation) (Omega dx dy deta h X Y h1 h2 h3 : R).
Hypotheses (Hh : h <> 0) (Hh3 : h3 <> 0) (Hdx : dx <> 0) (Hdy : dy <> 0) (Hde : deta <> 0).
Let f1 := vscal (dx / 2) (e_1 o h h1 X Y).
Let f2 := vscal (dy / 2) (e_2 o h h2 X Y).
Let f3 := vscal (deta / 2) (e_3 o h3 X Y).
Let G := christoffel3_0 o Omega dx dy deta h X Y h1 h2 h3.
Lemma col_nz : 1 + X ^ 2 <> 0 /\ 1 + Y ^ 2 <> 0 /\ 1 + X ^ 2 + Y ^ 2 <> 0 /\ delta X Y <> 0 /\ 0 < delta X Y.
Proof. pose proof (delta_pos X Y). repeat split; nra. Qed.
Ltac col := unfold f1, f2, f3, e_1, e_2, e_3; rewrite cross_scal2, n_fcomb, ?n1_fcomb, ?n2_fcomb; cbv zeta;
  repeat (rewrite fcomb_scal || rewrite fcomb_add || rewrite axis_fcomb); apply fcomb_eq.
Lemma column1 : cross (vscal Omega axis) f1 = vadd (vscal (G 1 1)%nat f1) (vadd (vscal (G 2 1)%nat f2) (vscal (G 3 1)%nat f3)).
Proof.
  destruct col_nz as (K1 & K2 & K3 & K4 & K5). col; unfold G, christoffel3_0, christoffel3_1_01, christoffel3_2_01, christoffel3_3_01, christoffel3_1_01, christoffel3_2_01, rot1, rot2, rot3, a0, a1, a2, delta2; field; repeat split; auto.
Qed.
Lemma column3 : cross (vscal Omega axis) f3 = vadd (vscal (G 1 3)%nat f1) (vadd (vscal (G 2 3)%nat f2) (vscal (G 3 3)%nat f3)).
Proof.
  destruct col_nz as (K1 & K2 & K3 & K4 & K5). col; unfold G, christoffel3_0, christoffel3_1_03, christoffel3_2_03, christoffel3_3_03, rot1, rot2, rot3, a0, a1, a2, delta2; field; repeat split; auto.
Qed.
(** what the second column should be *)
Definition fixed_1_02 : R := - Omega * (1 + Y ^ 2) / (1 + X ^ 2 + Y ^ 2) * rot1 o X Y + h2 * Omega / (h * (1 + X ^ 2)) * rot2 o X Y.
Definition fixed_2_02 : R := - Omega * X * Y / (1 + X ^ 2 + Y ^ 2) * rot1 o X Y + h2 * Omega / (h * (1 + Y ^ 2)) * rot3 o X Y.
Definition fixed_3_02 : R := - / h3 * (h1 * fixed_1_02 + h2 * fixed_2_02 + h / (1 + X ^ 2 + Y ^ 2) * Omega * (1 + Y ^ 2) * (cos (lat_p o) * sin (angle_p o) + X * sin (lat_p o))).
Lemma column2 : cross (vscal Omega axis) f2 =
  vadd (vscal (fixed_1_02 * (2 / dx * 1 * (dy / 2))) f1) (vadd (vscal (fixed_2_02 * (2 / dy * 1 * (dy / 2))) f2) (vscal (fixed_3_02 * (2 / deta * 1 * (dy / 2))) f3)).
Proof.
  destruct col_nz as (K1 & K2 & K3 & K4 & K5). col; unfold fixed_3_02, fixed_1_02, fixed_2_02, rot1, rot2, rot3, a0, a1, a2, delta2; field; repeat split; auto.
Qed.
Lemma frame_indep : forall u1 u2 u3 v1 v2 v3, vadd (vscal u1 f1) (vadd (vscal u2 f2) (vscal u3 f3)) = vadd (vscal v1 f1) (vadd (vscal v2 f2) (vscal v3 f3)) -> u1 = v1 /\ u2 = v2 /\ u3 = v3.
Proof.
  intros u1 u2 u3 v1 v2 v3 E. destruct (n_dots o X Y) as (N0 & N1 & N2 & N3 & N4 & N5). destruct col_nz as (K1 & K2 & K3 & K4 & K5). pose proof (delta_sq X Y) as S. unfold delta2 in S.
  pose proof (f_equal (fun w => dot w (n1 o X Y)) E) as E1. pose proof (f_equal (fun w => dot w (n2 o X Y)) E) as E2. pose proof (f_equal (fun w => dot w (unit_n o X Y)) E) as E3.
  cbv beta in E1, E2, E3. unfold f1, f2, f3, e_1, e_2, e_3 in E1, E2, E3.
  rewrite !dot_add_l, !dot_scal_l, !dot_add_l, !dot_scal_l, ?N1, ?N2, ?(dot_comm (n2 o X Y) (n1 o X Y)), ?N3, ?N4, ?N5 in E1.
  rewrite !dot_add_l, !dot_scal_l, !dot_add_l, !dot_scal_l, ?N1, ?N2, ?N3, ?N4, ?N5 in E2.
  rewrite !dot_add_l, !dot_scal_l, !dot_add_l, !dot_scal_l, ?(dot_comm (n1 o X Y)), ?(dot_comm (n2 o X Y)), ?N0, ?N1, ?N2 in E3.
  set (d := delta X Y) in *.
  assert (P1 : (u1 - v1) * dx * (1 + X ^ 2) - X * Y * (u2 - v2) * dy = 0).
  { apply (Rmult_eq_reg_l (h * (1 + X ^ 2) * (1 + Y ^ 2) / d ^ 4 / 2)); [|apply Rmult_integral_contrapositive_currified; [|lra]; unfold Rdiv; repeat apply Rmult_integral_contrapositive_currified; auto; apply Rinv_neq_0_compat; apply pow_nonzero; auto].
    apply Rminus_diag_eq in E1. ring_simplify in E1. rewrite Rmult_0_r, <- E1. field; auto. }
  assert (P2 : (u2 - v2) * dy * (1 + Y ^ 2) - X * Y * (u1 - v1) * dx = 0).
  { apply (Rmult_eq_reg_l (h * (1 + X ^ 2) * (1 + Y ^ 2) / d ^ 4 / 2)); [|apply Rmult_integral_contrapositive_currified; [|lra]; unfold Rdiv; repeat apply Rmult_integral_contrapositive_currified; auto; apply Rinv_neq_0_compat; apply pow_nonzero; auto].
    apply Rminus_diag_eq in E2. ring_simplify in E2. rewrite Rmult_0_r, <- E2. field; auto. }
  assert (Q1 : (u1 - v1) * dx * (1 + X ^ 2 + Y ^ 2) = 0).
  { transitivity ((1 + Y ^ 2) * ((u1 - v1) * dx * (1 + X ^ 2) - X * Y * (u2 - v2) * dy) + X * Y * ((u2 - v2) * dy * (1 + Y ^ 2) - X * Y * (u1 - v1) * dx)); [ring|]. rewrite P1, P2. ring. }
  assert (Q2 : (u2 - v2) * dy * (1 + X ^ 2 + Y ^ 2) = 0).
  { transitivity ((1 + X ^ 2) * ((u2 - v2) * dy * (1 + Y ^ 2) - X * Y * (u1 - v1) * dx) + X * Y * ((u1 - v1) * dx * (1 + X ^ 2) - X * Y * (u2 - v2) * dy)); [ring|]. rewrite P1, P2. ring. }
  apply Rmult_integral in Q1. destruct Q1 as [Q1|]; [|contradiction]. apply Rmult_integral in Q1. destruct Q1 as [Q1|]; [|contradiction].
  apply Rmult_integral in Q2. destruct Q2 as [Q2|]; [|contradiction]. apply Rmult_integral in Q2. destruct Q2 as [Q2|]; [|contradiction].
  assert (U1 : u1 = v1) by lra. assert (U2 : u2 = v2) by lra. split; [auto|]. split; [auto|]. rewrite U1, U2 in E3.
  assert (Q3 : (u3 - v3) * (deta / 2 * h3) = 0) by (apply Rminus_diag_eq in E3; ring_simplify in E3; rewrite <- E3; ring).
  apply Rmult_integral in Q3. destruct Q3 as [Q3|Q3]; [lra|]. apply Rmult_integral in Q3. destruct Q3; [lra|contradiction].
Qed.
Lemma column2_wrong : Omega <> 0 -> gridrot o X Y <> 0 -> cross (vscal Omega axis) f2 <> vadd (vscal (G 1 2)%nat f1) (vadd (vscal (G 2 2)%nat f2) (vscal (G 3 2)%nat f3)).
Proof.
  intros HO HG E. rewrite column2 in E. apply frame_indep in E. destruct E as (E & _ & _). destruct col_nz as (K1 & K2 & K3 & K4 & K5).
  unfold G, christoffel3_0 in E. apply Rmult_eq_reg_r in E; [|unfold Rdiv; repeat apply Rmult_integral_contrapositive_currified; auto; try apply Rinv_neq_0_compat; auto; lra].
  unfold fixed_1_02, christoffel3_1_02 in E. change (rot1 o X Y) with (gridrot o X Y) in E.
  assert (Z : Omega * gridrot o X Y * (1 + Y ^ 2) / (1 + X ^ 2 + Y ^ 2) = 0).
  { apply (Rmult_eq_reg_l 2); [|lra]. apply Rminus_diag_eq in E. rewrite Rmult_0_r. rewrite <- Ropp_0, <- E. field. auto. }
  unfold Rdiv in Z. apply Rmult_integral in Z. destruct Z as [Z|Z]; [|apply Rinv_neq_0_compat in Z; auto].
  apply Rmult_integral in Z. destruct Z as [Z|Z]; [|contradiction]. apply Rmult_integral in Z. destruct Z; contradiction.
Qed.
End Column.

(** ** Winds in three dimensions *)
Section Winds3.
Variables (o : rotation) (r X Y lon lat rr dx dy deta h1 h2 h3 : R).
Hypotheses (Hr : 0 < r) (E : cart2sph (vx (to_cartesian o r X Y)) (vy (to_cartesian o r X Y)) (vz (to_cartesian o r X Y)) = (lon, lat, rr)) (Hpole : cos lat <> 0)
  (Hdx : dx <> 0) (Hdy : dy <> 0) (Hde : deta <> 0) (Hh3 : h3 <> 0).
Let f1 := vscal (dx / 2) (e_1 o r h1 X Y).
Let f2 := vscal (dy / 2) (e_2 o r h2 X Y).
Let f3 := vscal (deta / 2) (e_3 o h3 X Y).
Let n := unit_n o X Y.
Lemma f1_tan : f1 = vadd (tan1 o r dx X Y) (vscal (dx / 2 * h1) n).
Proof. unfold f1, e_1, tan1, n1, n, dX. vec3; field; pose proof (delta_pos X Y); pose proof (delta2_pos X Y); lra. Qed.
Lemma f2_tan : f2 = vadd (tan2 o r dy X Y) (vscal (dy / 2 * h2) n).
Proof. unfold f2, e_2, tan2, n2, n, dY. vec3; field; pose proof (delta_pos X Y); pose proof (delta2_pos X Y); lra. Qed.
Lemma n_east : dot n (east lon lat) = 0 /\ dot n (north lon lat) = 0 /\ dot n n = 1.
Proof.
  destruct (east_north o r X Y lon lat rr Hr E) as (_ & _ & _ & A & B & C). fold (unit_n o X Y) in A, B, C. fold n in A, B, C.
  rewrite (dot_comm n (east lon lat)), (dot_comm n (north lon lat)). auto.
Qed.
Lemma contra_vector3 : forall u1 u2 u3, let V := vadd (vscal u1 f1) (vadd (vscal u2 f2) (vscal u3 f3)) in
  contra2wind_3d o r (cos lat) dx dy (metric3_cov dx dy deta r X Y h1 h2 h3) (inv_dzdeta deta h3) X Y u1 u2 u3 = (dot V (east lon lat), dot V (north lon lat), dot V n).
Proof.
  intros u1 u2 u3 V. unfold contra2wind_3d. rewrite (contra_vector o r X Y lon lat rr Hr E Hpole). destruct n_east as (N1 & N2 & N3).
  assert (T : forall a b, dot (vadd (vscal a (tan1 o r dx X Y)) (vscal b (tan2 o r dy X Y))) n = 0) by (intros; apply (tan_n o r X Y dx dy)).
  unfold V. rewrite f1_tan, f2_tan. unfold f3, e_3. fold n.
  f_equal; [f_equal|].
  - rewrite !dot_add_l, !dot_scal_l, !dot_add_l, !dot_scal_l, N1. ring.
  - rewrite !dot_add_l, !dot_scal_l, !dot_add_l, !dot_scal_l, N2. ring.
  - pose proof (T 1 0) as T1. pose proof (T 0 1) as T2. rewrite !dot_add_l, !dot_scal_l in T1, T2.
    rewrite !dot_add_l, !dot_scal_l, !dot_add_l, !dot_scal_l, N3. replace (dot (tan1 o r dx X Y) n) with 0 by lra. replace (dot (tan2 o r dy X Y) n) with 0 by lra.
    unfold metric3_cov, inv_dzdeta; cbn [t13 t23 t33]. field. auto.
Qed.
Lemma wind_vector3 : h1 = 0 -> h2 = 0 -> forall u v w, let '(u1, u2, u3) := wind2contra_3d o r (cos lat) dx dy (metric3_contra dx dy deta r X Y h1 h2 h3) (inv_dzdeta deta h3) X Y u v w in
  vadd (vscal u1 f1) (vadd (vscal u2 f2) (vscal u3 f3)) = vadd (vscal u (east lon lat)) (vadd (vscal v (north lon lat)) (vscal w n)).
Proof.
  intros Z1 Z2 u v w. unfold wind2contra_3d. pose proof (wind_vector o r X Y lon lat rr Hr E Hpole dx dy u v Hdx Hdy) as W.
  destruct (wind2contra_2d o r (cos lat) dx dy X Y u v) as [u1 u2]. rewrite f1_tan, f2_tan. unfold f3, e_3. fold n. rewrite Z1, Z2.
  assert (NZ : 1 + X ^ 2 <> 0 /\ 1 + Y ^ 2 <> 0) by (split; nra). destruct NZ.
  replace (t13 (metric3_contra dx dy deta r X Y 0 0 h3)) with 0 by (unfold metric3_contra; cbn [t13]; field; repeat split; auto; lra).
  replace (t23 (metric3_contra dx dy deta r X Y 0 0 h3)) with 0 by (unfold metric3_contra; cbn [t23]; field; repeat split; auto; lra).
  replace (t33 (metric3_contra dx dy deta r X Y 0 0 h3)) with (4 / deta ^ 2 / h3 ^ 2) by (unfold metric3_contra; cbn [t33]; field; repeat split; auto; lra).
  rewrite !Rmult_0_l, !Rplus_0_r, !Rmult_0_r.
  transitivity (vadd (vadd (vscal u1 (tan1 o r dx X Y)) (vscal u2 (tan2 o r dy X Y))) (vscal w n)); [|rewrite W; vec3; ring].
  unfold inv_dzdeta. vec3; field; auto.
Qed.
Lemma dot_comb : forall u v w, let V := vadd (vscal u (east lon lat)) (vadd (vscal v (north lon lat)) (vscal w n)) in dot V (east lon lat) = u /\ dot V (north lon lat) = v /\ dot V n = w.
Proof.
  intros u v w V. destruct (east_north o r X Y lon lat rr Hr E) as (A1 & A2 & A3 & A4 & A5 & A6). fold (unit_n o X Y) in A4, A5, A6. fold n in A4, A5, A6. unfold V.
  rewrite !dot_add_l, !dot_scal_l, ?(dot_comm n), ?(dot_comm (north lon lat) (east lon lat)), A1, A2, A3, A4, A5. pose proof A6. rewrite ?A6. repeat split; ring.
Qed.
Lemma round_wind3 : h1 = 0 -> h2 = 0 -> forall u v w,
  let '(u1, u2, u3) := wind2contra_3d o r (cos lat) dx dy (metric3_contra dx dy deta r X Y h1 h2 h3) (inv_dzdeta deta h3) X Y u v w in
  contra2wind_3d o r (cos lat) dx dy (metric3_cov dx dy deta r X Y h1 h2 h3) (inv_dzdeta deta h3) X Y u1 u2 u3 = (u, v, w).
Proof.
  intros Z1 Z2 u v w. pose proof (wind_vector3 Z1 Z2 u v w) as W. destruct (wind2contra_3d o r (cos lat) dx dy (metric3_contra dx dy deta r X Y h1 h2 h3) (inv_dzdeta deta h3) X Y u v w) as [[u1 u2] u3].
  rewrite contra_vector3, W. destruct (dot_comb u v w) as (-> & -> & ->). reflexivity.
Qed.
(** with topography a vertical wind comes back with a horizontal part *)
Lemma round_wind3_wrong : h1 <> 0 \/ h2 <> 0 -> forall w, w <> 0 ->
  let '(u1, u2, u3) := wind2contra_3d o r (cos lat) dx dy (metric3_contra dx dy deta r X Y h1 h2 h3) (inv_dzdeta deta h3) X Y 0 0 w in
  let '(u', v', w') := contra2wind_3d o r (cos lat) dx dy (metric3_cov dx dy deta r X Y h1 h2 h3) (inv_dzdeta deta h3) X Y u1 u2 u3 in u' <> 0 \/ v' <> 0.
Proof.
  intros HT w Hw. unfold wind2contra_3d.
  assert (Z : wind2contra_2d o r (cos lat) dx dy X Y 0 0 = (0, 0)).
  { pose proof (round_contra o r X Y lon lat rr Hr E Hpole dx dy 0 0 Hdx Hdy) as RC.
    assert (C0 : contra2wind_2d o r (cos lat) dx dy X Y 0 0 = (0, 0)).
    { rewrite (contra_vector o r X Y lon lat rr Hr E Hpole). f_equal; rewrite dot_add_l, !dot_scal_l; ring. }
    rewrite C0 in RC. exact RC. }
  rewrite Z. set (g := metric3_contra dx dy deta r X Y h1 h2 h3). set (k := w / inv_dzdeta deta h3).
  assert (Hk : k <> 0).
  { unfold k, inv_dzdeta. intros K. apply Hw. replace w with (w / (1 / h3 * 2 / deta) * (2 / (h3 * deta))) by (field; auto). rewrite K. ring. }
  unfold contra2wind_3d. destruct (contra2wind_2d o r (cos lat) dx dy X Y (0 + t13 g * k) (0 + t23 g * k)) as [u' v'] eqn:EC.
  destruct (Req_dec u' 0) as [U|]; [|left; auto]. destruct (Req_dec v' 0) as [V|]; [|right; auto]. exfalso. subst u' v'.
  pose proof (round_contra o r X Y lon lat rr Hr E Hpole dx dy (0 + t13 g * k) (0 + t23 g * k) Hdx Hdy) as RC. rewrite EC, Z in RC.
  apply pair_equal_spec in RC. destruct RC as [R1 R2].
  assert (G1 : t13 g = 0) by (apply (Rmult_eq_reg_r k); auto; lra). assert (G2 : t23 g = 0) by (apply (Rmult_eq_reg_r k); auto; lra).
  destruct (metric3_inverse dx dy deta r X Y h1 h2 h3 Hdx Hdy Hde ltac:(lra) Hh3) as (_ & _ & M13 & _ & _ & M23 & _). fold g in M13, M23. rewrite G1, G2 in M13, M23.
  assert (T33 : t33 g <> 0). { destruct (metric3_inverse dx dy deta r X Y h1 h2 h3 Hdx Hdy Hde ltac:(lra) Hh3) as (_ & _ & _ & _ & _ & _ & _ & _ & M33). fold g in M33. rewrite G1, G2 in M33. intros K. rewrite K in M33. lra. }
  rewrite !Rmult_0_r, !Rplus_0_l in M13, M23. apply Rmult_integral in M13. apply Rmult_integral in M23.
  destruct M13 as [M13|]; [|contradiction]. destruct M23 as [M23|]; [|contradiction]. unfold metric3_cov in M13, M23; cbn [t13 t23] in M13, M23.
  destruct HT as [HT|HT]; [apply Rmult_integral in M13; destruct M13 as [M|M]; [|contradiction]|apply Rmult_integral in M23; destruct M23 as [M|M]; [|contradiction]];
    apply Rmult_integral in M; destruct M as [M|M]; try contradiction; unfold Rdiv in M; apply Rmult_integral in M; destruct M as [M|M]; try lra;
    apply Rmult_integral in M; destruct M; contradiction.
Qed.
End Winds3.

(** ** Interface values of the slopes *)
Lemma itf_average_diag : forall X Y a1 a2, X * Y = 0 -> itf_average X Y a1 a2 a1 a2 = (a1, a2).
Proof.
  intros X Y a1 a2 H. unfold itf_average, itf_contra, itf_cov; cbn [s11 s12 s22]. cbv zeta.
  apply Rmult_integral in H. destruct H; subst; f_equal; field; repeat split; nra.
Qed.
Lemma itf_average_wrong : forall X Y a1 a2, X * Y <> 0 -> (X * Y) ^ 2 <> 1 -> (a1, a2) <> (0, 0) -> itf_average X Y a1 a2 a1 a2 <> (a1, a2).
Proof.
  intros X Y a1 a2 H H1 HA E. unfold itf_average, itf_contra, itf_cov in E; cbn [s11 s12 s22] in E. cbv zeta in E. apply pair_equal_spec in E. destruct E as [E1 E2].
  assert (PX : 0 < 1 + X ^ 2) by nra. assert (PY : 0 < 1 + Y ^ 2) by nra. assert (PD : 0 < 1 + X ^ 2 + Y ^ 2) by nra.
  (* multiplied out: the covariant matrix applied to (a2, a1) times the error of the contravariant one *)
  set (t := X * Y * ((X * Y) ^ 2 - 1) / ((1 + X ^ 2 + (1 + Y ^ 2)) * (1 + X ^ 2 + Y ^ 2))).
  assert (Ht : t <> 0).
  { unfold t, Rdiv. repeat apply Rmult_integral_contrapositive_currified; auto; [intros K; apply H; rewrite K; ring|intros K; apply H; rewrite K; ring|lra|].
    apply Rinv_neq_0_compat. apply Rmult_integral_contrapositive_currified; lra. }
  assert (F1 : t * ((1 + X ^ 2) * a2 - X * Y * a1) = 0).
  { transitivity ((1 + X ^ 2) ^ 2 * (1 + Y ^ 2) / (1 + X ^ 2 + Y ^ 2) ^ 2 * (1 / 2 * ((1 + X ^ 2 + Y ^ 2) / (1 + X ^ 2) * a1 + (1 + X ^ 2 + Y ^ 2) * X * Y / (1 + X ^ 2 + (1 + Y ^ 2)) * a2) + 1 / 2 * ((1 + X ^ 2 + Y ^ 2) / (1 + X ^ 2) * a1 + (1 + X ^ 2 + Y ^ 2) * X * Y / (1 + X ^ 2 + (1 + Y ^ 2)) * a2)) + - X * Y * (1 + X ^ 2) * (1 + Y ^ 2) / (1 + X ^ 2 + Y ^ 2) ^ 2 * (1 / 2 * ((1 + X ^ 2 + Y ^ 2) * X * Y / (1 + X ^ 2 + (1 + Y ^ 2)) * a1 + (1 + X ^ 2 + Y ^ 2) / (1 + Y ^ 2) * a2) + 1 / 2 * ((1 + X ^ 2 + Y ^ 2) * X * Y / (1 + X ^ 2 + (1 + Y ^ 2)) * a1 + (1 + X ^ 2 + Y ^ 2) / (1 + Y ^ 2) * a2)) - a1); [unfold t; field; repeat split; lra|]. rewrite E1. ring. }
  assert (F2 : t * ((1 + Y ^ 2) * a1 - X * Y * a2) = 0).
  { transitivity (- X * Y * (1 + X ^ 2) * (1 + Y ^ 2) / (1 + X ^ 2 + Y ^ 2) ^ 2 * (1 / 2 * ((1 + X ^ 2 + Y ^ 2) / (1 + X ^ 2) * a1 + (1 + X ^ 2 + Y ^ 2) * X * Y / (1 + X ^ 2 + (1 + Y ^ 2)) * a2) + 1 / 2 * ((1 + X ^ 2 + Y ^ 2) / (1 + X ^ 2) * a1 + (1 + X ^ 2 + Y ^ 2) * X * Y / (1 + X ^ 2 + (1 + Y ^ 2)) * a2)) + (1 + X ^ 2) * (1 + Y ^ 2) ^ 2 / (1 + X ^ 2 + Y ^ 2) ^ 2 * (1 / 2 * ((1 + X ^ 2 + Y ^ 2) * X * Y / (1 + X ^ 2 + (1 + Y ^ 2)) * a1 + (1 + X ^ 2 + Y ^ 2) / (1 + Y ^ 2) * a2) + 1 / 2 * ((1 + X ^ 2 + Y ^ 2) * X * Y / (1 + X ^ 2 + (1 + Y ^ 2)) * a1 + (1 + X ^ 2 + Y ^ 2) / (1 + Y ^ 2) * a2)) - a2); [unfold t; field; repeat split; lra|]. rewrite E2. ring. }
  apply Rmult_integral in F1. destruct F1 as [|F1]; [contradiction|]. apply Rmult_integral in F2. destruct F2 as [|F2]; [contradiction|].
  assert (A1 : a1 * (1 + X ^ 2 + Y ^ 2) = 0) by (transitivity ((1 + X ^ 2) * ((1 + Y ^ 2) * a1 - X * Y * a2) + X * Y * ((1 + X ^ 2) * a2 - X * Y * a1)); [ring|rewrite F1, F2; ring]).
  assert (A2 : a2 * (1 + X ^ 2 + Y ^ 2) = 0) by (transitivity ((1 + Y ^ 2) * ((1 + X ^ 2) * a2 - X * Y * a1) + X * Y * ((1 + Y ^ 2) * a1 - X * Y * a2)); [ring|rewrite F1, F2; ring]).
  apply Rmult_integral in A1. apply Rmult_integral in A2. apply HA. f_equal; [destruct A1; lra|destruct A2; lra].
Qed.
