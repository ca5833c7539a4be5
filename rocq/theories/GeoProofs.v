From Coq Require Import Reals Lra Lia.
From Coquelicot Require Import Coquelicot.
From Verif Require Import GeoModel GeoSpec.
Local Open Scope R_scope.

Lemma sq_pos : forall x, x <> 0 -> 0 < x ^ 2.
Proof. intros x H. apply Rsqr_pos_lt in H. unfold Rsqr in H. nra. Qed.
(** ** Vectors *)
Lemma dot_add_l : forall a b c, dot (vadd a b) c = dot a c + dot b c. Proof. intros. unfold dot, vadd, vx, vy, vz; cbn. ring. Qed.
Lemma dot_add_r : forall a b c, dot a (vadd b c) = dot a b + dot a c. Proof. intros. unfold dot, vadd, vx, vy, vz; cbn. ring. Qed.
Lemma dot_scal_l : forall k a b, dot (vscal k a) b = k * dot a b. Proof. intros. unfold dot, vscal, vx, vy, vz; cbn. ring. Qed.
Lemma dot_scal_r : forall k a b, dot a (vscal k b) = k * dot a b. Proof. intros. unfold dot, vscal, vx, vy, vz; cbn. ring. Qed.
Lemma dot_comm : forall a b, dot a b = dot b a. Proof. intros. unfold dot. ring. Qed.
Lemma vec_eq : forall a b : vec, vx a = vx b -> vy a = vy b -> vz a = vz b -> a = b.
Proof. intros [[a1 a2] a3] [[b1 b2] b3]; unfold vx, vy, vz; cbn; intros; subst; reflexivity. Qed.

(** ** The frame of a panel *)
Definition fC (o : rotation) : vec := (cos (lon_p o) * cos (lat_p o), sin (lon_p o) * cos (lat_p o), sin (lat_p o)).
Definition fE1 (o : rotation) : vec :=
  (cos (lon_p o) * sin (lat_p o) * sin (angle_p o) - sin (lon_p o) * cos (angle_p o), sin (lon_p o) * sin (lat_p o) * sin (angle_p o) + cos (lon_p o) * cos (angle_p o), - cos (lat_p o) * sin (angle_p o)).
Definition fE2 (o : rotation) : vec :=
  (- (cos (lon_p o) * sin (lat_p o) * cos (angle_p o) + sin (lon_p o) * sin (angle_p o)), - (sin (lon_p o) * sin (lat_p o) * cos (angle_p o) - cos (lon_p o) * sin (angle_p o)), cos (lat_p o) * cos (angle_p o)).
Lemma sc1 : forall x, sin x ^ 2 = 1 - cos x ^ 2.
Proof. intros x. pose proof (sin2_cos2 x) as H. unfold Rsqr in H. lra. Qed.
Ltac trig o := generalize (sc1 (lon_p o)) (sc1 (lat_p o)) (sc1 (angle_p o));
  generalize (sin (lon_p o)) (cos (lon_p o)) (sin (lat_p o)) (cos (lat_p o)) (sin (angle_p o)) (cos (angle_p o)); intros sl cl sp cp sa ca Hl Hp Ha.
Definition orthonormal (a b c : vec) : Prop := dot a a = 1 /\ dot b b = 1 /\ dot c c = 1 /\ dot a b = 0 /\ dot a c = 0 /\ dot b c = 0.
Lemma frame_orthonormal : forall o, orthonormal (fC o) (fE1 o) (fE2 o).
Proof.
  intros o. unfold orthonormal, dot, fC, fE1, fE2, vx, vy, vz; cbn [fst snd]. trig o.
  repeat split; ring_simplify; rewrite ?Hl, ?Hp, ?Ha; ring_simplify; rewrite ?Hl, ?Hp, ?Ha; ring_simplify; rewrite ?Hl, ?Hp, ?Ha; ring.
Qed.
Definition gn (o : rotation) (X Y : R) : vec := vadd (fC o) (vadd (vscal X (fE1 o)) (vscal Y (fE2 o))).
Lemma cartesian_gn : forall o r X Y, to_cartesian o r X Y = vscal (r / delta X Y) (gn o X Y).
Proof. intros. unfold to_cartesian, gn, fC, fE1, fE2, delta, delta2. apply vec_eq; unfold vadd, vscal, vx, vy, vz; cbn [fst snd]; ring. Qed.

Lemma delta2_pos : forall X Y, 0 < delta2 X Y. Proof. intros. unfold delta2. nra. Qed.
Lemma delta_pos : forall X Y, 0 < delta X Y. Proof. intros. unfold delta. apply sqrt_lt_R0, delta2_pos. Qed.
Lemma delta_sq : forall X Y, delta X Y ^ 2 = delta2 X Y.
Proof. intros. unfold delta. apply pow2_sqrt. pose proof (delta2_pos X Y). lra. Qed.

(** ** Derivatives along the gnomonic coordinates *)
Definition dX (o : rotation) (r X Y : R) : vec := vadd (vscal (r / delta X Y) (fE1 o)) (vscal (- (r * X / (delta2 X Y * delta X Y))) (gn o X Y)).
Definition dY (o : rotation) (r X Y : R) : vec := vadd (vscal (r / delta X Y) (fE2 o)) (vscal (- (r * Y / (delta2 X Y * delta X Y))) (gn o X Y)).
Lemma derive_comp_X : forall r Y a b c X, is_derive (fun X => r / delta X Y * (a + (X * b + Y * c))) X (r / delta X Y * b + - (r * X / (delta2 X Y * delta X Y)) * (a + (X * b + Y * c))).
Proof.
  intros. unfold delta, delta2. pose proof (delta2_pos X Y) as P. pose proof (delta_pos X Y) as Q. unfold delta in Q. unfold delta2 in *. auto_derive.
  - change (X * (X * 1)) with (X ^ 2). change (Y * (Y * 1)) with (Y ^ 2). repeat split; auto. lra.
  - change (X * (X * 1)) with (X ^ 2). change (Y * (Y * 1)) with (Y ^ 2).
    assert (E : 1 + X ^ 2 + Y ^ 2 = sqrt (1 + X ^ 2 + Y ^ 2) ^ 2) by (symmetry; apply pow2_sqrt; lra).
    set (d := sqrt (1 + X ^ 2 + Y ^ 2)) in *. rewrite E. field. lra.
Qed.
Lemma derive_comp_Y : forall r X a b c Y, is_derive (fun Y => r / delta X Y * (a + (X * b + Y * c))) Y (r / delta X Y * c + - (r * Y / (delta2 X Y * delta X Y)) * (a + (X * b + Y * c))).
Proof.
  intros. unfold delta, delta2. pose proof (delta2_pos X Y) as P. pose proof (delta_pos X Y) as Q. unfold delta in Q. unfold delta2 in *. auto_derive.
  - change (X * (X * 1)) with (X ^ 2). change (Y * (Y * 1)) with (Y ^ 2). repeat split; auto. lra.
  - change (X * (X * 1)) with (X ^ 2). change (Y * (Y * 1)) with (Y ^ 2).
    assert (E : 1 + X ^ 2 + Y ^ 2 = sqrt (1 + X ^ 2 + Y ^ 2) ^ 2) by (symmetry; apply pow2_sqrt; lra).
    set (d := sqrt (1 + X ^ 2 + Y ^ 2)) in *. rewrite E. field. lra.
Qed.
Lemma derive3_X : forall o r X Y, is_derive3 (fun X => to_cartesian o r X Y) X (dX o r X Y).
Proof.
  intros. split; [|split].
  all: eapply is_derive_ext; [intros t; rewrite cartesian_gn; unfold vscal, gn, vadd, vx, vy, vz; cbn [fst snd]; reflexivity|].
  all: unfold dX, vadd, vscal, gn, vx, vy, vz; cbn [fst snd]; apply derive_comp_X.
Qed.
Lemma derive3_Y : forall o r X Y, is_derive3 (fun Y => to_cartesian o r X Y) Y (dY o r X Y).
Proof.
  intros. split; [|split].
  all: eapply is_derive_ext; [intros t; rewrite cartesian_gn; unfold vscal, gn, vadd, vx, vy, vz; cbn [fst snd]; reflexivity|].
  all: unfold dY, vadd, vscal, gn, vx, vy, vz; cbn [fst snd]; apply derive_comp_Y.
Qed.
Lemma derive_tan : forall a d s, regular (a + d / 2 * s) -> is_derive (fun s => tan (a + d / 2 * s)) s (d / 2 * (1 + tan (a + d / 2 * s) ^ 2)).
Proof.
  intros a d s H. unfold tan. unfold regular in H. auto_derive; [exact H|]. field. exact H.
Qed.
Lemma derive3_comp : forall f g t d e, is_derive3 f (g t) d -> is_derive g t e -> is_derive3 (fun s => f (g s)) t (vscal e d).
Proof.
  intros f g t d e [H1 [H2 H3]] H. split; [|split].
  - exact (is_derive_comp (fun x => vx (f x)) g t (vx d) e H1 H).
  - exact (is_derive_comp (fun x => vy (f x)) g t (vy d) e H2 H).
  - exact (is_derive_comp (fun x => vz (f x)) g t (vz d) e H3 H).
Qed.
Definition tan1 (o : rotation) (r dx1 X Y : R) : vec := vscal (dx1 / 2 * (1 + X ^ 2)) (dX o r X Y).
Definition tan2 (o : rotation) (r dx2 X Y : R) : vec := vscal (dx2 / 2 * (1 + Y ^ 2)) (dY o r X Y).
Lemma place_tangents : forall o r a1 a2 dx1 dx2 xi1 xi2, regular (a1 + dx1 / 2 * xi1) -> regular (a2 + dx2 / 2 * xi2) ->
  let X := tan (a1 + dx1 / 2 * xi1) in let Y := tan (a2 + dx2 / 2 * xi2) in tangents o r a1 a2 dx1 dx2 xi1 xi2 (tan1 o r dx1 X Y) (tan2 o r dx2 X Y).
Proof.
  intros o r a1 a2 dx1 dx2 xi1 xi2 H1 H2 X Y. split.
  - apply (derive3_comp (fun X => to_cartesian o r X Y) (fun s => tan (a1 + dx1 / 2 * s))); [apply derive3_X|apply derive_tan; auto].
  - apply (derive3_comp (fun Y => to_cartesian o r X Y) (fun s => tan (a2 + dx2 / 2 * s))); [apply derive3_Y|apply derive_tan; auto].
Qed.
Lemma derive3_unique : forall f t d e, is_derive3 f t d -> is_derive3 f t e -> d = e.
Proof. intros f t d e [A1 [A2 A3]] [B1 [B2 B3]]. apply vec_eq.
  - rewrite <- (is_derive_unique _ _ _ A1). apply is_derive_unique; auto.
  - rewrite <- (is_derive_unique _ _ _ A2). apply is_derive_unique; auto.
  - rewrite <- (is_derive_unique _ _ _ A3). apply is_derive_unique; auto.
Qed.

(** ** The metric *)
Lemma dots : forall o X Y, dot (fE1 o) (gn o X Y) = X /\ dot (fE2 o) (gn o X Y) = Y /\ dot (gn o X Y) (gn o X Y) = delta2 X Y /\ dot (fE1 o) (fE2 o) = 0 /\ dot (fE1 o) (fE1 o) = 1 /\ dot (fE2 o) (fE2 o) = 1.
Proof.
  intros o X Y. destruct (frame_orthonormal o) as (A & B & C & D & E & F). unfold gn. rewrite !dot_add_l, !dot_add_r, !dot_scal_l, !dot_scal_r.
  rewrite (dot_comm (fE1 o) (fC o)), (dot_comm (fE2 o) (fC o)), (dot_comm (fE2 o) (fE1 o)), A, B, C, D, E, F. unfold delta2. repeat split; ring.
Qed.
Lemma dXX : forall o r X Y, dot (dX o r X Y) (dX o r X Y) = r ^ 2 * (1 + Y ^ 2) / delta X Y ^ 4.
Proof.
  intros. destruct (dots o X Y) as (A & B & C & D & E & F). unfold dX. rewrite !dot_add_l, !dot_add_r, !dot_scal_l, !dot_scal_r. rewrite (dot_comm (gn o X Y) (fE1 o)), A, C, E.
  pose proof (delta_pos X Y). pose proof (delta_sq X Y) as S. rewrite <- S. set (d := delta X Y) in *. replace (1 + Y ^ 2) with (d ^ 2 - X ^ 2) by (rewrite S; unfold delta2; ring). field. lra.
Qed.
Lemma dYY : forall o r X Y, dot (dY o r X Y) (dY o r X Y) = r ^ 2 * (1 + X ^ 2) / delta X Y ^ 4.
Proof.
  intros. destruct (dots o X Y) as (A & B & C & D & E & F). unfold dY. rewrite !dot_add_l, !dot_add_r, !dot_scal_l, !dot_scal_r. rewrite (dot_comm (gn o X Y) (fE2 o)), B, C, F.
  pose proof (delta_pos X Y). pose proof (delta_sq X Y) as S. rewrite <- S. set (d := delta X Y) in *. replace (1 + X ^ 2) with (d ^ 2 - Y ^ 2) by (rewrite S; unfold delta2; ring). field. lra.
Qed.
Lemma dXY : forall o r X Y, dot (dX o r X Y) (dY o r X Y) = - (r ^ 2 * X * Y / delta X Y ^ 4).
Proof.
  intros. destruct (dots o X Y) as (A & B & C & D & E & F). unfold dX, dY. rewrite !dot_add_l, !dot_add_r, !dot_scal_l, !dot_scal_r. rewrite (dot_comm (gn o X Y) (fE2 o)), A, B, C, D.
  pose proof (delta_pos X Y). pose proof (delta_sq X Y) as S. rewrite <- S. set (d := delta X Y) in *. field. lra.
Qed.
Lemma metric_is_pullback : forall o R0 a1 a2 dx1 dx2 xi1 xi2 d1 d2, regular (a1 + dx1 / 2 * xi1) -> regular (a2 + dx2 / 2 * xi2) ->
  tangents o R0 a1 a2 dx1 dx2 xi1 xi2 d1 d2 -> let g := H_cov R0 dx1 dx2 (tan (a1 + dx1 / 2 * xi1)) (tan (a2 + dx2 / 2 * xi2)) in
  s11 g = dot d1 d1 /\ s12 g = dot d1 d2 /\ s22 g = dot d2 d2.
Proof.
  intros o R0 a1 a2 dx1 dx2 xi1 xi2 d1 d2 H1 H2 [T1 T2]. destruct (place_tangents o R0 a1 a2 dx1 dx2 xi1 xi2 H1 H2) as [U1 U2].
  rewrite (derive3_unique _ _ _ _ T1 U1), (derive3_unique _ _ _ _ T2 U2). set (X := tan _). set (Y := tan _). cbv zeta. unfold H_cov, tan1, tan2. cbn [s11 s12 s22].
  rewrite !dot_scal_l, !dot_scal_r, dXX, dXY, dYY. pose proof (delta_pos X Y). split; [|split]; field; lra.
Qed.
Lemma cov_contra : forall R0 dx1 dx2 X Y, R0 <> 0 -> dx1 <> 0 -> dx2 <> 0 -> inverse2 (H_cov R0 dx1 dx2 X Y) (H_contra R0 dx1 dx2 X Y).
Proof.
  intros R0 dx1 dx2 X Y HR H1 H2. unfold inverse2, H_cov, H_contra; cbn [s11 s12 s22]. pose proof (delta_pos X Y). pose proof (delta_sq X Y) as S.
  replace (delta X Y ^ 4) with (delta2 X Y ^ 2) by (rewrite <- S; ring). assert (P : delta2 X Y = 1 + X ^ 2 + Y ^ 2) by reflexivity.
  pose proof (delta2_pos X Y) as Q. assert (1 + X ^ 2 <> 0) by nra. assert (1 + Y ^ 2 <> 0) by nra. repeat split; rewrite P in *; field; repeat split; auto; try nra; lra.
Qed.
Lemma cov_positive : forall R0 dx1 dx2 X Y, R0 <> 0 -> dx1 <> 0 -> dx2 <> 0 -> positive2 (H_cov R0 dx1 dx2 X Y).
Proof.
  intros R0 dx1 dx2 X Y HR H1 H2 a b Hab. unfold H_cov; cbn [s11 s12 s22]. pose proof (delta_pos X Y) as P. set (d := delta X Y) in *.
  assert (K : 0 < R0 ^ 2 / d ^ 4 * (1 + X ^ 2) * (1 + Y ^ 2) / 4).
  { assert (0 < R0 ^ 2) by (apply sq_pos; auto). assert (0 < d ^ 4) by (apply pow_lt; auto). assert (0 < R0 ^ 2 / d ^ 4) by (apply Rdiv_lt_0_compat; auto).
    assert (0 < 1 + X ^ 2) by nra. assert (0 < 1 + Y ^ 2) by nra. apply Rdiv_lt_0_compat; [|lra]. apply Rmult_lt_0_compat; [apply Rmult_lt_0_compat|]; auto. }
  replace (R0 ^ 2 / d ^ 4 * (1 + X ^ 2) ^ 2 * (1 + Y ^ 2) * (dx1 ^ 2 / 4) * a ^ 2 + 2 * (- (R0 ^ 2 / d ^ 4) * X * Y * (1 + X ^ 2) * (1 + Y ^ 2) * (dx1 * dx2 / 4)) * a * b + R0 ^ 2 / d ^ 4 * (1 + X ^ 2) * (1 + Y ^ 2) ^ 2 * (dx2 ^ 2 / 4) * b ^ 2)
    with (R0 ^ 2 / d ^ 4 * (1 + X ^ 2) * (1 + Y ^ 2) / 4 * ((dx1 * a) ^ 2 + (dx2 * b) ^ 2 + (X * (dx1 * a) - Y * (dx2 * b)) ^ 2)) by (field; lra).
  apply Rmult_lt_0_compat; auto. assert (0 <= (X * (dx1 * a) - Y * (dx2 * b)) ^ 2) by (apply pow2_ge_0).
  destruct Hab as [Ha|Hb].
  - assert (0 < (dx1 * a) ^ 2) by (apply sq_pos, Rmult_integral_contrapositive_currified; auto). assert (0 <= (dx2 * b) ^ 2) by (apply pow2_ge_0). lra.
  - assert (0 < (dx2 * b) ^ 2) by (apply sq_pos, Rmult_integral_contrapositive_currified; auto). assert (0 <= (dx1 * a) ^ 2) by (apply pow2_ge_0). lra.
Qed.
Lemma det_cov : forall R0 dx1 dx2 X Y, det2 (H_cov R0 dx1 dx2 X Y) = (2 * sqrtG R0 dx1 dx2 X Y) ^ 2.
Proof.
  intros R0 dx1 dx2 X Y. unfold det2, H_cov, sqrtG; cbn [s11 s12 s22]. pose proof (delta_pos X Y) as P. pose proof (delta_sq X Y) as S. rewrite <- S.
  set (d := delta X Y) in *. replace (X * Y) with (X * Y) by ring. assert (E : (1 + X ^ 2) * (1 + Y ^ 2) = d ^ 2 + X ^ 2 * Y ^ 2) by (rewrite S; unfold delta2; ring).
  transitivity ((R0 ^ 2 / d ^ 4) ^ 2 * (dx1 * dx2 / 4) ^ 2 * ((1 + X ^ 2) * (1 + Y ^ 2)) ^ 2 * ((1 + X ^ 2) * (1 + Y ^ 2) - X ^ 2 * Y ^ 2)); [field; lra|].
  transitivity ((R0 ^ 2 * ((1 + X ^ 2) * (1 + Y ^ 2)) / (d ^ 2 * d) * (dx1 * dx2 / 4)) ^ 2); [|field; lra]. rewrite E. field. lra.
Qed.
