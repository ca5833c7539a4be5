(** Christoffel symbols, Coriolis terms and area of the two-dimensional metric *)
From Coq Require Import Reals Lra Lia.
From Coquelicot Require Import Coquelicot.
From Verif Require Import GeoModel GeoSpec GeoProofs.
Local Open Scope R_scope.

(** ** Christoffel symbols *)
Lemma delta4 : forall X Y, delta X Y ^ 4 = delta2 X Y ^ 2.
Proof. intros. rewrite <- delta_sq. ring. Qed.
(** derivatives of the metric along the gnomonic coordinates *)
Definition cov_dX (R0 dx1 dx2 X Y : R) : sym2 :=
  let D := delta2 X Y in
  {| s11 := R0 ^ 2 * (1 + Y ^ 2) * (dx1 ^ 2 / 4) * (4 * X * (1 + X ^ 2) / D ^ 2 - 4 * X * (1 + X ^ 2) ^ 2 / D ^ 3);
     s12 := - R0 ^ 2 * Y * (1 + Y ^ 2) * (dx1 * dx2 / 4) * ((1 + 3 * X ^ 2) / D ^ 2 - 4 * X ^ 2 * (1 + X ^ 2) / D ^ 3);
     s22 := R0 ^ 2 * (1 + Y ^ 2) ^ 2 * (dx2 ^ 2 / 4) * (2 * X / D ^ 2 - 4 * X * (1 + X ^ 2) / D ^ 3) |}.
Definition cov_dY (R0 dx1 dx2 X Y : R) : sym2 :=
  let D := delta2 X Y in
  {| s11 := R0 ^ 2 * (1 + X ^ 2) ^ 2 * (dx1 ^ 2 / 4) * (2 * Y / D ^ 2 - 4 * Y * (1 + Y ^ 2) / D ^ 3);
     s12 := - R0 ^ 2 * X * (1 + X ^ 2) * (dx1 * dx2 / 4) * ((1 + 3 * Y ^ 2) / D ^ 2 - 4 * Y ^ 2 * (1 + Y ^ 2) / D ^ 3);
     s22 := R0 ^ 2 * (1 + X ^ 2) * (dx2 ^ 2 / 4) * (4 * Y * (1 + Y ^ 2) / D ^ 2 - 4 * Y * (1 + Y ^ 2) ^ 2 / D ^ 3) |}.
Lemma derive_cov_X : forall R0 dx1 dx2 X Y, is_derive_sym2 (fun X => H_cov R0 dx1 dx2 X Y) X (cov_dX R0 dx1 dx2 X Y).
Proof.
  intros R0 dx1 dx2 X Y. pose proof (delta2_pos X Y) as P. split; [|split].
  all: eapply is_derive_ext; [intros t; unfold H_cov; cbn [s11 s12 s22]; rewrite (delta4 t Y); reflexivity|]; unfold cov_dX; cbn [s11 s12 s22]; unfold delta2 in *.
  all: auto_derive; [repeat split; auto; cbn [pow]; nra|].
  all: field; nra.
Qed.
Lemma derive_cov_Y : forall R0 dx1 dx2 X Y, is_derive_sym2 (fun Y => H_cov R0 dx1 dx2 X Y) Y (cov_dY R0 dx1 dx2 X Y).
Proof.
  intros R0 dx1 dx2 X Y. pose proof (delta2_pos X Y) as P. split; [|split].
  all: eapply is_derive_ext; [intros t; unfold H_cov; cbn [s11 s12 s22]; rewrite (delta4 X t); reflexivity|]; unfold cov_dY; cbn [s11 s12 s22]; unfold delta2 in *.
  all: auto_derive; [repeat split; auto; cbn [pow]; nra|].
  all: field; nra.
Qed.
Definition scale2 (k : R) (g : sym2) : sym2 := {| s11 := k * s11 g; s12 := k * s12 g; s22 := k * s22 g |}.
Lemma derive_sym2_comp : forall f g t d e, is_derive_sym2 f (g t) d -> is_derive g t e -> is_derive_sym2 (fun s => f (g s)) t (scale2 e d).
Proof.
  intros f g t d e [H1 [H2 H3]] H. split; [|split].
  - exact (is_derive_comp (fun x => s11 (f x)) g t (s11 d) e H1 H).
  - exact (is_derive_comp (fun x => s12 (f x)) g t (s12 d) e H2 H).
  - exact (is_derive_comp (fun x => s22 (f x)) g t (s22 d) e H3 H).
Qed.
Lemma derive_sym2_unique : forall f t d e, is_derive_sym2 f t d -> is_derive_sym2 f t e -> d = e.
Proof.
  intros f t [d1 d2 d3] [e1 e2 e3] [A1 [A2 A3]] [B1 [B2 B3]]. cbn [s11 s12 s22] in *. f_equal.
  - rewrite <- (is_derive_unique _ _ _ A1). apply is_derive_unique; auto.
  - rewrite <- (is_derive_unique _ _ _ A2). apply is_derive_unique; auto.
  - rewrite <- (is_derive_unique _ _ _ A3). apply is_derive_unique; auto.
Qed.
Lemma christoffel_point : forall R0 dx X Y, R0 <> 0 -> dx <> 0 ->
  levi_civita (H_contra R0 dx dx X Y) (scale2 (dx / 2 * (1 + X ^ 2)) (cov_dX R0 dx dx X Y)) (scale2 (dx / 2 * (1 + Y ^ 2)) (cov_dY R0 dx dx X Y))
    (christoffel_1 dx dx X Y) (christoffel_2 dx dx X Y).
Proof.
  intros R0 dx X Y HR Hd. unfold levi_civita, H_contra, scale2, cov_dX, cov_dY, christoffel_1, christoffel_2; cbn [s11 s12 s22].
  pose proof (delta2_pos X Y) as P. unfold delta2 in *. assert (1 + X ^ 2 <> 0) by nra. assert (1 + Y ^ 2 <> 0) by nra.
  repeat split; field; repeat split; auto; lra.
Qed.
Lemma christoffel_levi_civita : forall R0 a1 a2 dx xi1 xi2 D1 D2, R0 <> 0 -> dx <> 0 -> regular (a1 + dx / 2 * xi1) -> regular (a2 + dx / 2 * xi2) ->
  let X := fun s => tan (a1 + dx / 2 * s) in let Y := fun s => tan (a2 + dx / 2 * s) in
  is_derive_sym2 (fun s => H_cov R0 dx dx (X s) (Y xi2)) xi1 D1 -> is_derive_sym2 (fun s => H_cov R0 dx dx (X xi1) (Y s)) xi2 D2 ->
  levi_civita (H_contra R0 dx dx (X xi1) (Y xi2)) D1 D2 (christoffel_1 dx dx (X xi1) (Y xi2)) (christoffel_2 dx dx (X xi1) (Y xi2)).
Proof.
  intros R0 a1 a2 dx xi1 xi2 D1 D2 HR Hd H1 H2 X Y E1 E2.
  pose proof (derive_sym2_comp (fun x => H_cov R0 dx dx x (Y xi2)) X xi1 _ _ (derive_cov_X R0 dx dx (X xi1) (Y xi2)) (derive_tan a1 dx xi1 H1)) as F1.
  pose proof (derive_sym2_comp (fun y => H_cov R0 dx dx (X xi1) y) Y xi2 _ _ (derive_cov_Y R0 dx dx (X xi1) (Y xi2)) (derive_tan a2 dx xi2 H2)) as F2.
  rewrite (derive_sym2_unique _ _ _ _ E1 F1), (derive_sym2_unique _ _ _ _ E2 F2). apply christoffel_point; auto.
Qed.
(** the metric does have these derivatives *)
Lemma metric_derivable : forall R0 a1 a2 dx1 dx2 xi1 xi2, regular (a1 + dx1 / 2 * xi1) -> regular (a2 + dx2 / 2 * xi2) ->
  exists D1 D2, is_derive_sym2 (fun s => H_cov R0 dx1 dx2 (tan (a1 + dx1 / 2 * s)) (tan (a2 + dx2 / 2 * xi2))) xi1 D1 /\
    is_derive_sym2 (fun s => H_cov R0 dx1 dx2 (tan (a1 + dx1 / 2 * xi1)) (tan (a2 + dx2 / 2 * s))) xi2 D2.
Proof.
  intros R0 a1 a2 dx1 dx2 xi1 xi2 H1 H2. do 2 eexists. split.
  - exact (derive_sym2_comp (fun x => H_cov R0 dx1 dx2 x _) _ xi1 _ _ (derive_cov_X R0 dx1 dx2 _ _) (derive_tan a1 dx1 xi1 H1)).
  - exact (derive_sym2_comp (fun y => H_cov R0 dx1 dx2 _ y) _ xi2 _ _ (derive_cov_Y R0 dx1 dx2 _ _) (derive_tan a2 dx2 xi2 H2)).
Qed.

(** ** The rotation of the planet *)
Lemma frame_right : forall o, cross (fE1 o) (fE2 o) = fC o /\ cross (fE2 o) (fC o) = fE1 o /\ cross (fC o) (fE1 o) = fE2 o.
Proof.
  intros o. split; [|split]; apply vec_eq; unfold cross, fC, fE1, fE2, vx, vy, vz; cbn [fst snd]; trig o;
    ring_simplify; rewrite ?Hl, ?Hp, ?Ha; ring_simplify; rewrite ?Hl, ?Hp, ?Ha; ring_simplify; rewrite ?Hl, ?Hp, ?Ha; ring.
Qed.
Lemma triple : forall a b c, dot (cross a b) c = dot a (cross b c).
Proof. intros. unfold dot, cross, vx, vy, vz; cbn [fst snd]. ring. Qed.
Lemma cross_self : forall a, cross a a = (0, 0, 0).
Proof. intros. apply vec_eq; unfold cross, vx, vy, vz; cbn [fst snd]; ring. Qed.
Lemma cross_anti : forall a b, cross a b = vopp (cross b a).
Proof. intros. apply vec_eq; unfold vopp, cross, vx, vy, vz; cbn [fst snd]; ring. Qed.
Lemma cross_lin : forall k l a b c, cross (vadd (vscal k a) (vscal l b)) c = vadd (vscal k (cross a c)) (vscal l (cross b c)).
Proof. intros. apply vec_eq; unfold vadd, vscal, cross, vx, vy, vz; cbn [fst snd]; ring. Qed.
Lemma cross_lin_r : forall k l a b c, cross c (vadd (vscal k a) (vscal l b)) = vadd (vscal k (cross c a)) (vscal l (cross c b)).
Proof. intros. apply vec_eq; unfold vadd, vscal, cross, vx, vy, vz; cbn [fst snd]; ring. Qed.
Lemma cross_gn : forall o X Y, cross (fE1 o) (gn o X Y) = vadd (vscal Y (fC o)) (vscal (- 1) (fE2 o)) /\ cross (gn o X Y) (fE2 o) = vadd (vscal X (fC o)) (vscal (- 1) (fE1 o)).
Proof.
  intros o X Y. destruct (frame_right o) as (A & B & C). unfold gn.
  set (c := fC o) in *. set (e1 := fE1 o) in *. set (e2 := fE2 o) in *.
  assert (C' : cross e1 c = vopp e2) by (rewrite cross_anti, C; reflexivity). assert (B' : cross c e2 = vopp e1) by (rewrite cross_anti, B; reflexivity).
  split.
  - transitivity (vadd (cross e1 c) (vadd (vscal X (cross e1 e1)) (vscal Y (cross e1 e2)))); [apply vec_eq; unfold cross, vadd, vscal, vx, vy, vz; cbn [fst snd]; ring|].
    rewrite C', A, cross_self. apply vec_eq; unfold vadd, vscal, vopp, vx, vy, vz; cbn [fst snd]; ring.
  - transitivity (vadd (cross c e2) (vadd (vscal X (cross e1 e2)) (vscal Y (cross e2 e2)))); [apply vec_eq; unfold cross, vadd, vscal, vx, vy, vz; cbn [fst snd]; ring|].
    rewrite B', A, cross_self. apply vec_eq; unfold vadd, vscal, vopp, vx, vy, vz; cbn [fst snd]; ring.
Qed.
Lemma cross_dXdY : forall o r X Y, cross (dX o r X Y) (dY o r X Y) = vscal (r ^ 2 / delta X Y ^ 4) (gn o X Y).
Proof.
  intros o r X Y. unfold dX, dY. rewrite cross_lin, !cross_lin_r, cross_self. destruct (cross_gn o X Y) as [A B]. destruct (frame_right o) as (C & _). rewrite A, B, C.
  pose proof (delta_pos X Y) as P. pose proof (delta_sq X Y) as S. unfold delta2 in S. rewrite <- delta_sq. set (d := delta X Y) in *. unfold gn.
  apply vec_eq; unfold vadd, vscal, vx, vy, vz; cbn [fst snd].
  - transitivity (r ^ 2 / d ^ 4 * ((d ^ 2 - X ^ 2 - Y ^ 2) * fst (fst (fC o)) + (X * fst (fst (fE1 o)) + Y * fst (fst (fE2 o))))); [field; lra|rewrite S; ring].
  - transitivity (r ^ 2 / d ^ 4 * ((d ^ 2 - X ^ 2 - Y ^ 2) * snd (fst (fC o)) + (X * snd (fst (fE1 o)) + Y * snd (fst (fE2 o))))); [field; lra|rewrite S; ring].
  - transitivity (r ^ 2 / d ^ 4 * ((d ^ 2 - X ^ 2 - Y ^ 2) * snd (fC o) + (X * snd (fE1 o) + Y * snd (fE2 o)))); [field; lra|rewrite S; ring].
Qed.
Lemma axis_gn : forall o X Y, dot axis (gn o X Y) = gridrot o X Y.
Proof. intros. unfold dot, axis, gn, gridrot, fC, fE1, fE2, vadd, vscal, vx, vy, vz; cbn [fst snd]. ring. Qed.
Lemma coriolis_terms : forall o Omega R0 a1 a2 dx xi1 xi2 d1 d2 u1 u2, regular (a1 + dx / 2 * xi1) -> regular (a2 + dx / 2 * xi2) ->
  tangents o R0 a1 a2 dx dx xi1 xi2 d1 d2 ->
  let X := tan (a1 + dx / 2 * xi1) in let Y := tan (a2 + dx / 2 * xi2) in
  let spin := cross (vscal Omega axis) (vadd (vscal u1 d1) (vscal u2 d2)) in
  let terms := vadd (vscal (christoffel_1_01 o Omega X Y * u1 + christoffel_1_02 o Omega X Y * u2) d1) (vscal (christoffel_2_01 o Omega X Y * u1 + christoffel_2_02 o Omega X Y * u2) d2) in
  dot spin d1 = dot terms d1 /\ dot spin d2 = dot terms d2.
Proof.
  intros o Omega R0 a1 a2 dx xi1 xi2 d1 d2 u1 u2 H1 H2 [T1 T2]. destruct (place_tangents o R0 a1 a2 dx dx xi1 xi2 H1 H2) as [U1 U2].
  rewrite (derive3_unique _ _ _ _ T1 U1), (derive3_unique _ _ _ _ T2 U2). set (X := tan _). set (Y := tan _). cbv zeta. unfold tan1, tan2.
  rewrite cross_lin_r. rewrite !dot_add_l, !dot_scal_l, !dot_scal_r.
  rewrite (dot_comm (dY o R0 X Y) (dX o R0 X Y)), dXX, dYY, dXY.
  assert (L : forall k l a b, cross (vscal k a) (vscal l b) = vscal (k * l) (cross a b)) by (intros; apply vec_eq; unfold vscal, cross, vx, vy, vz; cbn [fst snd]; ring).
  rewrite !L, !dot_scal_l, !triple, !cross_self, cross_dXdY, (cross_anti (dY o R0 X Y)), cross_dXdY.
  assert (Z : dot axis (0, 0, 0) = 0) by (unfold dot, vx, vy, vz; cbn [fst snd]; ring).
  assert (O : forall a b, dot a (vopp b) = - dot a b) by (intros; unfold dot, vopp, vx, vy, vz; cbn [fst snd]; ring).
  rewrite Z, O, !dot_scal_r, axis_gn. unfold christoffel_1_01, christoffel_1_02, christoffel_2_01, christoffel_2_02.
  rewrite <- delta_sq. pose proof (delta_sq X Y) as S. unfold delta2 in S. pose proof (delta_pos X Y). set (d := delta X Y) in *. set (g := gridrot o X Y).
  assert (E : (1 + X ^ 2) * (1 + Y ^ 2) = d ^ 2 + X ^ 2 * Y ^ 2) by (rewrite S; ring).
  split.
  - transitivity (- (Omega * u2 * (dx / 2) ^ 2 * R0 ^ 2 / d ^ 6 * g * ((1 + X ^ 2) * (1 + Y ^ 2)) * d ^ 2)); [field; lra|].
    transitivity (- (Omega * u2 * (dx / 2) ^ 2 * R0 ^ 2 / d ^ 6 * g * ((1 + X ^ 2) * (1 + Y ^ 2)) * ((1 + X ^ 2) * (1 + Y ^ 2) - X ^ 2 * Y ^ 2))); [|field; lra]. f_equal. f_equal. rewrite E. ring.
  - transitivity (Omega * u1 * (dx / 2) ^ 2 * R0 ^ 2 / d ^ 6 * g * ((1 + X ^ 2) * (1 + Y ^ 2)) * d ^ 2); [field; lra|].
    transitivity (Omega * u1 * (dx / 2) ^ 2 * R0 ^ 2 / d ^ 6 * g * ((1 + X ^ 2) * (1 + Y ^ 2)) * ((1 + X ^ 2) * (1 + Y ^ 2) - X ^ 2 * Y ^ 2)); [|field; lra]. f_equal. rewrite E. ring.
Qed.
