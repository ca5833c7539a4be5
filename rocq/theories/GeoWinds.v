(** Wind conversions in two dimensions *)
From Coq Require Import Reals Lra Lia.
From Coquelicot Require Import Coquelicot.
From Verif Require Import GeoModel GeoSpec GeoProofs GeoArea GeoAngles.
Local Open Scope R_scope.

Ltac vec3 := apply vec_eq; unfold cross, vadd, vscal, vopp, vx, vy, vz; cbn [fst snd].
Definition a0 (o : rotation) : R := sin (lat_p o).
Definition a1 (o : rotation) : R := - cos (lat_p o) * sin (angle_p o).
Definition a2 (o : rotation) : R := cos (lat_p o) * cos (angle_p o).
Lemma axis_frame : forall o, axis = vadd (vscal (a0 o) (fC o)) (vadd (vscal (a1 o) (fE1 o)) (vscal (a2 o) (fE2 o))).
Proof.
  intros o. unfold axis, a0, a1, a2, fC, fE1, fE2. vec3; trig o; ring_simplify; rewrite ?Hl, ?Hp, ?Ha; ring_simplify; rewrite ?Hl, ?Hp, ?Ha; ring_simplify; rewrite ?Hl, ?Hp, ?Ha; ring.
Qed.
Lemma axis_cross : forall o X Y, cross axis (gn o X Y) = vadd (vscal (a1 o * Y - a2 o * X) (fC o)) (vadd (vscal (a2 o - a0 o * Y) (fE1 o)) (vscal (a0 o * X - a1 o) (fE2 o))).
Proof.
  intros o X Y. destruct (frame_right o) as (A & B & C). rewrite (axis_frame o) at 1. unfold gn. set (c := fC o) in *. set (e1 := fE1 o) in *. set (e2 := fE2 o) in *.
  transitivity (vadd (vscal (a1 o * Y - a2 o * X) (cross e1 e2)) (vadd (vscal (a2 o - a0 o * Y) (cross e2 c)) (vscal (a0 o * X - a1 o) (cross c e1)))); [vec3; ring|].
  rewrite A, B, C. reflexivity.
Qed.
Lemma gridrot_a : forall o X Y, gridrot o X Y = a0 o + X * a1 o + Y * a2 o.
Proof. intros. unfold gridrot, a0, a1, a2. ring. Qed.
Lemma denom_xy : forall o X Y, wind_denom o X Y = vx (gn o X Y) ^ 2 + vy (gn o X Y) ^ 2.
Proof.
  intros o X Y. unfold wind_denom, gn, fC, fE1, fE2, vadd, vscal, vx, vy; cbn [fst snd]. trig o.
  transitivity ((sl ^ 2 + cl ^ 2) * ((cp + X * sp * sa - Y * sp * ca) ^ 2 + (X * ca + Y * sa) ^ 2)); [rewrite Hl; ring|ring].
Qed.
Lemma denom_norm : forall o X Y, wind_denom o X Y = dot (cross axis (gn o X Y)) (cross axis (gn o X Y)).
Proof. intros. rewrite denom_xy. unfold dot, cross, axis, vx, vy, vz; cbn [fst snd]. ring. Qed.

Lemma spin_comb : forall o r X Y, let m1 := (1 + X ^ 2) * a2 o - X * Y * a1 o - Y * a0 o in let m2 := X * Y * a2 o + X * a0 o - (1 + Y ^ 2) * a1 o in
  vadd (vscal m1 (dX o r X Y)) (vscal m2 (dY o r X Y)) = vscal (r / delta X Y) (cross axis (gn o X Y)).
Proof.
  intros o r X Y m1 m2. rewrite axis_cross. pose proof (delta_pos X Y) as DP. pose proof (delta_sq X Y) as DS. pose proof (delta2_pos X Y) as DQ. unfold dX, dY.
  transitivity (vscal (r / delta X Y) (vadd (vadd (vscal m1 (fE1 o)) (vscal m2 (fE2 o))) (vscal (- (X * m1 + Y * m2) / delta2 X Y) (gn o X Y)))); [vec3; field; lra|].
  replace (- (X * m1 + Y * m2) / delta2 X Y) with (a1 o * Y - a2 o * X) by (unfold m1, m2, delta2 in *; field; lra).
  unfold m1, m2, gn. vec3; ring.
Qed.
Lemma lift_comb : forall o r X Y, vadd (vscal (a1 o - X * a0 o) (dX o r X Y)) (vscal (a2 o - Y * a0 o) (dY o r X Y)) =
  vscal (r / delta X Y) (vadd axis (vscal (- ((a0 o + X * a1 o + Y * a2 o) / delta2 X Y)) (gn o X Y))).
Proof.
  intros o r X Y. rewrite (axis_frame o) at 1. pose proof (delta_pos X Y) as DP. pose proof (delta_sq X Y) as DS. pose proof (delta2_pos X Y) as DQ. unfold dX, dY.
  transitivity (vscal (r / delta X Y) (vadd (vadd (vscal (a1 o - X * a0 o) (fE1 o)) (vscal (a2 o - Y * a0 o) (fE2 o))) (vscal (- (X * (a1 o - X * a0 o) + Y * (a2 o - Y * a0 o)) / delta2 X Y) (gn o X Y)))); [vec3; field; lra|].
  replace (- (X * (a1 o - X * a0 o) + Y * (a2 o - Y * a0 o)) / delta2 X Y) with (a0 o - (a0 o + X * a1 o + Y * a2 o) / delta2 X Y) by (unfold delta2 in *; field; lra).
  unfold gn. vec3; ring.
Qed.
Section Place.
Variables (o : rotation) (r X Y lon lat rr : R).
Hypotheses (Hr : 0 < r) (E : cart2sph (vx (to_cartesian o r X Y)) (vy (to_cartesian o r X Y)) (vz (to_cartesian o r X Y)) = (lon, lat, rr)).
Let p := to_cartesian o r X Y.
Let n := vscal (/ delta X Y) (gn o X Y).
Lemma cartesian_norm : forall o' r' X' Y', dot (to_cartesian o' r' X' Y') (to_cartesian o' r' X' Y') = r' ^ 2.
Proof.
  intros o' r' X' Y'. rewrite cartesian_gn, dot_scal_l, dot_scal_r. destruct (dots o' X' Y') as (_ & _ & D & _). rewrite D, <- delta_sq. pose proof (delta_pos X' Y'). field. lra.
Qed.
Lemma rr_r : rr = r.
Proof.
  destruct (cart2sph_back _ _ _ _ _ _ E) as [_ B]. destruct (cart2sph_range _ _ _ _ _ _ E) as (_ & _ & P).
  pose proof (cartesian_norm o r X Y) as N. unfold dot in N. assert (rr ^ 2 = r ^ 2) by (rewrite B, <- N; ring).
  assert (K : (rr - r) * (rr + r) = 0) by nra. apply Rmult_integral in K. destruct K; lra.
Qed.
Lemma sin_lat : sin lat = gridrot o X Y / delta X Y.
Proof.
  pose proof rr_r as Q. destruct (cart2sph_lat _ _ _ _ _ _ E ltac:(lra)) as (A & _). rewrite A, Q. rewrite cartesian_gn. rewrite <- axis_gn.
  unfold dot, axis, vscal, vx, vy, vz; cbn [fst snd]. pose proof (delta_pos X Y). field. lra.
Qed.
Lemma cos_lat : cos lat = sqrt (wind_denom o X Y) / delta X Y.
Proof.
  pose proof rr_r as Q. destruct (cart2sph_lat _ _ _ _ _ _ E ltac:(lra)) as (_ & _ & A). rewrite Q in A. pose proof (delta_pos X Y) as P.
  apply Rmult_eq_reg_r with r; [|lra]. rewrite A. rewrite cartesian_gn, denom_xy. set (g := gn o X Y). unfold vscal, vx, vy; cbn [fst snd].
  replace ((r / delta X Y * fst (fst g)) ^ 2 + (r / delta X Y * snd (fst g)) ^ 2) with (Rsqr (r / delta X Y) * (fst (fst g) ^ 2 + snd (fst g) ^ 2)) by (unfold Rsqr; ring).
  rewrite sqrt_mult; [|apply Rle_0_sqr|nra]. rewrite sqrt_Rsqr; [field; lra|]. apply Rlt_le, Rdiv_lt_0_compat; lra.
Qed.
Lemma place_unit : p = vscal r (cos lat * cos lon, cos lat * sin lon, sin lat).
Proof.
  destruct (cart2sph_back _ _ _ _ _ _ E) as [B _]. rewrite rr_r in B. unfold sph2cart in B. cbv zeta in B. apply pair_equal_spec in B. destruct B as [B B3]. apply pair_equal_spec in B. destruct B as [B1 B2].
  fold p in B1, B2, B3. apply vec_eq; [rewrite <- B1|rewrite <- B2|rewrite <- B3]; unfold vscal, vx, vy, vz; cbn [fst snd]; ring.
Qed.
Lemma place_n : p = vscal r n.
Proof. unfold p, n. rewrite cartesian_gn. vec3; unfold Rdiv; ring. Qed.
Lemma n_unit : n = (cos lat * cos lon, cos lat * sin lon, sin lat).
Proof.
  assert (Q : vscal (/ r) p = vscal (/ r) (vscal r n)) by (rewrite place_n; reflexivity). rewrite place_unit in Q.
  assert (K : forall v : vec, vscal (/ r) (vscal r v) = v) by (intros v; vec3; field; lra). rewrite !K in Q. symmetry. exact Q.
Qed.
Lemma east_north : dot (east lon lat) (east lon lat) = 1 /\ dot (north lon lat) (north lon lat) = 1 /\ dot (east lon lat) (north lon lat) = 0 /\ dot (east lon lat) n = 0 /\ dot (north lon lat) n = 0 /\ dot n n = 1.
Proof.
  rewrite n_unit. unfold dot, east, north, vx, vy, vz; cbn [fst snd]. generalize (sc1 lon) (sc1 lat). generalize (sin lon) (cos lon) (sin lat) (cos lat). intros sl cl sp cp Hl Hp.
  repeat split; ring_simplify; rewrite ?Hl, ?Hp; ring_simplify; rewrite ?Hl, ?Hp; ring.
Qed.
Lemma expand : forall v, v = vadd (vscal (dot v (east lon lat)) (east lon lat)) (vadd (vscal (dot v (north lon lat)) (north lon lat)) (vscal (dot v n) n)).
Proof.
  intros v. rewrite n_unit. unfold dot, east, north. vec3; generalize (sc1 lon) (sc1 lat); generalize (sin lon) (cos lon) (sin lat) (cos lat); intros sl cl sp cp Hl Hp;
    ring_simplify; rewrite ?Hl, ?Hp; ring_simplify; rewrite ?Hl, ?Hp; ring_simplify; rewrite ?Hl, ?Hp; ring.
Qed.
Lemma axis_east : cross axis n = vscal (cos lat) (east lon lat).
Proof. rewrite n_unit. unfold axis, east. vec3; ring. Qed.
Lemma axis_north : vscal (cos lat) (north lon lat) = vadd axis (vscal (- sin lat) n).
Proof. rewrite n_unit. unfold axis, north. vec3; try ring. generalize (sc1 lat). intros K. rewrite <- Rplus_0_r at 1. nra. Qed.
Hypothesis (Hpole : cos lat <> 0).
Lemma denom_pos : 0 < sqrt (wind_denom o X Y).
Proof.
  destruct (Req_dec (sqrt (wind_denom o X Y)) 0) as [Z|Z]; [|pose proof (sqrt_pos (wind_denom o X Y)); lra].
  exfalso. apply Hpole. rewrite cos_lat, Z. unfold Rdiv. ring.
Qed.
Lemma east_gn : east lon lat = vscal (/ sqrt (wind_denom o X Y)) (cross axis (gn o X Y)).
Proof.
  pose proof denom_pos as W. pose proof cos_lat as CL. set (w := sqrt (wind_denom o X Y)) in *. pose proof (delta_pos X Y) as DP.
  assert (Q : cross axis (gn o X Y) = vscal w (east lon lat)).
  { transitivity (vscal (delta X Y) (cross axis n)); [unfold n; vec3; field; lra|]. rewrite axis_east, CL. vec3; field; lra. }
  rewrite Q. vec3; field; lra.
Qed.
Lemma north_gn : north lon lat = vscal (delta X Y / sqrt (wind_denom o X Y)) (vadd axis (vscal (- ((a0 o + X * a1 o + Y * a2 o) / delta2 X Y)) (gn o X Y))).
Proof.
  pose proof denom_pos as W. pose proof cos_lat as CL. pose proof sin_lat as SL. rewrite gridrot_a in SL. set (w := sqrt (wind_denom o X Y)) in *.
  pose proof (delta_pos X Y) as DP. pose proof (delta_sq X Y) as DS.
  pose proof axis_north as Q. rewrite SL in Q. rewrite CL in Q.
  transitivity (vscal (delta X Y / w) (vscal (w / delta X Y) (north lon lat))); [vec3; field; lra|]. rewrite Q. rewrite <- DS. unfold n. vec3; field; lra.
Qed.
Lemma wind_vector : forall dx1 dx2 u v, dx1 <> 0 -> dx2 <> 0 -> let (u1, u2) := wind2contra_2d o r (cos lat) dx1 dx2 X Y u v in
  vadd (vscal u1 (tan1 o r dx1 X Y)) (vscal u2 (tan2 o r dx2 X Y)) = vadd (vscal u (east lon lat)) (vscal v (north lon lat)).
Proof.
  intros dx1 dx2 u v D1 D2. unfold wind2contra_2d. cbv zeta.
  change (sin (lat_p o)) with (a0 o).
  pose proof denom_pos as W. pose proof cos_lat as CL. pose proof sin_lat as SL. rewrite gridrot_a in SL. set (w := sqrt (wind_denom o X Y)) in *.
  pose proof (delta_pos X Y) as DP. pose proof (delta_sq X Y) as DS.
  assert (X1 : 1 + X ^ 2 <> 0) by nra. assert (Y1 : 1 + Y ^ 2 <> 0) by nra.
  pose proof east_gn as EE. pose proof north_gn as NN. fold w in EE, NN.
  rewrite EE, NN, axis_cross. rewrite (axis_frame o) at 1. rewrite CL.
  replace (cos (lat_p o) * cos (angle_p o)) with (a2 o) by (unfold a2; ring). replace (cos (lat_p o) * sin (angle_p o)) with (- a1 o) by (unfold a1; ring).
  replace (X * Y * cos (lat_p o) * sin (angle_p o)) with (- (X * Y * a1 o)) by (unfold a1; ring). replace (X * Y * cos (lat_p o) * cos (angle_p o)) with (X * Y * a2 o) by (unfold a2; ring).
  set (m1 := (1 + X ^ 2) * a2 o - X * Y * a1 o - Y * a0 o). set (m2 := X * Y * a2 o + X * a0 o - (1 + Y ^ 2) * a1 o).
  pose proof (spin_comb o r X Y) as VA. cbv zeta in VA. fold m1 m2 in VA. pose proof (lift_comb o r X Y) as VB.
  transitivity (vadd (vscal (u / (r * (w / delta X Y))) (vadd (vscal m1 (dX o r X Y)) (vscal m2 (dY o r X Y))))
                     (vscal (v / r * (delta2 X Y / w)) (vadd (vscal (a1 o - X * a0 o) (dX o r X Y)) (vscal (a2 o - Y * a0 o) (dY o r X Y))))).
  { unfold tan1, tan2. vec3; unfold m1, m2; field; repeat split; auto; lra. }
  rewrite VA, VB. rewrite axis_cross. rewrite (axis_frame o) at 1. rewrite <- DS. vec3; field; repeat split; auto; lra.
Qed.
Lemma contra_vector : forall dx1 dx2 u1 u2, let V := vadd (vscal u1 (tan1 o r dx1 X Y)) (vscal u2 (tan2 o r dx2 X Y)) in
  contra2wind_2d o r (cos lat) dx1 dx2 X Y u1 u2 = (dot V (east lon lat), dot V (north lon lat)).
Proof.
  intros dx1 dx2 u1 u2 V. unfold contra2wind_2d. cbv zeta. pose proof denom_pos as W. pose proof cos_lat as CL. rewrite east_gn, north_gn, CL.
  assert (W2 : wind_denom o X Y = sqrt (wind_denom o X Y) ^ 2) by (symmetry; apply pow2_sqrt; rewrite denom_xy; nra).
  rewrite W2 at 1 2. set (w := sqrt (wind_denom o X Y)) in *. pose proof (delta_pos X Y) as DP. pose proof (delta_sq X Y) as DS. pose proof (delta2_pos X Y) as DQ.
  destruct (dots o X Y) as (G1 & G2 & G3 & G4 & G5 & G6). destruct (frame_orthonormal o) as (O1 & O2 & O3 & O4 & O5 & O6).
  assert (S0 : dot (gn o X Y) (cross axis (gn o X Y)) = 0) by (unfold dot, cross, vx, vy, vz; cbn [fst snd]; ring).
  assert (S1 : dot (fE1 o) (cross axis (gn o X Y)) = a2 o - a0 o * Y) by (rewrite axis_cross, !dot_add_r, !dot_scal_r, (dot_comm (fE1 o) (fC o)), O4, O2, O6; ring).
  assert (S2 : dot (fE2 o) (cross axis (gn o X Y)) = a0 o * X - a1 o) by (rewrite axis_cross, !dot_add_r, !dot_scal_r, (dot_comm (fE2 o) (fC o)), (dot_comm (fE2 o) (fE1 o)), O5, O3, O6; ring).
  assert (A1 : dot (fE1 o) axis = a1 o) by (rewrite (axis_frame o), !dot_add_r, !dot_scal_r, (dot_comm (fE1 o) (fC o)), O4, O2, O6; ring).
  assert (A2 : dot (fE2 o) axis = a2 o) by (rewrite (axis_frame o), !dot_add_r, !dot_scal_r, (dot_comm (fE2 o) (fC o)), (dot_comm (fE2 o) (fE1 o)), O5, O3, O6; ring).
  assert (AG : dot (gn o X Y) axis = a0 o + X * a1 o + Y * a2 o) by (rewrite dot_comm, axis_gn; apply gridrot_a).
  unfold V, tan1, tan2, dX, dY. rewrite !dot_scal_r, !dot_add_l, !dot_scal_l, !dot_add_l, !dot_scal_l, !dot_add_r, !dot_scal_r, S0, S1, S2, A1, A2, AG, G1, G2, G3.
  replace (cos (lat_p o) * cos (angle_p o)) with (a2 o) by (unfold a2; ring). replace (cos (lat_p o) * sin (angle_p o)) with (- a1 o) by (unfold a1; ring).
  replace (X * Y * cos (lat_p o) * sin (angle_p o)) with (- (X * Y * a1 o)) by (unfold a1; ring). replace (X * Y * cos (lat_p o) * cos (angle_p o)) with (X * Y * a2 o) by (unfold a2; ring).
  replace ((1 + Y ^ 2) * cos (lat_p o) * sin (angle_p o)) with (- ((1 + Y ^ 2) * a1 o)) by (unfold a1; ring). replace ((1 + X ^ 2) * cos (lat_p o) * cos (angle_p o)) with ((1 + X ^ 2) * a2 o) by (unfold a2; ring).
  change (sin (lat_p o)) with (a0 o). generalize (a0 o) (a1 o) (a2 o). intros b0 b1 b2. rewrite <- DS. unfold delta2 in DS. set (d := delta X Y) in *.
  f_equal.
  - field. repeat split; lra.
  - apply Rmult_eq_reg_r with (d ^ 2 * w); [|apply Rmult_integral_contrapositive_currified; [apply pow_nonzero|]; lra].
    transitivity (r * (u1 * dx1 / 2 * (1 + X ^ 2) * (b1 * (1 + Y ^ 2) - X * b0 - X * Y * b2) + u2 * dx2 / 2 * (1 + Y ^ 2) * (b2 * (1 + X ^ 2) - Y * b0 - X * Y * b1))).
    + field. repeat split; lra.
    + transitivity (r * (u1 * dx1 / 2 * (1 + X ^ 2) * (b1 * d ^ 2 - X * (b0 + X * b1 + Y * b2)) + u2 * dx2 / 2 * (1 + Y ^ 2) * (b2 * d ^ 2 - Y * (b0 + X * b1 + Y * b2)))); [rewrite DS; ring|].
      field. lra.
Qed.
Lemma tan_n : forall dx1 dx2 u1 u2, dot (vadd (vscal u1 (tan1 o r dx1 X Y)) (vscal u2 (tan2 o r dx2 X Y))) n = 0.
Proof.
  intros dx1 dx2 u1 u2. destruct (dots o X Y) as (G1 & G2 & G3 & G4 & G5 & G6). pose proof (delta_pos X Y) as DP. pose proof (delta2_pos X Y) as DQ.
  unfold tan1, tan2, dX, dY, n. rewrite !dot_scal_r, !dot_add_l, !dot_scal_l, !dot_add_l, !dot_scal_l, G1, G2, G3. field. lra.
Qed.
Lemma round_wind : forall dx1 dx2 u v, dx1 <> 0 -> dx2 <> 0 -> let (u1, u2) := wind2contra_2d o r (cos lat) dx1 dx2 X Y u v in contra2wind_2d o r (cos lat) dx1 dx2 X Y u1 u2 = (u, v).
Proof.
  intros dx1 dx2 u v D1 D2. pose proof (wind_vector dx1 dx2 u v D1 D2) as H. destruct (wind2contra_2d _ _ _ _ _ _ _ _ _) as [u1 u2]. rewrite contra_vector, H.
  destruct east_north as (E1 & E2 & E3 & _). rewrite !dot_add_l, !dot_scal_l, (dot_comm (north lon lat) (east lon lat)), E1, E2, E3. f_equal; ring.
Qed.
Lemma tan_indep : forall dx1 dx2 u1 u2 v1 v2, dx1 <> 0 -> dx2 <> 0 ->
  vadd (vscal u1 (tan1 o r dx1 X Y)) (vscal u2 (tan2 o r dx2 X Y)) = vadd (vscal v1 (tan1 o r dx1 X Y)) (vscal v2 (tan2 o r dx2 X Y)) -> u1 = v1 /\ u2 = v2.
Proof.
  intros dx1 dx2 u1 u2 v1 v2 D1 D2 H. destruct (dots o X Y) as (G1 & G2 & G3 & G4 & G5 & G6). pose proof (delta_pos X Y) as DP. pose proof (cov_positive r dx1 dx2 X Y ltac:(lra) D1 D2) as P.
  set (T1 := tan1 o r dx1 X Y) in *. set (T2 := tan2 o r dx2 X Y) in *.
  assert (K : (u1 - v1) ^ 2 * dot T1 T1 + 2 * (u1 - v1) * (u2 - v2) * dot T1 T2 + (u2 - v2) ^ 2 * dot T2 T2 = 0).
  { assert (Z : vadd (vscal (u1 - v1) T1) (vscal (u2 - v2) T2) = (0, 0, 0)).
    { transitivity (vadd (vadd (vscal u1 T1) (vscal u2 T2)) (vscal (- 1) (vadd (vscal v1 T1) (vscal v2 T2)))); [vec3; ring|]. rewrite H. vec3; ring. }
    transitivity (dot (vadd (vscal (u1 - v1) T1) (vscal (u2 - v2) T2)) (vadd (vscal (u1 - v1) T1) (vscal (u2 - v2) T2))).
    - rewrite !dot_add_l, !dot_add_r, !dot_scal_l, !dot_scal_r, (dot_comm T2 T1). ring.
    - rewrite Z. unfold dot, vx, vy, vz; cbn [fst snd]. ring. }
  specialize (P (u1 - v1) (u2 - v2)). unfold H_cov in P; cbn [s11 s12 s22] in P. unfold T1, T2, tan1, tan2 in K. rewrite !dot_scal_l, !dot_scal_r, dXX, dXY, dYY in K.
  destruct (Req_dec (u1 - v1) 0) as [Z1|Z1]; [destruct (Req_dec (u2 - v2) 0) as [Z2|Z2]; [lra|]|]; exfalso.
  - specialize (P (or_intror Z2)). apply Rlt_not_eq in P. apply P. rewrite <- K. field. lra.
  - specialize (P (or_introl Z1)). apply Rlt_not_eq in P. apply P. rewrite <- K. field. lra.
Qed.
Lemma round_contra : forall dx1 dx2 u1 u2, dx1 <> 0 -> dx2 <> 0 -> let (u, v) := contra2wind_2d o r (cos lat) dx1 dx2 X Y u1 u2 in wind2contra_2d o r (cos lat) dx1 dx2 X Y u v = (u1, u2).
Proof.
  intros dx1 dx2 u1 u2 D1 D2. rewrite contra_vector. set (V := vadd _ _). pose proof (wind_vector dx1 dx2 (dot V (east lon lat)) (dot V (north lon lat)) D1 D2) as H.
  destruct (wind2contra_2d _ _ _ _ _ _ _ _ _) as [w1 w2].
  assert (Q : vadd (vscal (dot V (east lon lat)) (east lon lat)) (vscal (dot V (north lon lat)) (north lon lat)) = V).
  { rewrite (expand V) at 3. unfold V at 5. rewrite tan_n. vec3; ring. }
  rewrite Q in H. unfold V in H. destruct (tan_indep dx1 dx2 w1 w2 u1 u2 D1 D2 H) as [-> ->]. reflexivity.
Qed.
Lemma coriolis_sin : forall Omega, coriolis_f o Omega X Y = 2 * Omega * sin lat.
Proof. intros. rewrite sin_lat. unfold coriolis_f. pose proof (delta_pos X Y). field. lra. Qed.
End Place.
