(** Angles: atan2, the spherical coordinates *)
From Coq Require Import Reals Lra Lia.
From Coquelicot Require Import Coquelicot.
From Verif Require Import GeoModel GeoSpec GeoProofs.
Local Open Scope R_scope.

Lemma sqrt_quot : forall x y, x <> 0 -> sqrt (x ^ 2 + y ^ 2) = Rabs x * sqrt (1 + (y / x) ^ 2).
Proof.
  intros x y H. rewrite <- sqrt_Rsqr_abs. rewrite <- sqrt_mult; [|apply Rle_0_sqr|pose proof (pow2_ge_0 (y / x)); lra].
  f_equal. unfold Rsqr. field. exact H.
Qed.
Lemma norm_pos : forall x y, x <> 0 \/ y <> 0 -> 0 < sqrt (x ^ 2 + y ^ 2).
Proof.
  intros x y H. apply sqrt_lt_R0. pose proof (pow2_ge_0 x). pose proof (pow2_ge_0 y). destruct H as [H|H]; apply sq_pos in H; lra.
Qed.
Lemma atan_half : forall u, 0 < sqrt (1 + u ^ 2) /\ cos (atan u) = / sqrt (1 + u ^ 2) /\ sin (atan u) = u / sqrt (1 + u ^ 2).
Proof.
  intros u. assert (0 < sqrt (1 + u ^ 2)) by (apply sqrt_lt_R0; pose proof (pow2_ge_0 u); lra).
  split; [auto|]. rewrite cos_atan, sin_atan. unfold Rsqr. replace (u * u) with (u ^ 2) by ring. split; [field; lra|reflexivity].
Qed.
Lemma atan2_spec : forall x y, x <> 0 \/ y <> 0 -> sqrt (x ^ 2 + y ^ 2) * cos (atan2 y x) = x /\ sqrt (x ^ 2 + y ^ 2) * sin (atan2 y x) = y.
Proof.
  intros x y H. unfold atan2. destruct (atan_half (y / x)) as (P & C & S). set (w := sqrt (1 + (y / x) ^ 2)) in *.
  destruct (Rlt_dec 0 x) as [A|A].
  { rewrite sqrt_quot by lra. rewrite Rabs_pos_eq by lra. fold w. rewrite C, S. split; field; lra. }
  destruct (Rlt_dec x 0) as [B|B].
  { rewrite sqrt_quot by lra. rewrite Rabs_left by lra. fold w.
    destruct (Rle_dec 0 y) as [D|D].
    - rewrite neg_cos, neg_sin, C, S. split; field; lra.
    - replace (atan (y / x) - PI) with (- (PI - atan (y / x))) by ring. rewrite cos_neg, sin_neg.
      replace (PI - atan (y / x)) with (- atan (y / x) + PI) by ring. rewrite neg_cos, neg_sin, cos_neg, sin_neg, C, S. split; field; lra. }
  assert (x = 0) by lra. subst x. destruct (Rlt_dec 0 y) as [D|D].
  { replace (0 ^ 2 + y ^ 2) with (Rsqr y) by (unfold Rsqr; ring). rewrite sqrt_Rsqr by lra. rewrite cos_PI2, sin_PI2. lra. }
  destruct (Rlt_dec y 0) as [E|E].
  { replace (0 ^ 2 + y ^ 2) with (Rsqr (- y)) by (unfold Rsqr; ring). rewrite sqrt_Rsqr by lra. rewrite cos_neg, sin_neg, cos_PI2, sin_PI2. lra. }
  exfalso. lra.
Qed.
Lemma atan2_bound : forall x y, - PI < atan2 y x <= PI.
Proof.
  intros x y. unfold atan2. pose proof PI_RGT_0. pose proof (atan_bound (y / x)).
  destruct (Rlt_dec 0 x); [lra|]. destruct (Rlt_dec x 0) as [B|B].
  - destruct (Rle_dec 0 y) as [D|D].
    + split; [lra|]. assert (y / x <= 0).
      { unfold Rdiv. assert (0 < - / x) by (rewrite <- Rinv_opp; apply Rinv_0_lt_compat; lra). nra. }
      destruct H1 as [L|L]; [apply atan_increasing in L; rewrite atan_0 in L; lra|rewrite L, atan_0; lra].
    + split; [|lra]. assert (0 < y / x).
      { unfold Rdiv. assert (0 < - / x) by (rewrite <- Rinv_opp; apply Rinv_0_lt_compat; lra). nra. }
      apply atan_increasing in H1. rewrite atan_0 in H1. lra.
  - destruct (Rlt_dec 0 y); [lra|]. destruct (Rlt_dec y 0); lra.
Qed.
(** the azimuth is in [0, 2 pi[, the elevation in [-pi/2, pi/2] *)
Lemma cart2sph_range : forall x y z lon lat r, cart2sph x y z = (lon, lat, r) -> 0 <= lon < 2 * PI /\ - (PI / 2) <= lat <= PI / 2 /\ 0 <= r.
Proof.
  intros x y z lon lat r E. unfold cart2sph in E. inversion E as [[E1 E2 E3]]. clear E E1 E2 E3. pose proof PI_RGT_0 as P.
  split; [|split; [|apply sqrt_pos]].
  - pose proof (atan2_bound x y). destruct (Rlt_dec (atan2 y x) 0); lra.
  - unfold atan2. pose proof (sqrt_pos (x ^ 2 + y ^ 2)) as Q. pose proof (atan_bound (z / sqrt (x ^ 2 + y ^ 2))).
    set (h := sqrt (x ^ 2 + y ^ 2)) in *.
    change (sqrt (x * (x * 1) + y * (y * 1))) with h. destruct (Rlt_dec 0 h); [lra|]. destruct (Rlt_dec h 0); [lra|]. destruct (Rlt_dec 0 z); [lra|]. destruct (Rlt_dec z 0); lra.
Qed.
Lemma cart2sph_back : forall x y z lon lat r, cart2sph x y z = (lon, lat, r) -> sph2cart lon lat r = (x, y, z) /\ r ^ 2 = x ^ 2 + y ^ 2 + z ^ 2.
Proof.
  intros x y z lon lat r E. unfold cart2sph in E. cbv zeta in E. apply pair_equal_spec in E. destruct E as [E E3]. apply pair_equal_spec in E. destruct E as [E1 E2]. subst lon lat r.
  set (h := sqrt (x ^ 2 + y ^ 2)) in *. assert (Hh : h ^ 2 = x ^ 2 + y ^ 2) by (apply pow2_sqrt; nra).
  assert (Hr : sqrt (h ^ 2 + z ^ 2) ^ 2 = h ^ 2 + z ^ 2) by (apply pow2_sqrt; nra).
  split; [|rewrite Hr, Hh; ring].
  assert (L : cos (if Rlt_dec (atan2 y x) 0 then atan2 y x + 2 * PI else atan2 y x) = cos (atan2 y x) /\ sin (if Rlt_dec (atan2 y x) 0 then atan2 y x + 2 * PI else atan2 y x) = sin (atan2 y x)).
  { destruct (Rlt_dec _ 0); [|split; reflexivity]. split.
    - pose proof (cos_period (atan2 y x) 1) as K. cbn [INR] in K. rewrite Rmult_1_r in K. exact K.
    - pose proof (sin_period (atan2 y x) 1) as K. cbn [INR] in K. rewrite Rmult_1_r in K. exact K. }
  destruct L as [L1 L2]. unfold sph2cart. rewrite L1, L2. set (q := sqrt (h ^ 2 + z ^ 2)) in *.
  assert (V : q * cos (atan2 z h) = h /\ q * sin (atan2 z h) = z).
  { destruct (Req_dec h 0) as [A|A]; [destruct (Req_dec z 0) as [B|B]|].
    - assert (q = 0) by (unfold q; rewrite A, B; replace (0 ^ 2 + 0 ^ 2) with 0 by ring; apply sqrt_0). rewrite H, A, B. lra.
    - apply atan2_spec; auto.
    - apply atan2_spec; auto. }
  destruct V as [V1 V2]. rewrite V1, V2.
  assert (U : h * cos (atan2 y x) = x /\ h * sin (atan2 y x) = y).
  { destruct (Req_dec x 0) as [A|A]; [destruct (Req_dec y 0) as [B|B]|].
    - assert (h = 0) by (unfold h; rewrite A, B; replace (0 ^ 2 + 0 ^ 2) with 0 by ring; apply sqrt_0). rewrite H, A, B. lra.
    - apply atan2_spec; auto.
    - apply atan2_spec; auto. }
  destruct U as [U1 U2]. rewrite U1, U2. reflexivity.
Qed.
(** A place on the sphere of radius r > 0 is r times the unit vector with the longitude and the latitude returned *)
Lemma cart2sph_lat : forall x y z lon lat r, cart2sph x y z = (lon, lat, r) -> 0 < r -> sin lat = z / r /\ 0 <= cos lat /\ cos lat * r = sqrt (x ^ 2 + y ^ 2).
Proof.
  intros x y z lon lat r E Hr. destruct (cart2sph_back _ _ _ _ _ _ E) as [B _]. unfold sph2cart in B. cbv zeta in B.
  apply pair_equal_spec in B. destruct B as [B B3]. apply pair_equal_spec in B. destruct B as [B1 B2].
  split; [rewrite <- B3; field; lra|]. destruct (cart2sph_range _ _ _ _ _ _ E) as (_ & L & _).
  assert (P : 0 <= cos lat) by (apply cos_ge_0; lra). split; [exact P|].
  transitivity (sqrt (Rsqr (r * cos lat))).
  - rewrite sqrt_Rsqr; [ring|nra].
  - f_equal. rewrite <- B1, <- B2. unfold Rsqr. pose proof (sc1 lon) as S. transitivity ((r * cos lat) ^ 2 * (cos lon ^ 2 + sin lon ^ 2)); [rewrite S; ring|ring].
Qed.
