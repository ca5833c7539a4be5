(** The geometry lemmas in the form of the properties. *)
From Coq Require Import Reals ZArith Lra Lia.
From Coquelicot Require Import Coquelicot.
From Verif Require Import TopologySpec GeoModel GeoSpec GeoProofs GeoArea GeoAngles GeoTiles GeoWinds GeoPanels GeoMetric3 GeoChristoffel.
Local Open Scope R_scope.

Lemma sqrtG_nonneg : forall R0 dx1 dx2 X Y, 0 < dx1 -> 0 < dx2 -> 0 <= sqrtG R0 dx1 dx2 X Y.
Proof.
  intros R0 dx1 dx2 X Y H1 H2. unfold sqrtG. pose proof (delta2_pos X Y). pose proof (delta_pos X Y). pose proof (pow2_ge_0 R0). pose proof (pow2_ge_0 X). pose proof (pow2_ge_0 Y).
  set (r2 := R0 ^ 2) in *. set (x2 := X ^ 2) in *. set (y2 := Y ^ 2) in *. clearbody r2 x2 y2.
  apply Rmult_le_pos; [apply Rdiv_le_0_compat; [repeat apply Rmult_le_pos; lra|apply Rmult_lt_0_compat; auto]|]. apply Rdiv_le_0_compat; [apply Rmult_le_pos; lra|lra].
Qed.
Lemma sqrtG_half : forall R0 dx1 dx2 X Y, 0 < dx1 -> 0 < dx2 -> sqrtG R0 dx1 dx2 X Y = sqrt (det2 (H_cov R0 dx1 dx2 X Y)) / 2.
Proof. intros R0 dx1 dx2 X Y H H0. rewrite det_cov, sqrt_pow2; [lra|]. pose proof (sqrtG_nonneg R0 dx1 dx2 X Y H H0). lra. Qed.
Lemma sqrtG_wrong : forall R0 dx1 dx2 X Y, R0 <> 0 -> 0 < dx1 -> 0 < dx2 -> sqrtG R0 dx1 dx2 X Y <> sqrt (det2 (H_cov R0 dx1 dx2 X Y)).
Proof.
  intros R0 dx1 dx2 X Y H0 H1 H2 E. pose proof (sqrtG_half R0 dx1 dx2 X Y H1 H2) as K. assert (P : 0 < sqrtG R0 dx1 dx2 X Y); [|lra].
  unfold sqrtG. pose proof (delta2_pos X Y). pose proof (delta_pos X Y). pose proof (sq_pos R0 H0) as Q. pose proof (pow2_ge_0 X). pose proof (pow2_ge_0 Y).
  set (r2 := R0 ^ 2) in *. set (x2 := X ^ 2) in *. set (y2 := Y ^ 2) in *. clearbody r2 x2 y2.
  apply Rmult_lt_0_compat; [apply Rdiv_lt_0_compat; [repeat apply Rmult_lt_0_compat; lra|apply Rmult_lt_0_compat; auto]|]. apply Rdiv_lt_0_compat; [apply Rmult_lt_0_compat; lra|lra].
Qed.
Lemma panel_area_code : forall k n R0 (part : nat -> nat -> nat -> nat -> R), (0 < k)%nat -> (0 < n)%nat ->
  (forall i1 e1 i2 e2, (i1 < k)%nat -> (e1 < n)%nat -> (i2 < k)%nat -> (e2 < n)%nat ->
     integral2 (fun s t => sqrtG R0 (delta_x k i1 n) (delta_x k i2 n) (tan (x_solpt k i1 n e1 s)) (tan (x_solpt k i2 n e2 t))) (part i1 e1 i2 e2)) ->
  sum_below k (fun i1 => sum_below n (fun e1 => sum_below k (fun i2 => sum_below n (fun e2 => part i1 e1 i2 e2)))) = PI * R0 ^ 2 / 3.
Proof. intros k n R0 part Hk Hn H. rewrite (panel_area 8 k n R0 part); [lra|lra|auto|auto|]. intros. apply H; auto. Qed.
Lemma regular_small : forall x, - 1 <= x <= 1 -> regular x.
Proof. intros x H. unfold regular. pose proof PI2_1. assert (0 < cos x) by (apply cos_gt_0; lra). lra. Qed.
Lemma regular_half : regular (0 + PI / 2 / 2 * (1 / 2)).
Proof. apply regular_panel. pose proof PI_RGT_0. lra. Qed.
Lemma ex_tangents : exists d1 d2, regular (0 + PI / 2 / 2 * (1 / 2)) /\ tangents {| lon_p := 1; lat_p := 1; angle_p := 1 |} 6371220 0 0 (PI / 2) (PI / 2) (1 / 2) (1 / 2) d1 d2.
Proof. eexists _, _. split; [exact regular_half|]. apply place_tangents; exact regular_half. Qed.
Lemma ex_derivable : exists D1 D2, is_derive_sym2 (fun s => H_cov 6371220 (PI / 2) (PI / 2) (tan (0 + PI / 2 / 2 * s)) (tan (0 + PI / 2 / 2 * (1 / 2)))) (1 / 2) D1 /\
  is_derive_sym2 (fun s => H_cov 6371220 (PI / 2) (PI / 2) (tan (0 + PI / 2 / 2 * (1 / 2))) (tan (0 + PI / 2 / 2 * s))) (1 / 2) D2.
Proof. apply metric_derivable; exact regular_half. Qed.
Lemma area_parts : forall c k n R0, c <> 0 -> (0 < k)%nat -> (0 < n)%nat -> exists part : nat -> nat -> nat -> nat -> R,
  forall i1 e1 i2 e2, (i1 < k)%nat -> (e1 < n)%nat -> (i2 < k)%nat -> (e2 < n)%nat ->
     integral2 (fun s t => let X := tan (x_solpt k i1 n e1 s) in let Y := tan (x_solpt k i2 n e2 t) in
       R0 ^ 2 * (1 + X ^ 2) * (1 + Y ^ 2) / (delta2 X Y * delta X Y) * (delta_x k i1 n * delta_x k i2 n / c)) (part i1 e1 i2 e2).
Proof.
  intros c k n R0 Hc Hk Hn. eexists (fun i1 e1 i2 e2 => _). intros i1 e1 i2 e2 I1 E1 I2 E2.
  pose proof (element_area c R0 (tile_start k i1 + delta_x k i1 n * INR e1 + delta_x k i1 n / 2) (tile_start k i2 + delta_x k i2 n * INR e2 + delta_x k i2 n / 2) (delta_x k i1 n) (delta_x k i2 n) Hc) as K.
  assert (G1 : forall s, - 1 <= s <= 1 -> regular (tile_start k i1 + delta_x k i1 n * INR e1 + delta_x k i1 n / 2 + delta_x k i1 n / 2 * s)).
  { intros s Hs. rewrite <- x_solpt_centre. apply regular_panel, x_solpt_range; auto. }
  assert (G2 : forall s, - 1 <= s <= 1 -> regular (tile_start k i2 + delta_x k i2 n * INR e2 + delta_x k i2 n / 2 + delta_x k i2 n / 2 * s)).
  { intros s Hs. rewrite <- x_solpt_centre. apply regular_panel, x_solpt_range; auto. }
  specialize (K G1 G2). cbv beta zeta in K. eapply integral2_ext; [|exact K]. intros s t. cbv beta. rewrite <- !x_solpt_centre. reflexivity.
Qed.
Lemma ex_area : exists part : nat -> nat -> nat -> nat -> R, forall i1 e1 i2 e2, (i1 < 2)%nat -> (e1 < 3)%nat -> (i2 < 2)%nat -> (e2 < 3)%nat ->
  integral2 (fun s t => sqrtG 1 (delta_x 2 i1 3) (delta_x 2 i2 3) (tan (x_solpt 2 i1 3 e1 s)) (tan (x_solpt 2 i2 3 e2 t))) (part i1 e1 i2 e2).
Proof. apply (area_parts 8 2 3 1); [lra|lia|lia]. Qed.
Lemma equal_sizes : forall k i1 i2 n, (0 < k)%nat -> (0 < n)%nat -> delta_x k i1 n = delta_x k i2 n.
Proof. intros. unfold delta_x, tile_end, tile_start. f_equal. ring. Qed.
Lemma tangents_unique : forall o r a1 a2 dx1 dx2 xi1 xi2 a b a' b', tangents o r a1 a2 dx1 dx2 xi1 xi2 a b -> tangents o r a1 a2 dx1 dx2 xi1 xi2 a' b' -> a = a' /\ b = b'.
Proof. intros o r a1 a2 dx1 dx2 xi1 xi2 a b a' b' (A & B) (A' & B'). split; eapply derive3_unique; eauto. Qed.
Lemma wind_same_vector : forall o r a1 a2 dx1 dx2 xi1 xi2 d1 d2 lon lat rr u v, regular (a1 + dx1 / 2 * xi1) -> regular (a2 + dx2 / 2 * xi2) ->
  tangents o r a1 a2 dx1 dx2 xi1 xi2 d1 d2 -> let X := tan (a1 + dx1 / 2 * xi1) in let Y := tan (a2 + dx2 / 2 * xi2) in let p := place o r a1 a2 dx1 dx2 xi1 xi2 in
  0 < r -> dx1 <> 0 -> dx2 <> 0 -> cart2sph (vx p) (vy p) (vz p) = (lon, lat, rr) -> cos lat <> 0 ->
  let (u1, u2) := wind2contra_2d o r (cos lat) dx1 dx2 X Y u v in vadd (vscal u1 d1) (vscal u2 d2) = vadd (vscal u (east lon lat)) (vscal v (north lon lat)).
Proof.
  intros o r a1 a2 dx1 dx2 xi1 xi2 d1 d2 lon lat rr u v R1 R2 T X Y p Hr H1 H2 E HP.
  destruct (tangents_unique _ _ _ _ _ _ _ _ _ _ _ _ T (place_tangents o r a1 a2 dx1 dx2 xi1 xi2 R1 R2)) as [-> ->].
  exact (wind_vector o r X Y lon lat rr Hr E HP dx1 dx2 u v H1 H2).
Qed.
Lemma wind3_of_contra : forall o H x1 x2 eta h1 h2 h3 dx dy deta e1 e2 e3 lon lat rr u1 u2 u3, regular x1 -> regular x2 -> partials3 H x1 x2 eta h1 h2 h3 -> tangents3 o H x1 x2 eta e1 e2 e3 ->
  let r := H x1 x2 eta in let p := place3 o H x1 x2 eta in let V := vadd (vscal u1 (vscal (dx / 2) e1)) (vadd (vscal u2 (vscal (dy / 2) e2)) (vscal u3 (vscal (deta / 2) e3))) in
  0 < r -> deta <> 0 -> h3 <> 0 -> cart2sph (vx p) (vy p) (vz p) = (lon, lat, rr) -> cos lat <> 0 ->
  contra2wind_3d o r (cos lat) dx dy (metric3_cov dx dy deta r (tan x1) (tan x2) h1 h2 h3) (inv_dzdeta deta h3) (tan x1) (tan x2) u1 u2 u3
  = (dot V (east lon lat), dot V (north lon lat), dot V (vscal (/ r) p)).
Proof.
  intros o H x1 x2 eta h1 h2 h3 dx dy deta e1 e2 e3 lon lat rr u1 u2 u3 R1 R2 P T r p V Hr Hde Hh3 E HP.
  destruct (tangents3_unique _ _ _ _ _ _ _ _ _ _ _ T (tangents3_values o H x1 x2 eta h1 h2 h3 R1 R2 P)) as (E1 & E2 & E3).
  assert (N : vscal (/ r) p = unit_n o (tan x1) (tan x2)).
  { unfold p, place3. fold r. rewrite cartesian_gn. unfold unit_n. pose proof (delta_pos (tan x1) (tan x2)). apply vec_eq; unfold vscal, vx, vy, vz; cbn [fst snd]; field; split; lra. }
  rewrite N. unfold V. rewrite E1, E2, E3. 
  refine (contra_vector3 o r (tan x1) (tan x2) lon lat rr dx dy deta h1 h2 h3 _ _ _ _ _ u1 u2 u3); auto.
Qed.
Lemma round_wind3_flat : forall o r X Y lon lat rr dx dy deta h3, 0 < r -> cart2sph (vx (to_cartesian o r X Y)) (vy (to_cartesian o r X Y)) (vz (to_cartesian o r X Y)) = (lon, lat, rr) ->
  cos lat <> 0 -> dx <> 0 -> dy <> 0 -> deta <> 0 -> h3 <> 0 -> forall u v w,
  let '(u1, u2, u3) := wind2contra_3d o r (cos lat) dx dy (metric3_contra dx dy deta r X Y 0 0 h3) (inv_dzdeta deta h3) X Y u v w in
  contra2wind_3d o r (cos lat) dx dy (metric3_cov dx dy deta r X Y 0 0 h3) (inv_dzdeta deta h3) X Y u1 u2 u3 = (u, v, w).
Proof. intros. eapply round_wind3; eauto. Qed.
Lemma ex_place : let o := {| lon_p := 0; lat_p := 0; angle_p := 0 |} in let p := to_cartesian o 2 0 0 in cart2sph (vx p) (vy p) (vz p) = (0, 0, 2) /\ cos 0 <> 0.
Proof.
  cbv zeta. split; [|rewrite cos_0; lra]. unfold to_cartesian. cbn [lon_p lat_p angle_p]. rewrite cos_0, sin_0.
  replace (1 + 0 ^ 2 + 0 ^ 2) with 1 by ring. rewrite sqrt_1. unfold vx, vy, vz; cbn [fst snd].
  replace (2 / 1 * (1 * 1 + 0 * (1 * 0 * 0 - 0 * 1) - 0 * (1 * 0 * 1 + 0 * 0))) with 2 by field.
  replace (2 / 1 * (0 * 1 + 0 * (0 * 0 * 0 + 1 * 1) - 0 * (0 * 0 * 1 - 1 * 0))) with 0 by field.
  replace (2 / 1 * (0 - 0 * 1 * 0 + 0 * 1 * 1)) with 0 by field.
  unfold cart2sph. replace (2 ^ 2 + 0 ^ 2) with (2 ^ 2) by ring. rewrite sqrt_pow2 by lra. replace (2 ^ 2 + 0 ^ 2) with (2 ^ 2) by ring. rewrite sqrt_pow2 by lra.
  assert (A : atan2 0 2 = 0) by (unfold atan2; destruct (Rlt_dec 0 2); [|lra]; replace (0 / 2) with 0 by lra; apply atan_0).
  rewrite A. destruct (Rlt_dec 0 0); [lra|reflexivity].
Qed.
Lemma decomposition : forall k i n e s, (0 < k)%nat -> (0 < n)%nat ->
  x_solpt k i n e s = x_solpt 1 0 (k * n) (i * n + e) s /\ x_itf k i n e = x_itf 1 0 (k * n) (i * n + e) /\
  x_itf k i n n = x_itf k (S i) n 0 /\ x_itf k 0 n 0 = - PI / 4 /\ x_itf k (k - 1) n n = PI / 4.
Proof.
  intros k i n e s Hk Hn. destruct (x_itf_ends k i n Hn) as [_ A]. destruct (x_itf_ends k (S i) n Hn) as [B _]. destruct (x_itf_ends k 0 n Hn) as [C _]. destruct (x_itf_ends k (k - 1) n Hn) as [_ D].
  rewrite x_solpt_global, x_itf_global by auto. split; [auto|]. split; [auto|]. rewrite A, B, C, D, !tile_next, tile_start_0. split; [auto|]. split; [auto|].
  replace (S (k - 1)) with k by lia. apply tile_last; auto.
Qed.
Lemma on_sphere : forall o r X Y lon lat rr, 0 < r -> let p := to_cartesian o r X Y in
  dot p p = r ^ 2 /\ (cart2sph (vx p) (vy p) (vz p) = (lon, lat, rr) -> rr = r /\ sph2cart lon lat rr = p /\ 0 <= lon < 2 * PI /\ - (PI / 2) <= lat <= PI / 2).
Proof.
  intros o r X Y lon lat rr Hr p. split; [apply cartesian_norm|]. intros E. destruct (cart2sph_range _ _ _ _ _ _ E) as (A & B & _). destruct (cart2sph_back _ _ _ _ _ _ E) as (C & _).
  split; [exact (rr_r o r X Y lon lat rr Hr E)|]. split; [rewrite C; unfold vx, vy, vz; destruct p as [[? ?] ?]; reflexivity|]. auto.
Qed.
Lemma one_cube : forall lambda0 phi0 alpha0, exists a b c, right_handed a b c /\ a = (cos lambda0 * cos phi0, sin lambda0 * cos phi0, sin phi0) /\
  forall p o r X Y, (p < 6)%nat -> panel_rotation p lambda0 phi0 alpha0 = Some o ->
    let v := vscal (r / sqrt (1 + X ^ 2 + Y ^ 2)) (turn a b c (cube_point 1 (Z.of_nat p) X Y)) in let w := to_cartesian o r X Y in
    (off_poles p phi0 alpha0 -> w = v) /\
    (Rabs phi0 < / 10 ^ 13 -> Rabs alpha0 < / 10 ^ 13 -> 0 < r -> - 1 <= X <= 1 -> - 1 <= Y <= 1 ->
     Rabs (vx w - vx v) <= 2 / 10 ^ 12 * r /\ Rabs (vy w - vy v) <= 2 / 10 ^ 12 * r /\ Rabs (vz w - vz v) <= 2 / 10 ^ 12 * r).
Proof.
  intros l f a. set (b := {| lon_p := l; lat_p := f; angle_p := a |}). exists (fC b), (fE1 b), (fE2 b). split; [apply frame_right_handed|]. split; [reflexivity|].
  intros p o r X Y Hp E v w. split; [intros Off; exact (panel_projection p l f a o r X Y Hp Off E)|]. intros Hf Ha Hr HX HY.
  destruct (Nat.lt_ge_cases p 4) as [P|P]; [|apply (tiny_panels p l f a o r X Y); auto; lia].
  assert (Off : off_poles p f a).
  { assert (S : (cos f * sin a) ^ 2 <> 1).
    { pose proof (sin_abs a). pose proof (cos_abs f). assert (T : / 10 ^ 13 < 1) by (rewrite <- Rinv_1; apply Rinv_lt_contravar; lra). rewrite Rpow_mult_distr.
      assert (B : - 1 < sin a < 1) by (assert (Rabs (sin a) < 1) by lra; apply Rabs_def2 in H1; lra). pose proof (COS_bound f). 
      assert (cos f ^ 2 <= 1) by nra. assert (sin a ^ 2 < 1) by nra. pose proof (pow2_ge_0 (cos f)). pose proof (pow2_ge_0 (sin a)). nra. }
    destruct p as [|[|[|[|p]]]]; cbn [off_poles]; auto. lia. }
  pose proof (panel_projection p l f a o r X Y Hp Off E) as K. cbv zeta in K. fold b v w in K. rewrite K, !Rminus_eq_0, Rabs_R0.
  assert (0 <= 2 / 10 ^ 12 * r) by (apply Rmult_le_pos; lra). auto.
Qed.
Lemma edges_iff : forall lambda0 phi0 alpha0 p q op oq r X Y X' Y', (p < 6)%nat -> (q < 6)%nat -> off_poles p phi0 alpha0 -> off_poles q phi0 alpha0 ->
  panel_rotation p lambda0 phi0 alpha0 = Some op -> panel_rotation q lambda0 phi0 alpha0 = Some oq -> 0 < r ->
  - 1 <= X <= 1 -> - 1 <= Y <= 1 -> - 1 <= X' <= 1 -> - 1 <= Y' <= 1 ->
  (to_cartesian op r X Y = to_cartesian oq r X' Y' <-> cube_point 1 (Z.of_nat p) X Y = cube_point 1 (Z.of_nat q) X' Y').
Proof. intros. split; [eapply overlap_edges|eapply edges_meet]; eauto. Qed.
Lemma ex_untilted : forall p, off_poles p 0 0.
Proof. intros p. destruct p as [|[|[|[|[|[|p]]]]]]; cbn; auto; rewrite sin_0; lra. Qed.
Lemma ex_tilted : forall p, off_poles p 1 1.
Proof.
  pose proof PI2_1. assert (C : 0 < cos 1) by (apply cos_gt_0; lra). assert (S1 : 0 < sin 1) by (apply sin_gt_0; lra). pose proof (sin2_cos2 1) as Q. unfold Rsqr in Q.
  assert (T : / 10 ^ 13 <= Rabs 1) by (rewrite Rabs_R1; rewrite <- Rinv_1; apply Rinv_le_contravar; lra).
  assert (A : cos 1 * sin 1 < 1) by nra. assert (B : cos 1 * cos 1 < 1) by nra. assert (A0 : 0 < cos 1 * sin 1) by nra. assert (B0 : 0 < cos 1 * cos 1) by nra.
  intros p. destruct p as [|[|[|[|[|[|p]]]]]]; cbn [off_poles]; auto; try (right; split; [|auto]); intro; nra.
Qed.
Lemma metric3_volume : forall dx dy deta r X Y r1 r2 r3, 0 < dx -> 0 < dy -> 0 < deta -> metric3_rootG dx dy deta r X Y r3 = sqrt (det3 (metric3_cov dx dy deta r X Y r1 r2 r3)).
Proof.
  intros dx dy deta r X Y r1 r2 r3 H1 H2 H3. rewrite <- metric3_det, sqrt_pow2; [reflexivity|]. unfold metric3_rootG.
  pose proof (pow2_ge_0 X). pose proof (pow2_ge_0 Y). pose proof (pow2_ge_0 r). pose proof (Rabs_pos r3).
  assert (0 < sqrt (1 + X ^ 2 + Y ^ 2)) by (apply sqrt_lt_R0; lra). set (x2 := X ^ 2) in *. set (y2 := Y ^ 2) in *. set (q := r ^ 2) in *. clearbody q.
  apply Rdiv_le_0_compat; [repeat apply Rmult_le_pos; lra|apply Rmult_lt_0_compat; lra].
Qed.
Lemma ex_partials : exists e1 e2 e3, partials3 (fun x y z => 6371220 + z * (100 + x * y)) (1 / 2) (1 / 4) (1 / 8) (1 / 8 * (1 / 4)) (1 / 8 * (1 / 2)) (100 + 1 / 2 * (1 / 4)) /\
  tangents3 {| lon_p := 1; lat_p := 1; angle_p := 1 |} (fun x y z => 6371220 + z * (100 + x * y)) (1 / 2) (1 / 4) (1 / 8) e1 e2 e3.
Proof.
  assert (P : partials3 (fun x y z => 6371220 + z * (100 + x * y)) (1 / 2) (1 / 4) (1 / 8) (1 / 8 * (1 / 4)) (1 / 8 * (1 / 2)) (100 + 1 / 2 * (1 / 4))).
  { unfold partials3. split; [|split]; auto_derive; auto; ring. }
  eexists _, _, _. split; [exact P|]. eapply tangents3_values; [apply regular_small; lra|apply regular_small; lra|exact P].
Qed.
Lemma itf_average_wrong_inside : forall X Y a1 a2, - 1 < X < 1 -> - 1 < Y < 1 -> X * Y <> 0 -> (a1, a2) <> (0, 0) -> itf_average X Y a1 a2 a1 a2 <> (a1, a2).
Proof.
  intros X Y a1 a2 HX HY N A. apply itf_average_wrong; auto. assert (X ^ 2 < 1) by nra. assert (Y ^ 2 < 1) by nra. rewrite Rpow_mult_distr. pose proof (pow2_ge_0 X). pose proof (pow2_ge_0 Y). nra.
Qed.
Lemma rotation3 : forall o Omega H x1 x2 eta h1 h2 h3 dx dy deta e1 e2 e3, regular x1 -> regular x2 -> partials3 H x1 x2 eta h1 h2 h3 -> tangents3 o H x1 x2 eta e1 e2 e3 ->
  H x1 x2 eta <> 0 -> h3 <> 0 -> dx <> 0 -> dy <> 0 -> deta <> 0 ->
  let f1 := vscal (dx / 2) e1 in let f2 := vscal (dy / 2) e2 in let f3 := vscal (deta / 2) e3 in
  let G := christoffel3_0 o Omega dx dy deta (H x1 x2 eta) (tan x1) (tan x2) h1 h2 h3 in
  cross (vscal Omega axis) f1 = vadd (vscal (G 1 1)%nat f1) (vadd (vscal (G 2 1)%nat f2) (vscal (G 3 1)%nat f3)) /\
  cross (vscal Omega axis) f3 = vadd (vscal (G 1 3)%nat f1) (vadd (vscal (G 2 3)%nat f2) (vscal (G 3 3)%nat f3)).
Proof.
  intros o Omega H x1 x2 eta h1 h2 h3 dx dy deta e1 e2 e3 R1 R2 P T H0 H3 Hdx Hdy Hde.
  destruct (tangents3_unique _ _ _ _ _ _ _ _ _ _ _ T (tangents3_values o H x1 x2 eta h1 h2 h3 R1 R2 P)) as (-> & -> & ->).
  split; [apply column1|apply column3]; auto.
Qed.
Lemma rotation3_wrong : forall o Omega H x1 x2 eta h1 h2 h3 dx dy deta e1 e2 e3, regular x1 -> regular x2 -> partials3 H x1 x2 eta h1 h2 h3 -> tangents3 o H x1 x2 eta e1 e2 e3 ->
  H x1 x2 eta <> 0 -> h3 <> 0 -> dx <> 0 -> dy <> 0 -> deta <> 0 -> Omega <> 0 -> vz (place3 o H x1 x2 eta) <> 0 ->
  let f1 := vscal (dx / 2) e1 in let f2 := vscal (dy / 2) e2 in let f3 := vscal (deta / 2) e3 in
  let G := christoffel3_0 o Omega dx dy deta (H x1 x2 eta) (tan x1) (tan x2) h1 h2 h3 in
  cross (vscal Omega axis) f2 <> vadd (vscal (G 1 2)%nat f1) (vadd (vscal (G 2 2)%nat f2) (vscal (G 3 2)%nat f3)).
Proof.
  intros o Omega H x1 x2 eta h1 h2 h3 dx dy deta e1 e2 e3 R1 R2 P T H0 H3 Hdx Hdy Hde HO Hz.
  destruct (tangents3_unique _ _ _ _ _ _ _ _ _ _ _ T (tangents3_values o H x1 x2 eta h1 h2 h3 R1 R2 P)) as (-> & -> & ->).
  apply column2_wrong; auto. intro E. apply Hz. unfold place3, to_cartesian, vz. cbn [snd]. unfold gridrot in E. rewrite E. ring.
Qed.
Lemma system_facts : forall s g h rhs G, s <> 0 -> symmetric3 g -> symmetric3 h -> inverse3n g h -> (forall a b c, (a < 3)%nat -> (b < 3)%nat -> (c < 3)%nat -> rhs a b c = rhs b a c) ->
  solves_system s h rhs G ->
  (forall G', solves_system s h rhs G' -> forall a b c, (a < 3)%nat -> (b < 3)%nat -> (c < 3)%nat -> G' a b c = G a b c) /\
  (forall a b c, (a < 3)%nat -> (b < 3)%nat -> (c < 3)%nat -> G a b c = G a c b) /\
  (forall a, (a < 3)%nat -> sum_below 3 (fun c => rhs a c c) + s * sum_below 3 (fun c => sum_below 3 (fun d => G a c d * h c d)) = 0).
Proof.
  intros s g h rhs G Hs Sg Sh I Sr S.
  assert (Sg' : forall a b, (a < 3)%nat -> (b < 3)%nat -> g a b = g b a) by (intros a b Ha Hb; apply (proj1 (below3_all _)) with (a := a) in Sg; auto; apply (proj1 (below3_all _)) with (a := b) in Sg; auto).
  assert (Sh' : forall a b, (a < 3)%nat -> (b < 3)%nat -> h a b = h b a) by (intros a b Ha Hb; apply (proj1 (below3_all _)) with (a := a) in Sh; auto; apply (proj1 (below3_all _)) with (a := b) in Sh; auto).
  assert (I' : forall a b, (a < 3)%nat -> (b < 3)%nat -> sum3 (fun k => g a k * h k b) = kron a b) by (intros a b Ha Hb; apply (proj1 (below3_all _)) with (a := a) in I; auto; apply (proj1 (below3_all _)) with (a := b) in I; auto).
  split; [intros G' S' a b c Ha Hb Hc; eapply (system_unique s g h); eauto|].
  split; [intros a b c Ha Hb Hc; eapply (system_symmetric s g h); eauto|].
  intros a Ha. pose proof (system_balance s g h Hs Sg' Sh' I' rhs G Sr S a Ha) as B. unfold sum3 in B. cbn [sum_below]. lra.
Qed.
