From Coq Require Import Reals Lra.
From Coquelicot Require Import Coquelicot.
From Verif Require Import GeoModel GeoSpec GeoProofs GeoWinds GeoFinal FluxModel DiagModel.
Local Open Scope R_scope.

Lemma atan_place : forall X, regular (atan X + 1 / 2 * 0) /\ tan (atan X + 1 / 2 * 0) = X.
Proof.
  intro X. replace (atan X + 1 / 2 * 0) with (atan X) by ring. split; [|exact (tan_atan X)].
  unfold regular. pose proof (atan_bound X). apply Rgt_not_eq, cos_gt_0; lra.
Qed.
Lemma gram_of_sum : forall a b d1 d2, dot (vadd (vscal a d1) (vscal b d2)) (vadd (vscal a d1) (vscal b d2)) = a * a * dot d1 d1 + 2 * a * b * dot d1 d2 + b * b * dot d2 d2.
Proof. intros a b [[x1 y1] z1] [[x2 y2] z2]. unfold dot, vadd, vscal, vx, vy, vz. cbn [fst snd]. ring. Qed.
Lemma east_north : forall lon lat, dot (east lon lat) (east lon lat) = 1 /\ dot (east lon lat) (north lon lat) = 0 /\ dot (north lon lat) (north lon lat) = 1.
Proof.
  intros lon lat. unfold dot, east, north, vx, vy, vz. cbn [fst snd]. pose proof (sin2_cos2 lon) as A. pose proof (sin2_cos2 lat) as B. unfold Rsqr in *. repeat split.
  - lra.
  - ring.
  - transitivity (sin lat * sin lat * (sin lon * sin lon + cos lon * cos lon) + cos lat * cos lat); [ring|]. rewrite A. lra.
Qed.
(** the square of the wind *)
Lemma speed : forall o r X Y lon lat rr dx1 dx2 u v, 0 < r -> dx1 <> 0 -> dx2 <> 0 ->
  cart2sph (vx (to_cartesian o r X Y)) (vy (to_cartesian o r X Y)) (vz (to_cartesian o r X Y)) = (lon, lat, rr) -> cos lat <> 0 ->
  let (u1, u2) := wind2contra_2d o r (cos lat) dx1 dx2 X Y u v in let g := H_cov r dx1 dx2 X Y in
  s11 g * u1 ^ 2 + 2 * s12 g * u1 * u2 + s22 g * u2 ^ 2 = u ^ 2 + v ^ 2.
Proof.
  intros o r X Y lon lat rr dx1 dx2 u v Hr H1 H2 HC HL.
  pose (a1 := atan X). pose (a2 := atan Y). assert (E : forall a d, a + d / 2 * 0 = a) by (intros; field).
  assert (T : forall x, regular (atan x)) by (intro x; destruct (atan_place x) as [A _]; replace (atan x + 1 / 2 * 0) with (atan x) in A by ring; exact A).
  assert (G1 : regular (a1 + dx1 / 2 * 0)) by (rewrite E; apply T). assert (G2 : regular (a2 + dx2 / 2 * 0)) by (rewrite E; apply T).
  pose proof (place_tangents o r a1 a2 dx1 dx2 0 0 G1 G2) as P. cbv zeta in P.
  pose proof (metric_is_pullback o r a1 a2 dx1 dx2 0 0 _ _ G1 G2 P) as M. cbv zeta in M.
  assert (TX : tan (a1 + dx1 / 2 * 0) = X) by (rewrite E; apply tan_atan). assert (TY : tan (a2 + dx2 / 2 * 0) = Y) by (rewrite E; apply tan_atan).
  pose proof (wind_same_vector o r a1 a2 dx1 dx2 0 0 _ _ lon lat rr u v G1 G2 P) as W. cbv zeta in W. unfold place in W. rewrite TX, TY in *. specialize (W Hr H1 H2 HC HL).
  destruct (wind2contra_2d o r (cos lat) dx1 dx2 X Y u v) as [u1 u2]. destruct M as (M1 & M2 & M3). cbv zeta. rewrite M1, M2, M3.
  match type of W with ?L = ?R => assert (D : dot L L = dot R R) by (rewrite W; reflexivity) end. rewrite !gram_of_sum in D. destruct (east_north lon lat) as (Q1 & Q2 & Q3). rewrite Q1, Q2, Q3 in D. lra.
Qed.
Lemma energy_split : forall h u1 u2 topo g b, b = match topo with Some b => b | None => 0 end ->
  total_energy h u1 u2 topo g = / 2 * h * (s11 g * u1 ^ 2 + 2 * s12 g * u1 * u2 + s22 g * u2 ^ 2) + / 2 * gravity * ((h + b) ^ 2 - b ^ 2).
Proof. intros h u1 u2 [t|] g b ->; unfold total_energy; field. Qed.
Lemma column_energy : forall h b, is_RInt (fun z => gravity * z) b (b + h) (/ 2 * gravity * ((h + b) ^ 2 - b ^ 2)).
Proof.
  intros h b. replace (/ 2 * gravity * ((h + b) ^ 2 - b ^ 2)) with (minus (/ 2 * gravity * (b + h) ^ 2) (/ 2 * gravity * b ^ 2)) by (unfold minus, plus, opp; cbn; ring).
  apply (is_RInt_derive (fun z => / 2 * gravity * z ^ 2) (fun z => gravity * z)).
  - intros x _. auto_derive; [exact I|]. field.
  - intros x _. apply (continuous_scal_r (K:=R_AbsRing) (V:=R_NormedModule) gravity (fun z => z)). apply continuous_id.
Qed.
Lemma energy_wind : forall o r X Y lon lat rr dx1 dx2 u v h topo b pot, 0 < r -> dx1 <> 0 -> dx2 <> 0 ->
  cart2sph (vx (to_cartesian o r X Y)) (vy (to_cartesian o r X Y)) (vz (to_cartesian o r X Y)) = (lon, lat, rr) -> cos lat <> 0 ->
  b = match topo with Some b => b | None => 0 end -> is_RInt (fun z => gravity * z) b (b + h) pot ->
  let (u1, u2) := wind2contra_2d o r (cos lat) dx1 dx2 X Y u v in total_energy h u1 u2 topo (H_cov r dx1 dx2 X Y) = h * (u ^ 2 + v ^ 2) / 2 + pot.
Proof.
  intros o r X Y lon lat rr dx1 dx2 u v h topo b pot Hr H1 H2 HC HL Hb HP. pose proof (speed o r X Y lon lat rr dx1 dx2 u v Hr H1 H2 HC HL) as S.
  destruct (wind2contra_2d o r (cos lat) dx1 dx2 X Y u v) as [u1 u2]. cbv zeta in S. rewrite (energy_split _ _ _ _ _ b Hb), S.
  rewrite <- (is_RInt_unique _ _ _ _ HP), (is_RInt_unique _ _ _ _ (column_energy h b)). field.
Qed.
Lemma energy_positive : forall r dx1 dx2 X Y h u1 u2 topo, r <> 0 -> dx1 <> 0 -> dx2 <> 0 -> 0 <= h -> match topo with Some b => 0 <= b | None => True end ->
  0 <= total_energy h u1 u2 topo (H_cov r dx1 dx2 X Y) /\ (total_energy h u1 u2 topo (H_cov r dx1 dx2 X Y) = 0 -> h = 0).
Proof.
  intros r dx1 dx2 X Y h u1 u2 topo Hr H1 H2 Hh Hb. rewrite (energy_split h u1 u2 topo _ _ eq_refl). set (b := match topo with Some b => b | None => 0 end).
  assert (B : 0 <= b) by (unfold b; destruct topo; lra). set (g := H_cov r dx1 dx2 X Y).
  assert (K : 0 <= s11 g * u1 ^ 2 + 2 * s12 g * u1 * u2 + s22 g * u2 ^ 2).
  { destruct (Req_dec u1 0) as [->|N]; [destruct (Req_dec u2 0) as [->|N]|].
    - right. ring.
    - left. apply (cov_positive r dx1 dx2 X Y Hr H1 H2). now right.
    - left. apply (cov_positive r dx1 dx2 X Y Hr H1 H2). now left. }
  set (e := s11 g * u1 ^ 2 + _ + _) in *. assert (G : 0 < gravity) by (unfold gravity; lra).
  assert (P : (h + b) ^ 2 - b ^ 2 = h * (h + 2 * b)) by ring. rewrite P.
  assert (A : 0 <= / 2 * h * e) by (apply Rmult_le_pos; [lra|exact K]). assert (C : 0 <= / 2 * gravity * (h * (h + 2 * b))) by (repeat apply Rmult_le_pos; lra).
  split; [lra|]. intro Z. destruct (Req_dec h 0) as [|N]; [assumption|exfalso].
  assert (0 < / 2 * gravity * (h * (h + 2 * b))) by (repeat apply Rmult_lt_0_compat; lra). lra.
Qed.
