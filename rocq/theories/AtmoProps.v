(** C76: the initial states of the Euler test cases *)
From Coq Require Import Reals Lra List.
From Coquelicot Require Import Coquelicot.
From Verif Require Import FluxModel AtmoModel AtmoSpec AtmoProofs.
Local Open Scope R_scope.

(** The pressure that the right hand side computes from the stored rho theta carries the weight of the stored density, at every point, for every radius, speed of rotation and top of the model
    (case 20: where its temperature is above 0 K, below 46 km) *)
Theorem C76_hydrostatic : forall radius Omega ztop case lon lat (z : R), List.In case (11 :: 12 :: 20 :: 21 :: 22 :: nil)%nat -> (case = 20%nat -> z < 300 / (65 / 10000)) ->
  let q t := initial_euler radius Omega ztop case lon lat t in
  0 < rho_of (q z) /\ hydrostatic gravity (fun t => rho_of (q t)) (fun t => pressure_points (rho_theta_of (q t))) z.
Proof. exact start_hydrostatic. Qed.
Print Assumptions C76_hydrostatic.

(** The zonal wind of the mountain wave cases balances the pressure gradient of the planet without rotation (shallow atmosphere), with and without shear *)
Theorem C76_wind : forall radius ztop case lon lat z, case = 21%nat \/ case = 22%nat -> 0 < radius -> 0 <= z -> cos lat <> 0 ->
  let q y := initial_euler radius 0 ztop case lon y z in
  others_zero (q lat) /\ gradient_wind radius 0 (rho_of (q lat)) (zonal_of (q lat)) (fun y => pressure_points (rho_theta_of (q y))) lat.
Proof. exact start_wind. Qed.
Print Assumptions C76_wind.

(** Gravity wave, with every speed of rotation: without the perturbation of the potential temperature (at most 1 K, 0 at the ground) the state is hydrostatic and its wind is in balance *)
Theorem C76_gravity_wave : forall radius Omega ztop lon lat (z : R), 0 < radius -> cos lat <> 0 -> 0 < gw_TS radius Omega lat -> 0 < gw_T radius Omega lat z ->
  let q y t := initial_euler radius Omega ztop 31 lon y t in
  let P y t := pressure_points (rho_theta_of (q y t) - rho_of (q y t) * gw_pert radius lon y t) in
  0 < rho_of (q lat z) /\ hydrostatic gravity (fun t => rho_of (q lat t)) (fun t => P lat t) z /\ others_zero (q lat z) /\
  gradient_wind radius Omega (rho_of (q lat z)) (zonal_of (q lat z)) (fun y => P y z) lat /\ Rabs (gw_pert radius lon lat z) <= 1 /\ gw_pert radius lon lat 0 = 0.
Proof. exact start_wave. Qed.
Print Assumptions C76_gravity_wave.
Example C76_gravity_wave_example : 0 < gw_TS (6371220 / 125) 0 0 /\ 0 < gw_T (6371220 / 125) 0 0 0 /\ cos 0 <> 0 /\ zonal_of (initial_euler (6371220 / 125) 0 10000 31 0 0 0) = 20.
Proof.
  assert (T : gw_TS (6371220 / 125) 0 0 = 300) by (unfold gw_TS; rewrite Rmult_0_r, cos_0; match goal with |- context [exp ?a] => replace a with 0 by ring end; rewrite exp_0; ring).
  unfold gw_T. rewrite T, cos_0. replace (1 / 100 * (1 / 100) * 0 / gravity) with 0 by (unfold Rdiv; ring). rewrite exp_0. unfold initial_euler. destruct (thermo _ _). unfold zonal_of, gw_u. rewrite cos_0. repeat split; lra.
Qed.

(** The prescribed winds of the advection cases keep the mass at every time, and no air crosses the bottom and the top *)
Theorem C76_advection : forall radius ztop time lon lat z, radius <> 0 -> ztop <> 0 -> cos lat <> 0 -> let rho t := rho_of (initial_euler radius 0 ztop 11 lon lat t) in
  (forall t, rho t = rho_of (initial_euler radius 0 ztop 12 lon lat t)) /\
  mass_conserving radius rho (fun l p z => fst (fst (winds_11 radius time l p z))) (fun l p z => snd (fst (winds_11 radius time l p z))) (fun l p z => snd (winds_11 radius time l p z)) lon lat z /\
  mass_conserving radius rho (fun l p z => fst (fst (winds_12 radius ztop time l p z))) (fun l p z => snd (fst (winds_12 radius ztop time l p z))) (fun l p z => snd (winds_12 radius ztop time l p z)) lon lat z /\
  snd (winds_11 radius time lon lat 0) = 0 /\ snd (winds_11 radius time lon lat 12000) = 0 /\ snd (winds_12 radius ztop time lon lat 0) = 0 /\ snd (winds_12 radius ztop time lon lat ztop) = 0.
Proof. exact start_advection. Qed.
Print Assumptions C76_advection.

(** The tracers are mixing ratios (the two bells do not overlap), the second is the stated function of the first, and the weighted sum of the four is 1 *)
Theorem C76_tracers : forall lon lat z, let '(q1, q2, q3, q4) := tracers_11 lon lat z in
  (0 <= q1 <= 1) /\ (1 / 10 <= q2 <= 9 / 10) /\ (q3 = 1 / 10 \/ q3 = 1) /\ (0 <= q4 <= 1) /\ q2 = 9 / 10 - 8 / 10 * q1 ^ 2 /\ 3 / 10 * (q1 + q2 + q3) + q4 = 1 /\ 0 <= tracer_12 z <= 1.
Proof. exact tracers_ok. Qed.
Print Assumptions C76_tracers.
(** The third tracer fills two ellipsoids around the centres, but not the slot above 5 km near the equator; the tracer of the case 12 fills the layer between 2 and 5 km *)
Theorem C76_tracer_shapes : forall lon lat z,
  (let '(_, _, q3, _) := tracers_11 lon lat z in
   let near lon0 := (2 * acos (cos lat * cos (lon - lon0))) ^ 2 + ((z - 5000) / 1000) ^ 2 <= 1 / 2 in
   q3 = 1 <-> (near (5 * PI / 6) \/ near (7 * PI / 6)) /\ ~ (5000 < z /\ Rabs lat < 1 / 8)) /\
  (0 < tracer_12 z <-> 2000 < z < 5000).
Proof. exact (fun lon lat z => conj (tracers_shape lon lat z) (layer_positive z)). Qed.
Print Assumptions C76_tracer_shapes.
(** the centre of the first bell *)
Example C76_tracers_example : fst (fst (fst (tracers_11 (5 * PI / 6) 0 5000))) = 1 /\ tracer_12 3500 = 1.
Proof.
  split.
  - pose proof (bell_apart (5 * PI / 6) 0 5000) as A. unfold tracers_11. cbv zeta. cbn [fst].
    assert (D : bell_distance (5 * PI / 6) (5 * PI / 6) 0 5000 = 0).
    { unfold bell_distance. cbv zeta. rewrite sin_0, cos_0. replace (5 * PI / 6 - 5 * PI / 6) with 0 by ring. rewrite cos_0. replace (0 * 0 + 1 * 1 * 1) with 1 by ring. rewrite acos_1. replace ((0 / (1 / 2)) ^ 2 + ((5000 - 5000) / 1000) ^ 2) with 0 by field. apply Rmin_right. lra. }
    rewrite D in *. destruct A as [A|A]; [exfalso; lra|]. rewrite A, Rmult_0_r, cos_0, Rmult_1_r, cos_PI. field.
  - unfold tracer_12. cbv zeta. destruct (Rlt_dec 3500 5000); [|lra]. destruct (Rlt_dec 2000 3500); [|lra]. replace (2 * PI * (3500 - 1 / 2 * (2000 + 5000)) / (5000 - 2000)) with 0 by field. rewrite cos_0. field.
Qed.

(** The sponge layer of the mountain wave cases: nothing below 20 km, nothing on the initial wind, never accelerates away from the reference wind (the forcing is subtracted), time scale at least 25 s, reached at the top *)
Theorem C76_sponge : forall rho ztop z u uref, 0 < rho -> 20000 < ztop ->
  (z <= 20000 -> schar_damping rho ztop z u uref = 0) /\ (u = uref -> schar_damping rho ztop z u uref = 0) /\ 0 <= schar_damping rho ztop z u uref * (u - uref) /\
  Rabs (schar_damping rho ztop z u uref) <= rho / 25 * Rabs (u - uref) /\ schar_damping rho ztop ztop u uref = rho / 25 * (u - uref).
Proof. exact sponge. Qed.
Print Assumptions C76_sponge.

(** Acoustic wave: at rest, the pressure within 100 Pa of the isothermal atmosphere and equal to it outside of the cap (up to 40 km) *)
Theorem C76_acoustic : forall radius Omega ztop lon lat (z : R), 0 <= z <= 40000 -> let q := initial_euler radius Omega ztop 77 lon lat z in
  others_zero q /\ zonal_of q = 0 /\ 0 < rho_of q /\ Rabs (pressure_points (rho_theta_of q) - p_isothermal z) <= 100 /\
  (6371000 * acos (cos lat * cos lon) > 6371000 / 3 -> pressure_points (rho_theta_of q) = p_isothermal z).
Proof. exact acoustic_ok. Qed.
Print Assumptions C76_acoustic.

(** The vertical plane. Mountain wave: hydrostatic up to 29 km *)
Theorem C76_plane_mountain : forall th0 x (z : R), 0 <= z < 29000 ->
  let q t := initial_cartesian th0 0 x t in 0 < rho_of (q z) /\ hydrostatic gravity (fun t => rho_of (q t)) (fun t => pressure_points (rho_theta_of (q t))) z.
Proof. exact mountain_hydrostatic. Qed.
Print Assumptions C76_plane_mountain.

(** Bubble: hydrostatic in its core, where the potential temperature is uniform. Outside of it the full statement is refuted below *)
Theorem C76_bubble_core_partial : forall th0 x (z : R), (x - 500) ^ 2 + (z - 260) ^ 2 < 50 ^ 2 -> 0 < th0 + 1 / 2 -> gravity * z < cpd * (th0 + 1 / 2) ->
  let q t := initial_cartesian th0 2 x t in hydrostatic gravity (fun t => rho_of (q t)) (fun t => pressure_points (rho_theta_of (q t))) z.
Proof. exact bubble_core. Qed.
Print Assumptions C76_bubble_core_partial.
Example C76_bubble_core_example : (500 - 500) ^ 2 + (250 - 260) ^ 2 < 50 ^ 2 /\ 0 < 30315 / 100 + 1 / 2 /\ gravity * 250 < cpd * (30315 / 100 + 1 / 2).
Proof. unfold gravity, cpd. repeat split; lra. Qed.

(** What the pressure gradient of the bubble is everywhere: the weight, but for the factor 1 - z theta' / theta *)
Theorem C76_bubble_pressure : forall th0 x (z th' : R), is_derive (fun t : R => bubble_theta th0 x t) z th' -> 0 < bubble_theta th0 x z -> gravity * z < cpd * bubble_theta th0 x z ->
  let q t := initial_cartesian th0 2 x t in 0 < rho_of (q z) /\
  is_derive (fun t : R => pressure_points (rho_theta_of (q t))) z (- rho_of (q z) * gravity * (1 - z * th' / bubble_theta th0 x z)).
Proof. exact bubble_pressure. Qed.
Print Assumptions C76_bubble_pressure.

(** The comment of initialize_cartesian2d says "Initial state at rest, isentropic, hydrostatic". The Exner pressure is computed with the perturbed potential temperature as if it did not depend on the height:
    100 m above the centre of the bubble, on its axis, the state is not hydrostatic *)
Theorem C76_bubble_refuted : let q t := initial_cartesian 300 2 500 t in ~ hydrostatic gravity (fun t => rho_of (q t)) (fun t => pressure_points (rho_theta_of (q t))) 360.
Proof. exact bubble_not. Qed.
Print Assumptions C76_bubble_refuted.
