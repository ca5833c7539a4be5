(** C75: the initial states of the shallow water test cases *)
From Coq Require Import Reals Lra ZArith List.
From Coquelicot Require Import Coquelicot.
From Verif Require Import GeoModel GeoSpec FluxModel SwModel InitModel InitSpec InitProofs InitWave.
Local Open Scope R_scope.

(** The cases 2 and 10 start from an exact steady state: with the exact derivatives of the fluxes and of the ground, the right hand side of the three equations is 0, on every panel with every rotation of the grid,
    for every radius and speed of rotation, at every point of every element that is not on the axis of rotation *)
Theorem C75_steady : forall (o : rotation) (R0 Omega dx a1 a2 xi1 xi2 : R) (case : nat), case = 2%nat \/ case = 10%nat -> 0 < R0 -> dx <> 0 -> regular (a1 + dx / 2 * xi1) -> regular (a2 + dx / 2 * xi2) ->
  (vx (place o R0 a1 a2 dx dx xi1 xi2) <> 0 \/ vy (place o R0 a1 a2 dx dx xi1 xi2) <> 0) ->
  let X x := tan (a1 + dx / 2 * x) in let Y y := tan (a2 + dx / 2 * y) in
  let q x y := part (initial_sw o R0 Omega dx case (X x) (Y y)) in
  let J x y := sqrtG R0 dx dx (X x) (Y y) in let H x y := H_contra R0 dx dx (X x) (Y y) in
  exists dz1 dz2, is_derive (fun x : R => q x xi2 3%nat) xi1 dz1 /\ is_derive (fun y : R => q xi1 y 3%nat) xi2 dz2 /\
  forall v, (v < 3)%nat ->
    rate (fun x y => sw_flux_x1 (J x y) (s11 (H x y)) (s12 (H x y)) (q x y 0%nat) (q x y 1%nat) (q x y 2%nat) v)
         (fun x y => sw_flux_x2 (J x y) (s12 (H x y)) (s22 (H x y)) (q x y 0%nat) (q x y 1%nat) (q x y 2%nat) v)
         (J xi1 xi2) (forcing_at o R0 Omega dx (X xi1) (Y xi2) (q xi1 xi2 0%nat) (q xi1 xi2 1%nat) (q xi1 xi2 2%nat) dz1 dz2 v) xi1 xi2 0.
Proof. intros o R0 Omega dx a1 a2 xi1 xi2 case Hc HR Hd H1 H2 P. exact (steady_start o R0 Omega dx case HR Hd Hc a1 a2 xi1 xi2 H1 H2 (off_axis o R0 _ _ P)). Qed.
Print Assumptions C75_steady.

(** The point: at the centre of the panel 0 of a grid that is not rotated, in both cases, the hypotheses hold, and the wind is not 0 *)
Example C75_steady_example : let o := {| lon_p := 0; lat_p := 0; angle_p := 0 |} in let R0 : R := 6371220 in let dx := PI / 8 in
  regular (PI / 16 + dx / 2 * 0) /\ regular (PI / 16 + dx / 2 * 0) /\ vx (place o R0 (PI / 16) (PI / 16) dx dx 0 0) <> 0 /\
  exists h u1 u2 z, initial_sw o R0 (1 / 10000) dx 2 (tan (PI / 16 + dx / 2 * 0)) (tan (PI / 16 + dx / 2 * 0)) = Some (h, h * u1, h * u2, z) /\ u1 <> 0.
Proof. exact steady_case. Qed.

(** the forcing at a point is that of the model of rhs_sw.py *)
Theorem C75_forcing : forall k N ns pts R0 (q : Z -> nat -> nat -> nat -> nat -> R) Omega rot dz1 dz2 r v row col p,
  forcing k N ns pts R0 q Omega rot dz1 dz2 r v row col p =
  forcing_at (rot r) R0 Omega (dx k N) (X_pt k N ns pts r row col p) (Y_pt k N ns pts r row col p) (q r 0%nat row col p) (q r 1%nat row col p) (q r 2%nat row col p) (dz1 r row col p) (dz2 r row col p) v.
Proof. exact forcing_same. Qed.
Print Assumptions C75_forcing.

(** Case 1: the height that the output takes as exact is the initial bell carried by the initial wind: a particle that starts at (lon, lat) and moves with the wind has the same height at all times; after 12 days the bell is back *)
Theorem C75_transport : forall R0 time lon lat, R0 <> 0 -> cos lat <> 0 -> let (u, v) := solid_body_rotation R0 1 lat in
  v = 0 /\ height_case1 time (lon + u / (R0 * cos lat) * time) lat = height_case1 0 lon lat /\ height_case1 (12 * 86400) lon lat = height_case1 0 lon lat.
Proof. exact bell_transport. Qed.
Print Assumptions C75_transport.
(** the bell is 1000 at its centre and 0 on the other side of the earth *)
Example C75_transport_example : height_case1 0 (3 * PI / 2) 0 = 1000 /\ height_case1 0 (PI / 2) 0 = 0.
Proof. exact bell_values. Qed.

(** Case 5: the ground is a cone of height 2000 m on the circle of radius pi/9 around (3 pi / 2, pi / 6), flat outside of it; the surface of the fluid balances the initial wind *)
Theorem C75_mountain : forall R0 Omega lon lat, R0 <> 0 -> cos lat <> 0 ->
  let r2 := (lon - 3 * PI / 2) ^ 2 + (lat - PI / 6) ^ 2 in
  (0 <= hsurf_case5 lon lat <= 2000 /\ ((PI / 9) ^ 2 <= r2 -> hsurf_case5 lon lat = 0) /\ (r2 <= (PI / 9) ^ 2 -> hsurf_case5 lon lat = 2000 * (1 - sqrt r2 / (PI / 9)))) /\
  let (u, v) := solid_body_rotation R0 5 lat in v = 0 /\ u = 20 * cos lat /\
  exists d, is_derive (fun p : R => height_case5 R0 Omega lon p + hsurf_case5 lon p) lat d /\ gravity * (d / R0) = - (2 * Omega * sin lat + u * tan lat / R0) * u.
Proof. exact mountain_start. Qed.
Print Assumptions C75_mountain.
Example C75_mountain_example : hsurf_case5 (3 * PI / 2) (PI / 6) = 2000 /\ hsurf_case5 0 0 = 0.
Proof. exact mountain_values. Qed.

(** Case 6: the wind has no divergence and the height is in balance with it *)
Theorem C75_wave : forall R0 Omega, R0 <> 0 -> balanced_wind R0 Omega gravity (fun l p => fst (wind_case6 R0 l p)) (fun l p => snd (wind_case6 R0 l p)) (height_case6 R0 Omega).
Proof. exact wave_balanced. Qed.
Print Assumptions C75_wave.
Example C75_wave_example : 6371220 <> 0 /\ exists R0 l p, snd (wind_case6 R0 l p) <> 0 /\ cos p <> 0.
Proof. exact wave_values. Qed.

(** On the earth (cubed_sphere_2d.py 271-272) every one of the cases 2, 5, 6 and 10 starts with a positive depth everywhere *)
Theorem C75_depth : forall o dx X Y case, List.In case (2 :: 5 :: 6 :: 10 :: nil)%nat ->
  exists h u1 u2 z, initial_sw o 6371220 (729212 / 10000000000) dx case X Y = Some (h, h * u1, h * u2, z) /\ 0 < h /\ 0 <= z.
Proof. exact depth_positive. Qed.
Print Assumptions C75_depth.
