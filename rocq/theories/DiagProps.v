(** C48: the vorticity that is written out. C63: the energy that is written out. *)
From Coq Require Import Reals Lra.
From Coquelicot Require Import Coquelicot.
From mathcomp Require Import all_ssreflect all_algebra.
From Verif Require Import GeoModel GeoSpec GeoFinal FluxModel OpModel DiagModel DiagSpec DiagProofs DiagEnergy.
Import GRing.Theory.
Delimit Scope R_scope with re.
Local Open Scope ring_scope.

(** ** C48 *)
(** The components are exchanged: whatever the points, at every point off the middle of the element some wind (with the identity metric, and vanishing on the sides of the element) has a vorticity d u_2/dx1 - d u_1/dx2 other than the number returned. P1 and P2 are the covariant components as functions of the position *)
Theorem C48_refuted : forall (F : fieldType) (pts : seq F) i j, uniq (extension pts) -> (i < size pts)%N -> (j < size pts)%N -> pts`_i + pts`_i != 0 ->
  exists (P1 P2 : {poly {poly F}}) u1 u2, [/\ degree_below (size pts).+2 P1, degree_below (size pts).+2 P2,
    forall a b, (a < size pts)%N -> (b < size pts)%N -> u1 (b * size pts + a)%N = value P1 pts`_a pts`_b /\ u2 (b * size pts + a)%N = value P2 pts`_a pts`_b &
    relative_vorticity pts (fun _ => 1) (fun _ => 0) (fun _ => 0) (fun _ => 1) (fun _ => 1) u1 u2 (j * size pts + i)%N <> value (partial1 P2) pts`_i pts`_j - value (partial2 P1) pts`_i pts`_j].
Proof. exact (fun F pts i j U => @vorticity_wrong F pts U i j). Qed.
Print Assumptions C48_refuted.
(** And the derivative lacks the values on the sides: a constant wind has the vorticity 4/3 *)
Theorem C48_sides_refuted : forall F : fieldType, (2%:R : F) != 0 -> (3%:R : F) != 0 ->
  relative_vorticity [:: - (2%:R)^-1; (2%:R)^-1 : F] (fun _ => 1) (fun _ => 0) (fun _ => 0) (fun _ => 1) (fun _ => 1) (fun _ => 1) (fun _ => 0) 0 = 4%:R / 3%:R.
Proof. exact vorticity_of_constant. Qed.
Print Assumptions C48_sides_refuted.
(** What is returned for winds that vanish on the sides; when both covariant components are the same this is the vorticity *)
Theorem C48_partial : forall (F : fieldType) (pts : seq F), uniq (extension pts) -> let ns := size pts in
  forall g11 g12 g21 g22 isg u1 u2 P1 P2 i j, (i < ns)%N -> (j < ns)%N -> degree_below ns.+2 P1 -> degree_below ns.+2 P2 ->
  (forall a b, (a < ns)%N -> (b < ns)%N -> let p := (b * ns + a)%N in g11 p * u1 p + g12 p * u2 p = value P1 pts`_a pts`_b /\ g21 p * u1 p + g22 p * u2 p = value P2 pts`_a pts`_b) ->
  (forall b, (b < ns)%N -> value P1 (-1) pts`_b = 0 /\ value P1 1 pts`_b = 0) -> (forall a, (a < ns)%N -> value P2 pts`_a (-1) = 0 /\ value P2 pts`_a 1 = 0) ->
  let p := (j * ns + i)%N in relative_vorticity pts g11 g12 g21 g22 isg u1 u2 p = isg p * (value (partial1 P1) pts`_i pts`_j - value (partial2 P2) pts`_i pts`_j).
Proof. exact vorticity_value. Qed.
Print Assumptions C48_partial.
(** the points 0 and 1/2, and the wind of C48_refuted *)
Example C48_ex : uniq (extension [:: 0; 2%:R^-1 : rat]) /\ [:: 0; 2%:R^-1 : rat]`_1 + [:: 0; 2%:R^-1 : rat]`_1 != 0 /\
  degree_below 4 (hump [fieldType of rat]) /\ (forall y, value (hump [fieldType of rat]) (-1) y = 0 /\ value (hump [fieldType of rat]) 1 y = 0).
Proof. split; [by []|split; [by []|split; [exact: (@hump_below _ [:: 0; 1] isT)|]]]. move=> y. by rewrite !hump_at sqrrN expr1n subrr. Qed.

(** ** C63 *)
(** Potential vorticity and enstrophy follow from the same vorticity *)
Theorem C63_enstrophy : forall (F : fieldType) (pts : seq F) g11 g12 g21 g22 isg u1 u2 h f p, h p != 0 ->
  let pv := potential_vorticity pts g11 g12 g21 g22 isg u1 u2 h f p in
  pv * h p = absolute_vorticity pts g11 g12 g21 g22 isg u1 u2 f p /\ ((2%:R : F) != 0 -> potential_enstrophy pts g11 g12 g21 g22 isg u1 u2 h f p = h p * pv ^+ 2 / 2%:R).
Proof. exact enstrophy. Qed.
Print Assumptions C63_enstrophy.
Example C63_ex : (fun _ : nat => 5%:R : rat) 7%N != 0. Proof. by []. Qed.

Local Open Scope re.
(** The energy of a column: half its depth times the square of the wind speed, and g times the integral of the height from the ground to the surface *)
Theorem C63_energy : forall o r X Y lon lat rr dx1 dx2 u v h topo b pot, 0 < r -> dx1 <> 0 -> dx2 <> 0 ->
  cart2sph (vx (to_cartesian o r X Y)) (vy (to_cartesian o r X Y)) (vz (to_cartesian o r X Y)) = (lon, lat, rr) -> cos lat <> 0 ->
  b = match topo with Some b => b | None => 0 end -> is_RInt (fun z => gravity * z) b (b + h) pot ->
  let (u1, u2) := wind2contra_2d o r (cos lat) dx1 dx2 X Y u v in total_energy h u1 u2 topo (H_cov r dx1 dx2 X Y) = h * (Rpow_def.pow u 2 + Rpow_def.pow v 2) / 2 + pot.
Proof. exact energy_wind. Qed.
Print Assumptions C63_energy.
Theorem C63_positive : forall r dx1 dx2 X Y h u1 u2 topo, r <> 0 -> dx1 <> 0 -> dx2 <> 0 -> 0 <= h -> match topo with Some b => 0 <= b | None => True end ->
  0 <= total_energy h u1 u2 topo (H_cov r dx1 dx2 X Y) /\ (total_energy h u1 u2 topo (H_cov r dx1 dx2 X Y) = 0 -> h = 0).
Proof. exact energy_positive. Qed.
Print Assumptions C63_positive.
Example C63_case : let o := {| lon_p := 0; lat_p := 0; angle_p := 0 |} in forall dx1 dx2 u v, dx1 <> 0 -> dx2 <> 0 ->
  let (u1, u2) := wind2contra_2d o 2 (cos 0) dx1 dx2 0 0 u v in total_energy 3 u1 u2 (Some 1) (H_cov 2 dx1 dx2 0 0) = 3 * (Rpow_def.pow u 2 + Rpow_def.pow v 2) / 2 + / 2 * gravity * (Rpow_def.pow (3 + 1) 2 - Rpow_def.pow 1 2).
Proof. intros o dx1 dx2 u v H1 H2. exact (C63_energy o 2 0 0 0 0 2 dx1 dx2 u v 3 (Some 1) 1 _ Rlt_0_2 H1 H2 (proj1 ex_place) (proj2 ex_place) Logic.eq_refl (column_energy 3 1)). Qed.
