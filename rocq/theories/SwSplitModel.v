(** The two parts of the shallow water equations for partitioned integrators: rhs/rhs_sw_stiff.py and rhs/rhs_sw_nonstiff.py, on all the tiles. Arrays have the older layout: variable, line of points, column of points. Numbers are exact reals. *)
From Coq Require Import Reals ZArith List.
From Verif Require Import TopologyModel GeoModel FluxModel SwModel.
From mathcomp Require Import all_ssreflect all_algebra.
From Verif Require Import RField OpModel RhsModel.
Set Implicit Arguments.
Unset Strict Implicit.
Unset Printing Implicit Defensive.
Import GRing.Theory.
Delimit Scope R_scope with re.
Local Open Scope ring_scope.

(** ** the numbers at an interface, from the values on its left and on its right *)
(** rhs_sw_stiff.py 125, 143: aL, aR *)
Definition wave (h H : R) : R := sqrt (gravity * h * H)%re.
(** 126, 144: mL, mR *)
Definition mach_at (h hu a : R) : R := (hu / (h * a))%re.
(** 146 *)
Definition mean_mach (mL mR : R) : R := (1 / 4 * ((mL + 1) ^ 2 - (mR - 1) ^ 2))%re.
(** 150-153; rhs_sw_nonstiff.py 121-124 *)
Definition advected (G M aL aR qL qR : R) : R := (G * (Rmax 0 M * aL * qL + Rmin 0 M * aR * qR))%re.
(** 111-124, 129-142: p11, p21 (p12, p22 in 167-180, 185-198) *)
Definition pressure_at (G H h : R) : R := (G * (1 / 2) * gravity * H * h ^ 2)%re.
(** 157-158 *)
Definition pushed (mL mR pL pR : R) : R := (1 / 2 * ((1 + mL) * pL + (1 - mR) * pR))%re.

(** initialize.py 48-54 in the older layout: rank, line, column; at the sides rank, element with the halo, side (0 low, 1 high), point along the side *)
Record topo_block := { b_hsurf : Z -> nat -> nat -> R; b_itf_i : Z -> nat -> nat -> nat -> R; b_itf_j : Z -> nat -> nat -> nat -> R; b_dzdx1 : Z -> nat -> nat -> R; b_dzdx2 : Z -> nat -> nat -> R }.
Definition no_topo_block : topo_block := {| b_hsurf := fun _ _ _ => R0; b_itf_i := fun _ _ _ _ => R0; b_itf_j := fun _ _ _ _ => R0; b_dzdx1 := fun _ _ _ => R0; b_dzdx2 := fun _ _ _ => R0 |}.

Section Split.
Variables (k N ns : nat) (pts : seq R) (radius Omega : R) (rot : Z -> rotation).
Variable topo : option topo_block.
(** rank, variable (h, hu1, hu2), line, column *)
Variable Q : Z -> nat -> nat -> nat -> R.
Definition b_ground : topo_block := if topo is Some t then t else no_topo_block.
Definition b_point (i : nat) : R := nth R0 pts i.
Definition b_line := line k N ns b_point.
Definition b_dx := dx k N.
(** 28: HH, and Q[1:] *)
Definition HH (r : Z) (v y x : nat) : R := if v == 0%N then Q r v y x + b_hsurf b_ground r y x else Q r v y x.
(** extrap_west, extrap_south (side 0), extrap_east, extrap_north (side 1) *)
Definition weights (s : nat) : nat -> R := if s == 0%N then neg pts else pos pts.
(** 33-50; element 1, ..., N *)
Definition b_ext_i (r : Z) (v y e s : nat) : R := \sum_(l < ns) HH r v y (e.-1 * ns + l)%N * weights s l.
Definition b_ext_j (r : Z) (v x e s : nat) : R := \sum_(l < ns) HH r v (e.-1 * ns + l)%N x * weights s l.
(** 53-63: the lines sent. geom.X[0, :] and geom.Y[:, 0] are boundary_sn and boundary_we. The call of start_exchange_scalars is completed with the argument boundary_shape that it lacks *)
Definition b_sent (r : Z) (v : nat) (d : side) : list R :=
  List.map (fun x => match d with South => b_ext_j r v x 1 0 | North => b_ext_j r v x N 1 | West => b_ext_i r v x 1 0 | East => b_ext_i r v x N 1 end) (List.seq 0 (N * ns)).
Definition b_sent_u (r : Z) (d : side) : list (R * R * unit) := List.map (fun '(a, b) => (a, b, tt)) (List.combine (b_sent r 1 d) (b_sent r 2 d)).
Definition b_halo_h (r : Z) (d : side) : list R := received (exchange_scalars (SwModel.size k) flip_line (fun r d => b_sent r 0 d) r d).
Definition b_halo_u (r : Z) (d : side) : list (R * R * unit) := received (exchange_vectors (SwModel.size k) false (boundary_sn k N ns b_point) (boundary_we k N ns b_point) b_sent_u r d).
Definition b_halo (r : Z) (v : nat) (d : side) (x : nat) : R :=
  match v with
  | 0%nat => List.nth x (b_halo_h r d) R0
  | 1%nat => fst (fst (List.nth x (b_halo_u r d) (R0, R0, tt)))
  | _ => snd (fst (List.nth x (b_halo_u r d) (R0, R0, tt)))
  end.
(** 87-98 *)
Definition b_var_i (r : Z) (v e s y : nat) : R :=
  (if ((1 <= e) && (e <= N))%N then b_ext_i r v y e s else if e == 0%N then (if s == 1%N then b_halo r v West y else 0) else (if s == 0%N then b_halo r v East y else 0))
  - (if v == 0%N then b_itf_i b_ground r e s y else 0).
Definition b_var_j (r : Z) (v e s x : nat) : R :=
  (if ((1 <= e) && (e <= N))%N then b_ext_j r v x e s else if e == 0%N then (if s == 1%N then b_halo r v South x else 0) else (if s == 0%N then b_halo r v North x else 0))
  - (if v == 0%N then b_itf_j b_ground r e s x else 0).
(** the metric at interface i of the line y, at interface i of the column x, and at the points *)
Definition b_G_i (r : Z) (i y : nat) : R := sqrtG radius b_dx b_dx (itf k N (my_col k r) i) (b_line (my_row k r) y).
Definition b_H_i (r : Z) (i y : nat) : sym2 := H_contra radius b_dx b_dx (itf k N (my_col k r) i) (b_line (my_row k r) y).
Definition b_G_j (r : Z) (i x : nat) : R := sqrtG radius b_dx b_dx (b_line (my_col k r) x) (itf k N (my_row k r) i).
Definition b_H_j (r : Z) (i x : nat) : sym2 := H_contra radius b_dx b_dx (b_line (my_col k r) x) (itf k N (my_row k r) i).
Definition b_G (r : Z) (y x : nat) : R := sqrtG radius b_dx b_dx (b_line (my_col k r) x) (b_line (my_row k r) y).
Definition b_H (r : Z) (y x : nat) : sym2 := H_contra radius b_dx b_dx (b_line (my_col k r) x) (b_line (my_row k r) y).
(** 101-158: the two states of interface i, elements i and i + 1. n: the momentum across it; Hn: the metric of that direction *)
Section Interface.
Variables (var : nat -> nat -> nat -> R) (n i : nat) (G Hn : R).
Definition aL : R := wave (var 0%N i 1%N) Hn.
Definition aR : R := wave (var 0%N i.+1 0%N) Hn.
Definition mL : R := mach_at (var 0%N i 1%N) (var n i 1%N) aL.
Definition mR : R := mach_at (var 0%N i.+1 0%N) (var n i.+1 0%N) aR.
Definition adv (v : nat) : R := advected G (mean_mach mL mR) aL aR (var v i 1%N) (var v i.+1 0%N).
Definition push (H : R) : R := pushed mL mR (pressure_at G H (var 0%N i 1%N)) (pressure_at G H (var 0%N i.+1 0%N)).
(** 148-160, 204-216. H1, H2: the metric in the pressure of hu1 and of hu2 *)
Definition stiff_itf (H1 H2 : R) (v : nat) : R := match v with 0%nat => adv 0 | 1%nat => push H1 | _ => push H2 end.
(** rhs_sw_nonstiff.py 119-126, 142-151; row 0 keeps the zeros of 14-20 *)
Definition nonstiff_itf (v : nat) : R := match v with 0%nat => 0 | _ => adv v end.
End Interface.
Definition stiff_i (r : Z) (v i y : nat) : R := stiff_itf (fun v e s => b_var_i r v e s y) 1 i (b_G_i r i y) (s11 (b_H_i r i y)) (s11 (b_H_i r i y)) (s12 (b_H_i r i y)) v.
Definition stiff_j (r : Z) (v i x : nat) : R := stiff_itf (fun v e s => b_var_j r v e s x) 2 i (b_G_j r i x) (s22 (b_H_j r i x)) (s12 (b_H_j r i x)) (s22 (b_H_j r i x)) v.
Definition nonstiff_i (r : Z) (v i y : nat) : R := nonstiff_itf (fun v e s => b_var_i r v e s y) 1 i (b_G_i r i y) (s11 (b_H_i r i y)) v.
Definition nonstiff_j (r : Z) (v i x : nat) : R := nonstiff_itf (fun v e s => b_var_j r v e s x) 2 i (b_G_j r i x) (s22 (b_H_j r i x)) v.
(** rhs_sw_stiff.py 66-74 *)
Definition stiff_x1 (r : Z) (v y x : nat) : R :=
  (let G := b_G r y x in let h2 := (Q r 0%N y x ^ 2)%re in match v with 0%nat => G * Q r 1%N y x | 1%nat => G * (1 / 2 * gravity * s11 (b_H r y x) * h2) | _ => G * (1 / 2 * gravity * s12 (b_H r y x) * h2) end)%re.
Definition stiff_x2 (r : Z) (v y x : nat) : R :=
  (let G := b_G r y x in let h2 := (Q r 0%N y x ^ 2)%re in match v with 0%nat => G * Q r 2%N y x | 1%nat => G * (1 / 2 * gravity * s12 (b_H r y x) * h2) | _ => G * (1 / 2 * gravity * s22 (b_H r y x) * h2) end)%re.
(** rhs_sw_nonstiff.py 29-30, 66-73 *)
Definition nonstiff_x1 (r : Z) (v y x : nat) : R :=
  (let u1 := Q r 1%N y x / Q r 0%N y x in match v with 0%nat => 0 | 1%nat => b_G r y x * (Q r 1%N y x * u1) | _ => b_G r y x * (Q r 2%N y x * u1) end)%re.
Definition nonstiff_x2 (r : Z) (v y x : nat) : R :=
  (let u2 := Q r 2%N y x / Q r 0%N y x in match v with 0%nat => 0 | 1%nat => b_G r y x * (Q r 1%N y x * u2) | _ => b_G r y x * (Q r 2%N y x * u2) end)%re.
(** rhs_sw_stiff.py 77-84, 219-228; rhs_sw_nonstiff.py 76-83, 154-163. The faces of element e are the interfaces e and e + 1 (stiff 160, 216). In rhs_sw_nonstiff.py the correction is left out for h, whose fluxes at the faces are zero *)
Definition along_x1 (flux : nat -> nat -> R) (itf_flux : nat -> nat -> R) (y x : nat) : R :=
  let e := (x %/ ns)%N in let i := (x %% ns)%N in \sum_(l < ns) flux y (e * ns + l)%N * D pts i l + (itf_flux e y * cneg pts i + itf_flux e.+1 y * cpos pts i).
Definition along_x2 (flux : nat -> nat -> R) (itf_flux : nat -> nat -> R) (y x : nat) : R :=
  let e := (y %/ ns)%N in let j := (y %% ns)%N in \sum_(l < ns) flux (e * ns + l)%N x * D pts j l + (itf_flux e x * cneg pts j + itf_flux e.+1 x * cpos pts j).
(** rhs_sw_stiff.py 29-30, 232-238 *)
Definition stiff_forcing (r : Z) (v y x : nat) : R :=
  (let X := b_line (my_col k r) x in let Y := b_line (my_row k r) y in
   let h := Q r 0%N y x in let hu1 := Q r 1%N y x in let hu2 := Q r 2%N y x in let u1 := hu1 / h in let u2 := hu2 / h in
   let G1 := christoffel_1 b_dx b_dx X Y in let G2 := christoffel_2 b_dx b_dx X Y in
   match v with 0%nat => 0 | 1%nat => s11 G1 * hu1 * u1 + 2 * s12 G1 * hu1 * u2 | _ => 2 * s12 G2 * hu1 * u2 + s22 G2 * hu2 * u2 end)%re.
(** rhs_sw_nonstiff.py 165-180 *)
Definition nonstiff_forcing (r : Z) (v y x : nat) : R :=
  (let X := b_line (my_col k r) x in let Y := b_line (my_row k r) y in let H := b_H r y x in
   let h := Q r 0%N y x in let hu1 := Q r 1%N y x in let hu2 := Q r 2%N y x in
   match v with
   | 0%nat => 0
   | 1%nat => 2 * (christoffel_1_01 (rot r) Omega X Y * hu1 + christoffel_1_02 (rot r) Omega X Y * hu2) + gravity * h * (s11 H * b_dzdx1 b_ground r y x + s12 H * b_dzdx2 b_ground r y x)
   | _ => 2 * (christoffel_2_01 (rot r) Omega X Y * hu1 + christoffel_2_02 (rot r) Omega X Y * hu2) + gravity * h * (s12 H * b_dzdx1 b_ground r y x + s22 H * b_dzdx2 b_ground r y x)
   end)%re.
(** rhs_sw_stiff.py 241, rhs_sw_nonstiff.py 183 *)
Definition sw_stiff (r : Z) (v y x : nat) : R :=
  (b_G r y x)^-1 * - (along_x1 (stiff_x1 r v) (stiff_i r v) y x + along_x2 (stiff_x2 r v) (stiff_j r v) y x) - stiff_forcing r v y x.
Definition sw_nonstiff (r : Z) (v y x : nat) : R :=
  (b_G r y x)^-1 * - (along_x1 (nonstiff_x1 r v) (nonstiff_i r v) y x + along_x2 (nonstiff_x2 r v) (nonstiff_j r v) y x) - nonstiff_forcing r v y x.
End Split.
