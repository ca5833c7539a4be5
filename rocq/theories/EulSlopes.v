(** The slopes of the layers, as they come from the heights: geometry/metric3d.py 76-127, 205-513, on all the tiles of the cubed sphere, with the exchange of EulModel and the operators of OpModel; and the rotation terms of the Christoffel symbols. *)
From Coq Require Import Reals ZArith.
From Verif Require Import TopologyModel GeoModel SwModel EulModel EulCutSpec.
From mathcomp Require Import all_ssreflect all_algebra.
From Verif Require Import RField OpModel FluxModel RhsModel SwRhs EulRhs.
Set Implicit Arguments.
Unset Strict Implicit.
Unset Printing Implicit Defensive.
Import GRing.Theory.
Local Open Scope ring_scope.

(** 80-83: coordVec_gnom[2] at the points, coordVec_gnom_itf_i[2], _j, _k at the interfaces (apply_topography of cubed_sphere_3d.py, any numbers here); indices as in EulModel *)
Record heights := { hz_pt : at_points; hz_i : at_itf; hz_j : at_itf; hz_k : at_itf }.

Section Sphere.
Variables (k N NZ ns : nat) (pts : seq R) (deta : R) (H : heights).
Notation m := (itf_size ns).
Notation ex := (extrap_x_3d ns (neg pts) (pos pts)).
Notation ey := (extrap_y_3d ns (neg pts) (pos pts)).
Notation ez := (extrap_z_3d ns (neg pts) (pos pts)).
(** 92-97: the two sides of element e (1 .. n; element e - 1 of the code) have the values at the boundaries e - 1 and e *)
Definition sides (f : nat -> nat -> R) : face := fun e p => if Nat.ltb p m then f (Nat.pred e) p else f e (Nat.sub p m).
(** 99-101: dRdx1, dRdx2 (c = 0, 1) and dRdeta at the points. comma_i, comma_j, comma_k (operators.py 264-318, 370-425, 480-535) apply diff_solpt and correction along one axis, which is what derivative_x, correction_WE and the others do on the other layout *)
Definition slope (c : nat) (r : Z) (l row col p : nat) : R :=
  match c with
  | 0%N => sphere_df1 ns pts (hz_pt H r) (fun l row => sides (hz_i H r l row)) l row col p * (2 : R) / dx k N
  | 1%N => sphere_df2 ns pts (hz_pt H r) (fun l col => sides (hz_j H r l col)) l row col p * (2 : R) / dx k N
  | _ => sphere_df3 ns pts (hz_pt H r) (fun row col => sides (hz_k H r row col)) l row col p * (2 : R) / deta
  end.
(** 268-281: extrapolate_i, extrapolate_j, extrapolate_k, the same operators as extrap_x, extrap_y, extrap_z on the other layout *)
Definition slope_ex_i (c : nat) (r : Z) (l row : nat) : face := fun e => apply_op (ns ^ 3) (slope c r l row e.-1) ex.
Definition slope_ex_j (c : nat) (r : Z) (l col : nat) : face := fun e => apply_op (ns ^ 3) (slope c r l e.-1 col) ey.
Definition slope_ex_k (c : nat) (r : Z) (row col : nat) : face := fun e => apply_op (ns ^ 3) (slope c r e.-1 row col) ez.
(** 303-304, 324-368: exch_itf_i[v - 1], exch_itf_j[v - 1]; the first two components are converted with the metric of the interface beside (217-226: itf_contra of GeoModel), the third is dRdeta *)
Definition beside (e p : nat) : nat := if Nat.ltb p m then Nat.pred e else e.
Definition exch_i (r : Z) (v l row : nat) : face := fun e p =>
  let h := itf_contra (X_i k N r (beside e p) p) (Y_i k N ns (point pts) r row (if Nat.ltb p m then p else Nat.sub p m)) in
  match v with
  | 1%N => s11 h * slope_ex_i 0 r l row e p + s12 h * slope_ex_i 1 r l row e p
  | 2%N => s12 h * slope_ex_i 0 r l row e p + s22 h * slope_ex_i 1 r l row e p
  | _ => slope_ex_i 2 r l row e p
  end.
Definition exch_j (r : Z) (v l col : nat) : face := fun e p =>
  let h := itf_contra (X_j k N ns (point pts) r col (if Nat.ltb p m then p else Nat.sub p m)) (Y_j k N r (beside e p) p) in
  match v with
  | 1%N => s11 h * slope_ex_j 0 r l col e p + s12 h * slope_ex_j 1 r l col e p
  | 2%N => s12 h * slope_ex_j 0 r l col e p + s22 h * slope_ex_j 1 r l col e p
  | _ => slope_ex_j 2 r l col e p
  end.
(** 402-430: start_exchange_vectors on lines of N * ns points, flip_dim = -1, with boundary_sn and boundary_we (cubed_sphere_3d.py 560-561), whose entry x * ns + y is that of boundary_new *)
Definition halo_lines (r : Z) (d : side) : slab (R * R * R) := received_slab (R0, R0, R0) (neighbor_alltoall (dest_of (SwModel.size k))
  (fun r s => flip_if (t_flip (build_topology (SwModel.size k) r) s) (flip_lines N ns) (convert_slab (t_contra (build_topology (SwModel.size k) r) s) (boundary_new k N ns (point pts) r s)
     (sent_slab N ns (exch_i r 1%N) (exch_j r 1%N) s) (sent_slab N ns (exch_i r 2%N) (exch_j r 2%N) s) (sent_slab N ns (exch_i r 3%N) (exch_j r 3%N) s))) r d).
Definition halo_slope (r : Z) (v : nat) (d : side) : slab R := fun l x z y =>
  let c := halo_lines r d l x z y in match v with 1%N => c.1.1 | 2%N => c.1.2 | _ => c.2 end.
Definition full_slope_i (r : Z) (v : nat) : nat -> nat -> face := fill_halo N ns R0 (halo_slope r v West) (halo_slope r v East) (exch_i r v).
Definition full_slope_j (r : Z) (v : nat) : nat -> nat -> face := fill_halo N ns R0 (halo_slope r v South) (halo_slope r v North) (exch_j r v).
(** 475-501: average of the two sides, back to covariant components (itf_cov of GeoModel); dRdeta is in EulModel *)
Definition half_i (r : Z) (v l row b p : nat) : R := (1 : R) / (2 : R) * full_slope_i r v l row b (Nat.add m p) + (1 : R) / (2 : R) * full_slope_i r v l row b.+1 p.
Definition half_j (r : Z) (v l col b p : nat) : R := (1 : R) / (2 : R) * full_slope_j r v l col b (Nat.add m p) + (1 : R) / (2 : R) * full_slope_j r v l col b.+1 p.
Definition slope_itf_i (c : nat) : at_itf := fun r l row b p =>
  let g := itf_cov (X_i k N r b p) (Y_i k N ns (point pts) r row p) in
  match c with 0%N => s11 g * half_i r 1 l row b p + s12 g * half_i r 2 l row b p | _ => s12 g * half_i r 1 l row b p + s22 g * half_i r 2 l row b p end.
Definition slope_itf_j (c : nat) : at_itf := fun r l col b p =>
  let g := itf_cov (X_j k N ns (point pts) r col p) (Y_j k N r b p) in
  match c with 0%N => s11 g * half_j r 1 l col b p + s12 g * half_j r 2 l col b p | _ => s12 g * half_j r 1 l col b p + s22 g * half_j r 2 l col b p end.
(** 503-513 *)
Definition slope_itf_k (c : nat) : at_itf := dRdeta_itf_k NZ ns (slope_ex_k c).
Definition layers_of : layers := {| z_pt := hz_pt H; z_i := hz_i H; z_j := hz_j H; z_k := hz_k H; s1_pt := slope 0; s2_pt := slope 1;
  s1_i := slope_itf_i 0; s2_i := slope_itf_i 1; s1_j := slope_itf_j 0; s2_j := slope_itf_j 1; s1_k := slope_itf_k 0; s2_k := slope_itf_k 1; dRdeta_pt := slope 2 |}.
End Sphere.

(** metric3d.py 669-808, 835-884, 1112-1141: metric.christoffel[a, 0 .. 2], the symbols with a lower index 0, at the points. [rot]: lon_p, lat_p, angle_p of each tile *)
Definition rotation_symbols (k N NZ ns : nat) (pts : seq R) (earth_radius deta Omega : R) (deep : bool) (rot : Z -> rotation) (geo : layers) (christoffel : Z -> nat -> nat -> nat -> nat -> nat -> nat -> R) : Prop :=
  forall r l row col p, is_rank k r -> (l < NZ)%coq_nat -> (row < N)%coq_nat -> (col < N)%coq_nat -> (p < Nat.pow ns 3)%coq_nat -> forall a b, (a < 3)%coq_nat -> (b < 3)%coq_nat ->
  christoffel r l row col p a b = christoffel3_0 (rot r) Omega (dx k N) (dx k N) deta (radius0 earth_radius deep (z_pt geo r l row col p)) (X_pt3 k N ns (point pts) r col p) (Y_pt3 k N ns (point pts) r row p)
    (s1_pt geo r l row col p) (s2_pt geo r l row col p) (dRdeta_pt geo r l row col p) a.+1 b.+1.
