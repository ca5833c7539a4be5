(** The shallow water equations on all the tiles of the cubed sphere: rhs/rhs_sw.py with process_topology.py, geometry/cubed_sphere_2d.py and geometry/metric2d.py. One element of an array is one application of a function; ranks are those of TopologyModel. Numbers are exact reals. *)
From Coq Require Import Reals ZArith Arith List Bool.
From Verif Require Import TopologyModel GeoModel FluxModel.
Import ListNotations.
Local Open Scope R_scope.

Section Sphere.
(** k x k tiles per panel, N x N elements per tile, ns x ns points per element; the points of an element, the radius *)
Variables (k N ns : nat) (pts : nat -> R) (radius : R).
Definition size : Z := (6 * Z.of_nat k * Z.of_nat k)%Z.
Definition my_row (r : Z) : nat := Z.to_nat (t_row (build_topology size r)).
Definition my_col (r : Z) : nat := Z.to_nat (t_col (build_topology size r)).
(** cubed_sphere_2d.py 177-183, 317-325: X_block[0, :] and Y_block[:, 0], which are also boundary_sn and boundary_we *)
Definition line (c i : nat) : R := tan (x_solpt k c N (i / ns) (pts (i mod ns)%nat)).
Definition boundary_sn (r : Z) : list R := map (line (my_col r)) (seq 0 (N * ns)).
Definition boundary_we (r : Z) : list R := map (line (my_row r)) (seq 0 (N * ns)).
(** 186-192, 331-334 *)
Definition itf (c e : nat) : R := tan (x_itf k c N e).
Definition dx : R := delta_x k 0 N.
(** 505-560: _to_new_itf_i and _to_new_itf_j. Element e (those of the halo are 0 and N + 1), point p of its two sides; the outer sides of the halo hold zero *)
Definition outer (e p : nat) : bool := ((e =? 0) && (p <? ns) || (e =? N + 1) && (ns <=? p))%nat.
Definition across (c e p : nat) : R := if outer e p then 0 else itf c (if (p <? ns)%nat then e - 1 else e).
Definition along (c x e p : nat) : R := if outer e p then 0 else line c (x * ns + p mod ns).
(** X_itf_i, Y_itf_i at row, element, point; X_itf_j, Y_itf_j at column, element, point *)
Definition X_itf_i (r : Z) (row e p : nat) : R := across (my_col r) e p.
Definition Y_itf_i (r : Z) (row e p : nat) : R := along (my_row r) row e p.
Definition X_itf_j (r : Z) (col e p : nat) : R := along (my_col r) col e p.
Definition Y_itf_j (r : Z) (col e p : nat) : R := across (my_row r) e p.
(** metric2d.py 17-69, 130-157 *)
Definition sqrtG_itf_i r row : face := fun e p => sqrtG radius dx dx (X_itf_i r row e p) (Y_itf_i r row e p).
Definition sqrtG_itf_j r col : face := fun e p => sqrtG radius dx dx (X_itf_j r col e p) (Y_itf_j r col e p).
Definition H_itf_i r row e p : sym2 := H_contra radius dx dx (X_itf_i r row e p) (Y_itf_i r row e p).
Definition H_itf_j r col e p : sym2 := H_contra radius dx dx (X_itf_j r col e p) (Y_itf_j r col e p).

(** [ext_i], [ext_j]: values of h plus topography, hu1 and hu2 extrapolated to the sides of the elements of each tile (rhs_sw.py 81-88): rank, variable, row (column), element 1 .. N, point.
    [topo_i], [topo_j]: hsurf_itf_i, hsurf_itf_j; zero without topography *)
Variables (ext_i ext_j : Z -> nat -> nat -> face) (topo_i topo_j : Z -> nat -> face).
(** rhs_sw.py 101-117: the lines sent *)
Definition sent (i j : nat -> face) (d : side) : list R :=
  map (fun x => match d with
    | South => j (x / ns) 1 (x mod ns) | North => j (x / ns) N (ns + x mod ns)
    | West => i (x / ns) 1 (x mod ns) | East => i (x / ns) N (ns + x mod ns) end)%nat (seq 0 (N * ns)).
Definition sent_h (r : Z) (d : side) : list R := sent (ext_i r 0%nat) (ext_j r 0%nat) d.
Definition sent_u (r : Z) (d : side) : list (R * R * unit) :=
  map (fun '(a, b) => (a, b, tt)) (combine (sent (ext_i r 1%nat) (ext_j r 1%nat) d) (sent (ext_i r 2%nat) (ext_j r 2%nat) d)).
(** 139-157: what is received *)
Definition received {A} (o : option (list A)) : list A := match o with Some l => l | None => [] end.
Definition halo_h (r : Z) (d : side) : list R := received (exchange_scalars size flip_line sent_h r d).
Definition halo_u (r : Z) (d : side) : list (R * R * unit) := received (exchange_vectors size false boundary_sn boundary_we sent_u r d).
Definition halo (r : Z) (v : nat) (d : side) (x : nat) : R :=
  match v with
  | 0%nat => nth x (halo_h r d) 0
  | 1%nat => fst (fst (nth x (halo_u r d) (0, 0, tt)))
  | _ => snd (fst (nth x (halo_u r d) (0, 0, tt)))
  end.
(** stored in the inner sides of the elements of the halo; the outer sides stay zero *)
Definition with_halo (r : Z) (v : nat) (lo hi : side) (inside : nat -> face) (x e p : nat) : R :=
  if ((1 <=? e) && (e <=? N))%nat then inside x e p
  else if (e =? 0)%nat then (if (ns <=? p)%nat then halo r v lo (x * ns + (p - ns)) else 0)
  else (if (p <? ns)%nat then halo r v hi (x * ns + p) else 0).
(** 160-162 *)
Definition var_itf_i (r : Z) (v row : nat) : face := fun e p => with_halo r v West East (ext_i r v) row e p - (if (v =? 0)%nat then topo_i r row e p else 0).
Definition var_itf_j (r : Z) (v col : nat) : face := fun e p => with_halo r v South North (ext_j r v) col e p - (if (v =? 0)%nat then topo_j r col e p else 0).
(** 170-207 *)
Definition flux_i (r : Z) (v row : nat) : face :=
  sw_flux_x1_itf (N + 2) ns (fun c => var_itf_i r c row) (sqrtG_itf_i r row) (fun e p => s11 (H_itf_i r row e p)) (fun e p => s12 (H_itf_i r row e p)) v.
Definition flux_j (r : Z) (v col : nat) : face :=
  sw_flux_x2_itf (N + 2) ns (fun c => var_itf_j r c col) (sqrtG_itf_j r col) (fun e p => s12 (H_itf_j r col e p)) (fun e p => s22 (H_itf_j r col e p)) v.

(** ** At the solution points; row, column of the element, point *)
(** cubed_sphere_2d.py 177-183, 317-325 *)
Definition X_pt (r : Z) (row col p : nat) : R := line (my_col r) (col * ns + p mod ns).
Definition Y_pt (r : Z) (row col p : nat) : R := line (my_row r) (row * ns + p / ns).
Definition sqrtG_pt r row col p : R := sqrtG radius dx dx (X_pt r row col p) (Y_pt r row col p).
Definition H_pt r row col p : sym2 := H_contra radius dx dx (X_pt r row col p) (Y_pt r row col p).
(** rhs_sw.py 119-131 for the state q: rank, variable, row, column, point *)
Variable q : Z -> nat -> nat -> nat -> nat -> R.
Definition flux_x1 (r : Z) (v row col p : nat) : R := sw_flux_x1 (sqrtG_pt r row col p) (s11 (H_pt r row col p)) (s12 (H_pt r row col p)) (q r 0%nat row col p) (q r 1%nat row col p) (q r 2%nat row col p) v.
Definition flux_x2 (r : Z) (v row col p : nat) : R := sw_flux_x2 (sqrtG_pt r row col p) (s12 (H_pt r row col p)) (s22 (H_pt r row col p)) (q r 0%nat row col p) (q r 1%nat row col p) (q r 2%nat row col p) v.
(** 213-235; [dzdx1], [dzdx2]: the slopes of the topography, zero without it; [Omega]: rotation_speed, [rot]: lon_p, lat_p, angle_p of each tile *)
Variables (Omega : R) (rot : Z -> rotation) (dzdx1 dzdx2 : Z -> nat -> nat -> nat -> R).
Definition forcing (r : Z) (v row col p : nat) : R :=
  let X := X_pt r row col p in let Y := Y_pt r row col p in let H := H_pt r row col p in
  let h := q r 0%nat row col p in let hu1 := q r 1%nat row col p in let hu2 := q r 2%nat row col p in
  let u1 := hu1 / h in let u2 := hu2 / h in
  let G1 := christoffel_1 dx dx X Y in let G2 := christoffel_2 dx dx X Y in
  match v with
  | 0%nat => 0
  | 1%nat => 2 * (christoffel_1_01 (rot r) Omega X Y * hu1 + christoffel_1_02 (rot r) Omega X Y * hu2) + s11 G1 * hu1 * u1 + 2 * s12 G1 * hu1 * u2
             + gravity * h * (s11 H * dzdx1 r row col p + s12 H * dzdx2 r row col p)
  | _ => 2 * (christoffel_2_01 (rot r) Omega X Y * hu1 + christoffel_2_02 (rot r) Omega X Y * hu2) + 2 * s12 G2 * hu1 * u2 + s22 G2 * hu2 * u2
             + gravity * h * (s12 H * dzdx1 r row col p + s22 H * dzdx2 r row col p)
  end.
End Sphere.
