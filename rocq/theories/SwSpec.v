(** The grid of the whole sphere and a surface that is the same seen from every tile. *)
From Coq Require Import Reals ZArith Arith.
From Verif Require Import TopologyModel TopologySpec FluxModel.
Local Open Scope R_scope.

(** k x k tiles per panel, each with N x N elements of ns x ns points at the places [pts] of -1 .. 1: the lines between tiles and the points, by equal angles *)
Definition sphere_grid (k N ns : nat) (pts : nat -> R) : grid_coords :=
  let angle x := tan (- PI / 4 + PI / 2 * x) in
  {| edge := fun c => angle (IZR c / INR k);
     pt := fun c i => angle ((IZR c + (INR (i / ns) + (1 + pts (i mod ns)%nat) / 2) / INR N) / INR k) |}.
(** the surface given at the faces (rank, row or column, element 1 .. N of the tile or 0 and N + 1 of the halo, point) is a function of the place: on the sides of a tile, the copy of the last element of the tile and that of the halo agree with it *)
Definition one_surface (k N ns : nat) (pts : nat -> R) (topo_i topo_j : Z -> nat -> face) : Prop :=
  exists B : R * R * R -> R, forall t x, tile_ok (Z.of_nat k) t -> (x < N * ns)%nat ->
    let r := rank_of_tile (Z.of_nat k) t in let place d := boundary_point (sphere_grid k N ns pts) t d x in
    let s := (x / ns)%nat in let p := (x mod ns)%nat in
    (topo_i r s 0 (ns + p) = B (place West) /\ topo_i r s 1 p = B (place West) /\
     topo_i r s N (ns + p) = B (place East) /\ topo_i r s (N + 1) p = B (place East) /\
     topo_j r s 0 (ns + p) = B (place South) /\ topo_j r s 1 p = B (place South) /\
     topo_j r s N (ns + p) = B (place North) /\ topo_j r s (N + 1) p = B (place North))%nat.
(** source of momentum in curvilinear coordinates, component a: Coriolis (the symbols G0), curvature (the symbols G of the metric, acting on momentum flux and pressure), slope of the ground *)
Definition sum2 (f : nat -> R) : R := f 0%nat + f 1%nat.
Definition covariant_source (g h : R) (hu slope : nat -> R) (H : nat -> nat -> R) (G0 : nat -> R) (G : nat -> nat -> R) (a : nat) : R :=
  2 * sum2 (fun j => G0 j * hu j) + sum2 (fun i => sum2 (fun j => G i j * (hu i * (hu j / h) + H i j * (g * h ^ 2 / 2)))) + g * h * sum2 (fun j => H a j * slope j).

(** ** One field on a panel, cut into k x k tiles of N x N elements *)
(** a field of whole panels (panel, row and column of the element in the panel, point) as the tiles hold it *)
Definition cut (k N : nat) (F : Z -> nat -> nat -> nat -> R) : Z -> nat -> nat -> nat -> R :=
  fun r row_ col_ p => let t := tile_of_rank (Z.of_nat k) r in F (panel t) (Z.to_nat (row t) * N + row_)%nat (Z.to_nat (col t) * N + col_)%nat p.
(** the same for values at the sides: along a row of elements, and along a column *)
Definition cut_i (k N : nat) (F : Z -> nat -> nat -> nat -> R) : Z -> nat -> nat -> nat -> R := cut k N F.
Definition cut_j (k N : nat) (F : Z -> nat -> nat -> nat -> R) : Z -> nat -> nat -> nat -> R :=
  fun r col_ e p => let t := tile_of_rank (Z.of_nat k) r in F (panel t) (Z.to_nat (col t) * N + col_)%nat (Z.to_nat (row t) * N + e)%nat p.
