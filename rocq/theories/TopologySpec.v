(** Specification of the cubed-sphere topology: written from the geometry of a cube, without the tables of the code. *)
From Coq Require Import ZArith List Reals.
From Verif Require Import TopologyModel.
Import ListNotations.
Open Scope Z_scope.

(** A process count is acceptable when it is six times a non-zero square. *)
Definition acceptable (size : Z) : Prop := exists k, 1 <= k /\ size = 6 * k * k.

(** A tile: panel, row and column, on a cube whose panels are cut in k x k tiles. *)
Record tile := Tile { panel : Z; row : Z; col : Z }.
Definition tile_ok (k : Z) (t : tile) : Prop := 0 <= panel t < 6 /\ 0 <= row t < k /\ 0 <= col t < k.

(** Tiles are numbered panel by panel, row by row (documented at process_topology.py:21-47). *)
Definition rank_of_tile (k : Z) (t : tile) : Z := panel t * (k * k) + row t * k + col t.

(** The cube surface, one chart per panel, x1 eastward and x2 northward (the picture at process_topology.py:96-104):
    panels 0,1,2,3 go around the equator, 4 is the top, 5 the bottom.  The cube has half-side [s]. *)
Definition cube_point (s : R) (p : Z) (X Y : R) : R * R * R :=
  (match p with
   | 0 => (s, X, Y)
   | 1 => (- X, s, Y)
   | 2 => (- s, - X, Y)
   | 3 => (X, - s, Y)
   | 4 => (- Y, X, s)
   | _ => (Y, X, - s)
   end)%R.

(** The same charts on integer points. *)
Definition cube_pointZ (s : Z) (p : Z) (X Y : Z) : Z * Z * Z :=
  match p with
  | 0 => (s, X, Y)
  | 1 => (- X, s, Y)
  | 2 => (- s, - X, Y)
  | 3 => (X, - s, Y)
  | 4 => (- Y, X, s)
  | _ => (Y, X, - s)
  end.

(** Centre of side [d] of a tile, on a cube of half-side k on which a tile has side 2. *)
Definition side_centre (k : Z) (t : tile) (d : side) : Z * Z * Z :=
  let lo c := 2 * c - k in
  let mid c := 2 * c + 1 - k in
  let hi c := 2 * c + 2 - k in
  match d with
  | South => cube_pointZ k (panel t) (mid (col t)) (lo (row t))
  | North => cube_pointZ k (panel t) (mid (col t)) (hi (row t))
  | West => cube_pointZ k (panel t) (lo (col t)) (mid (row t))
  | East => cube_pointZ k (panel t) (hi (col t)) (mid (row t))
  end.

(** Start (lowest coordinate) and end of side [d] of a tile, in the tile's own direction along the side. *)
Definition side_start (k : Z) (t : tile) (d : side) : Z * Z * Z :=
  let lo c := 2 * c - k in
  let hi c := 2 * c + 2 - k in
  match d with
  | South => cube_pointZ k (panel t) (lo (col t)) (lo (row t))
  | North => cube_pointZ k (panel t) (lo (col t)) (hi (row t))
  | West => cube_pointZ k (panel t) (lo (col t)) (lo (row t))
  | East => cube_pointZ k (panel t) (hi (col t)) (lo (row t))
  end.
Definition side_end (k : Z) (t : tile) (d : side) : Z * Z * Z :=
  let lo c := 2 * c - k in
  let hi c := 2 * c + 2 - k in
  match d with
  | South => cube_pointZ k (panel t) (hi (col t)) (lo (row t))
  | North => cube_pointZ k (panel t) (hi (col t)) (hi (row t))
  | West => cube_pointZ k (panel t) (lo (col t)) (hi (row t))
  | East => cube_pointZ k (panel t) (hi (col t)) (hi (row t))
  end.

(** The coordinates used by a grid with k tiles per panel side and n points per tile side: [edge c] is the coordinate of
    the line between tiles c-1 and c, [pt c i] the coordinate of point i of tile c.  The panel spans [-1, 1] and the
    points are placed symmetrically about its centre (as the equiangular grid of the code is, see GridProps). *)
Record grid_coords := { edge : Z -> R; pt : Z -> nat -> R }.
Definition grid_symmetric (k : Z) (n : nat) (g : grid_coords) : Prop :=
  (edge g 0 = -1)%R /\ (edge g k = 1)%R /\
  forall c i, 0 <= c < k -> (i < n)%nat -> (pt g (k - 1 - c) (n - 1 - i)%nat = - pt g c i)%R.

(** Chart coordinates of point i on side d of a tile. *)
Definition boundary_xy (g : grid_coords) (t : tile) (d : side) (i : nat) : R * R :=
  match d with
  | South => (pt g (col t) i, edge g (row t))
  | North => (pt g (col t) i, edge g (row t + 1))
  | West => (edge g (col t), pt g (row t) i)
  | East => (edge g (col t + 1), pt g (row t) i)
  end.

(** The point itself, on the cube of half-side 1. *)
Definition boundary_point (g : grid_coords) (t : tile) (d : side) (i : nat) : R * R * R :=
  cube_point 1 (panel t) (fst (boundary_xy g t d i)) (snd (boundary_xy g t d i)).

(** Samples of a global field on side d of a tile, in the tile's own order. *)
Definition samples {A} (f : R * R * R -> A) (g : grid_coords) (n : nat) (t : tile) (d : side) : list A :=
  map (fun i => f (boundary_point g t d i)) (seq 0 n).

(** Same for the 3D layout of the solver: [ne] elements along the side, [nv] vertical levels, [ns] points per element
    and level; entry (e, v, h) is the sample at horizontal point e*ns + h and level v. *)
Definition samples3 {A} (f : nat -> R * R * R -> A) (g : grid_coords) (ne nv ns : nat) (t : tile) (d : side)
    : list (list (list A)) :=
  map (fun e => map (fun v => map (fun h => f v (boundary_point g t d (e * ns + h))) (seq 0 ns)) (seq 0 nv))
      (seq 0 ne).

(** Tile with a given rank. *)
Definition tile_of_rank (k r : Z) : tile := Tile (r / (k * k)) (r mod (k * k) / k) (r mod k).

(** Chart coordinates of the point with parameter x on side d of a whole panel. *)
Definition panel_side_xy (d : side) (x : R) : R * R :=
  match d with
  | South => (x, -1)
  | North => (x, 1)
  | West => (-1, x)
  | East => (1, x)
  end%R.

(** Tangent basis of the equiangular chart x1, x2 (X = tan x1, Y = tan x2) of panel p at the sphere point with gnomonic
    coordinates X, Y: derivative of cube_point(1, X, Y)/|.| in the direction (a1, a2), with dX = (1+X^2) dx1 and
    dY = (1+Y^2) dx2.  [lin] is the linear part of the chart. *)
Local Open Scope R_scope.
Definition lin (p : Z) (dX dY : R) : R * R * R := cube_point 0 p dX dY.
Definition scal (a : R) (v : R * R * R) : R * R * R := let '(x, y, z) := v in (a * x, a * y, a * z).
Definition add3 (u v : R * R * R) : R * R * R :=
  let '(a, b, c) := u in let '(x, y, z) := v in (a + x, b + y, c + z).
Definition norm3 (v : R * R * R) : R := let '(x, y, z) := v in sqrt (x * x + y * y + z * z).

(** Projection of the chart on the unit sphere. *)
Definition sphere_point (p : Z) (X Y : R) : R * R * R :=
  scal (/ norm3 (cube_point 1 p X Y)) (cube_point 1 p X Y).

(** d/dt at t = 0 of sphere_point (tan (x1 + t a1), tan (x2 + t a2)); that this formula is the derivative is theorem
    [tangent_is_derivative] in GeometryProps. *)
Definition tangent (p : Z) (X Y a1 a2 : R) : R * R * R :=
  let dX := (1 + X * X) * a1 in
  let dY := (1 + Y * Y) * a2 in
  let d2 := 1 + X * X + Y * Y in
  add3 (scal (/ sqrt d2) (lin p dX dY))
       (scal (- (X * dX + Y * dY) / (sqrt d2 * d2)) (cube_point 1 p X Y)).

(** Dot product. *)
Definition dot3 (u v : R * R * R) : R :=
  let '(a, b, c) := u in let '(x, y, z) := v in a * x + b * y + c * z.

(** Covariant components of a vector w in the chart of panel p: its products with the two coordinate directions. *)
Definition cov1 (p : Z) (X Y : R) (w : R * R * R) : R := dot3 w (tangent p X Y 1 0).
Definition cov2 (p : Z) (X Y : R) (w : R * R * R) : R := dot3 w (tangent p X Y 0 1).

(** A boundary array holds the contravariant (resp. covariant) components of the global vector field V along side d of
    tile t, and the samples of W as its remaining component(s). *)
Definition holds_contra {B} (V : R * R * R -> R * R * R) (W : R * R * R -> B) (g : grid_coords) (n : nat)
    (t : tile) (d : side) (l : list (vec B)) : Prop :=
  length l = n /\
  forall i a1 a2 b, nth_error l i = Some (a1, a2, b) ->
    let '(X, Y) := boundary_xy g t d i in
    tangent (panel t) X Y a1 a2 = V (boundary_point g t d i) /\ b = W (boundary_point g t d i).
Definition holds_cov {B} (V : R * R * R -> R * R * R) (W : R * R * R -> B) (g : grid_coords) (n : nat)
    (t : tile) (d : side) (l : list (vec B)) : Prop :=
  length l = n /\
  forall i a1 a2 b, nth_error l i = Some (a1, a2, b) ->
    let '(X, Y) := boundary_xy g t d i in
    a1 = cov1 (panel t) X Y (V (boundary_point g t d i)) /\
    a2 = cov2 (panel t) X Y (V (boundary_point g t d i)) /\ b = W (boundary_point g t d i).

(** The boundary coordinates a tile passes to the exchange. *)
Definition coords_sn (g : grid_coords) (n : nat) (t : tile) : list R := map (pt g (col t)) (seq 0 n).
Definition coords_we (g : grid_coords) (n : nat) (t : tile) : list R := map (pt g (row t)) (seq 0 n).
