(** What is meant by the total of a field over the atmosphere: the quadrature sum over the points of all the elements of all the tiles. *)
From Coq Require Import Reals ZArith.
From Verif Require Import EulModel.
From mathcomp Require Import all_ssreflect all_algebra.
From Verif Require Import RField RhsModel SwRhs EulRhs.
Local Open Scope ring_scope.

(** field: rank, layer, row, column, point. At each point: the value, the volume factor of the coordinates, the weights of the Gauss points *)
Definition global_integral_3d (k N NZ ns : nat) (pts ws : seq R) (earth_radius deta : R) (deep : bool) (geo : layers) (field : Z -> nat -> nat -> nat -> nat -> R) : R :=
  \sum_(r < 6 * k * k) \sum_(l < NZ) \sum_(row < N) \sum_(col < N) \sum_(z < ns) \sum_(j < ns) \sum_(i < ns)
    field (Z.of_nat r) l row col ((z * ns + j) * ns + i)%N * sqrtG_pt3 k N ns (point pts) earth_radius deta deep geo (Z.of_nat r) l row col ((z * ns + j) * ns + i)%N * (ws`_z * ws`_j * ws`_i).
