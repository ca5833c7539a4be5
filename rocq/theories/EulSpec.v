(** What is meant by the same heights seen from both sides of an edge between tiles. *)
From Coq Require Import Reals ZArith Arith.
From Verif Require Import TopologyModel TopologySpec SwSpec EulModel.
Local Open Scope R_scope.

(** heights on the sides of the tiles (boundaries 0 and N; x: position along the side, z: point in the layer) depend on the layer, the point in it and the place only *)
Definition one_height (k N ns : nat) (pts : nat -> R) (geo : layers) : Prop :=
  exists B : nat -> nat -> R * R * R -> R, forall t l x z, tile_ok (Z.of_nat k) t -> (x < N * ns)%nat -> (z < ns)%nat ->
    let r := rank_of_tile (Z.of_nat k) t in let place d := boundary_point (sphere_grid k N ns pts) t d x in
    let s := (x / ns)%nat in let p := (z * ns + x mod ns)%nat in
    z_i geo r l s 0%nat p = B l z (place West) /\ z_i geo r l s N p = B l z (place East) /\
    z_j geo r l s 0%nat p = B l z (place South) /\ z_j geo r l s N p = B l z (place North).
