(** Fields of the whole atmosphere as the tiles of several processes hold them. *)
From Coq Require Import Reals ZArith Arith.
From Verif Require Import TopologyModel TopologySpec SwSpec EulModel.

Section Cut.
(** k x k tiles per panel, N x N columns of NZ elements per tile, ns x ns x ns points per element *)
Variables (k N NZ ns : nat).
Definition is_rank (r : Z) : Prop := (0 <= r < 6 * Z.of_nat k * Z.of_nat k)%Z.
(** [f], held by the tiles, is [F], given on whole panels: rank or panel, layer, row, column, point *)
Definition same_points (f F : at_points) : Prop :=
  forall r l row col p, is_rank r -> (l < NZ)%nat -> (row < N)%nat -> (col < N)%nat -> (p < ns ^ 3)%nat -> f r l row col p = cut k N (fun c => F c l) r row col p.
(** the five variables of a state *)
Definition same_state3 (q F : Z -> nat -> nat -> nat -> nat -> nat -> R) : Prop := forall v, (v < 5)%nat -> same_points (fun r => q r v) (fun c => F c v).
(** values at the interfaces across x1, across x2 and between layers *)
Definition same_i (f F : at_itf) : Prop := forall r l row b p, is_rank r -> (l < NZ)%nat -> (row < N)%nat -> (b <= N)%nat -> (p < ns * ns)%nat -> f r l row b p = cut_i k N (fun c => F c l) r row b p.
Definition same_j (f F : at_itf) : Prop := forall r l col b p, is_rank r -> (l < NZ)%nat -> (col < N)%nat -> (b <= N)%nat -> (p < ns * ns)%nat -> f r l col b p = cut_j k N (fun c => F c l) r col b p.
Definition same_k (f F : at_itf) : Prop := forall r row col b p, is_rank r -> (row < N)%nat -> (col < N)%nat -> (b <= NZ)%nat -> (p < ns * ns)%nat -> f r row col b p = cut k N (fun c i j => F c i j b) r row col p.
Definition same_layers (A B : layers) : Prop :=
  (same_points (z_pt A) (z_pt B) /\ same_points (s1_pt A) (s1_pt B) /\ same_points (s2_pt A) (s2_pt B) /\ same_points (dRdeta_pt A) (dRdeta_pt B)) /\
  (same_i (z_i A) (z_i B) /\ same_i (s1_i A) (s1_i B) /\ same_i (s2_i A) (s2_i B)) /\
  (same_j (z_j A) (z_j B) /\ same_j (s1_j A) (s1_j B) /\ same_j (s2_j A) (s2_j B)) /\
  (same_k (z_k A) (z_k B) /\ same_k (s1_k A) (s1_k B) /\ same_k (s2_k A) (s2_k B)).
(** Christoffel symbols, three times nine: the two indices last *)
Definition same_symbols (A B : Z -> nat -> nat -> nat -> nat -> nat -> nat -> R) : Prop := forall a c, (a < 3)%nat -> (c < 9)%nat -> same_points (fun r l i j p => A r l i j p a c) (fun r l i j p => B r l i j p a c).
End Cut.
