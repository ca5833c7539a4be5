(** What the two parts of the shallow water equations are compared with: the older layout of the arrays (line, column of the points of a tile) read as the present one (row, column of the element, point of the element), and wet faces. *)
From Coq Require Import Reals ZArith.
From mathcomp Require Import all_ssreflect.
From Verif Require Import RField SwRhs SwSplitModel.

(** point p of the element at row, column: line row * ns + p / ns, column col * ns + p mod ns *)
Definition by_element (ns : nat) (field : nat -> nat -> R) (row col p : nat) : R := field (row * ns + p %/ ns)%N (col * ns + p %% ns)%N.
(** values at the sides: the first ns points are the low side, the others the high side *)
Definition by_side (ns : nat) (field : nat -> nat -> nat -> R) (x e p : nat) : R := field e (p %/ ns)%N (x * ns + p %% ns)%N.
Definition same_ground (ns : nat) (t : option topo_block) : option topography :=
  if t is Some t then Some {| hsurf := fun r => by_element ns (b_hsurf t r); hsurf_itf_i := fun r => by_side ns (b_itf_i t r); hsurf_itf_j := fun r => by_side ns (b_itf_j t r);
    dzdx1 := fun r => by_element ns (b_dzdx1 t r); dzdx2 := fun r => by_element ns (b_dzdx2 t r) |} else None.
Definition same_field (ns : nat) (Q : Z -> nat -> nat -> nat -> R) : Z -> nat -> nat -> nat -> nat -> R := fun r v => by_element ns (Q r v).
(** the depth on the two sides of every interface of the tile r is positive *)
Definition wet (k N ns : nat) (pts : seq R) (t : option topo_block) (Q : Z -> nat -> nat -> nat -> R) (r : Z) : Prop :=
  forall i x, (i <= N)%N -> (x < N * ns)%N ->
  (0 < b_var_i k N ns pts t Q r 0 i 1 x /\ 0 < b_var_i k N ns pts t Q r 0 i.+1 0 x /\ 0 < b_var_j k N ns pts t Q r 0 i 1 x /\ 0 < b_var_j k N ns pts t Q r 0 i.+1 0 x)%R.
