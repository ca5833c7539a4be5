(** The cases that the comments of initialize.py list, and the shape of a state. Nothing here refers to the model *)
From Coq Require Import List.
Import ListNotations.
(** initialize.py 149-155 and the branches 156-182; 59-84 and the branches 93-110; the branches 222-313 *)
Definition documented_sw : list nat := [0; 1; 2; 5; 6; 8; 9; 10].
Definition documented_euler : list nat := [11; 12; 20; 21; 22; 31; 77].
Definition documented_plane : list nat := [0; 1; 2; 3; 4].
(** [k] variables at the [p] points of every element of a grid *)
Definition state_sw (n ns : nat) : list nat := [3; n; n; ns * ns].
Definition state_euler (k n nv ns : nat) : list nat := [k; nv; n; n; ns * ns * ns].
Definition state_plane (n nv ns : nat) : list nat := [4; nv; n; ns * ns].
