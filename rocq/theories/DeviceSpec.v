(** What is expected of the choice of devices. Nothing here refers to the model *)
From Coq Require Import List ZArith.
Import ListNotations.

(** the devices that exist on a machine with d of them *)
Definition exists_on (d : Z) (id : Z) : Prop := (0 <= id < d)%Z.
(** how many of the ranks 0 .. n-1 get [id] *)
Definition load (assigned : nat -> Z) (n : nat) (id : Z) : nat := length (filter (fun r => Z.eqb (assigned r) id) (seq 0 n)).
Definition differ_by_at_most_one (a b : nat) : Prop := (a <= b + 1 /\ b <= a + 1)%nat.
