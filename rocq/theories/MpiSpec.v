(** Specification vocabulary for properties C11 to C13. *)
From Coq Require Import List.
From Verif Require Import MpiModel.
Import ListNotations.

(** When the [size] processes of a communicator all run [p rank], all of them terminate, nobody is left waiting in a
    collective, and process r ends with [result r]. *)
Definition all_finish_with {A} (size : nat) (p : nat -> prog A) (result : nat -> A) : Prop :=
  exists fuel, exec fuel (map p (seq 0 size)) = Done (map result (seq 0 size)).

(** Number of collective calls of a program, whatever the replies *)
Inductive calls {A} : nat -> prog A -> Prop :=
| calls_ret a : calls 0 (Ret a)
| calls_coll n c k : (forall r, calls n (k r)) -> calls (S n) (Coll c k).
