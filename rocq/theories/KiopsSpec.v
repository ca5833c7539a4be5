(** What is expected of the substeps, of the output times and of the augmented system. Nothing here refers to the model *)
From Coq Require Import Reals List.
From Coquelicot Require Import Coquelicot.
Import ListNotations.
Local Open Scope R_scope.

Definition total (ts : list R) : R := fold_right Rplus 0 ts.
(** output times that increase (equal ones allowed, except for the last), from 0 on *)
Definition output_times (ts : list R) : Prop := forall i j, (i < j < length ts)%nat -> 0 <= nth i ts 0 /\ nth i ts 0 <= nth j ts 0 /\ ((j = length ts - 1)%nat -> nth i ts 0 < nth j ts 0).
(** t^i / i! *)
Definition monomial (i : nat) (t : R) : R := t ^ i / INR (fact i).
(** e_0' = e_1, ..., e_(p-1)' = 0 *)
Definition chain (p : nat) (e : nat -> R -> R) : Prop := forall t, (forall k, (k + 1 < p)%nat -> is_derive (e k) t (e (k + 1)%nat t)) /\ is_derive (e (p - 1)%nat) t 0.
