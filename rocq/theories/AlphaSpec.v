(** Specification for C29: the order conditions of an exponential multistep method whose saved values lie at the
    positions [c] (in units of the time step, relative to the current time): the combination belonging to the
    (k+2)-th derivative reproduces that derivative and is blind to all the others. *)
From mathcomp Require Import all_ssreflect all_algebra.
Set Implicit Arguments.
Unset Strict Implicit.
Unset Printing Implicit Defensive.
Local Open Scope ring_scope.

Definition order_conditions (F : fieldType) (coef : nat -> nat -> F) (c : seq F) : Prop :=
  forall k l : nat, (k < size c)%N -> (l < size c)%N ->
    \sum_(i < size c) coef k i * c`_i ^+ (l + 2) = if k == l then ((k + 2)`!)%:R else 0.

(** The saved states of a multistep method with constant step size are one, two, ... steps back. *)
Definition past (F : fieldType) (n : nat) : seq F := [seq - (j.+1)%:R | j <- iota 0 n].
