(** Polynomials of two variables, to say what derivatives along the two directions of an element are. *)
From mathcomp Require Import all_ssreflect all_algebra.
Set Implicit Arguments.
Unset Strict Implicit.
Unset Printing Implicit Defensive.
Import GRing.Theory.
Local Open Scope ring_scope.

Section Two.
Variable F : fieldType.
(** the outer variable is x2, the coefficients are polynomials of x1 *)
Definition value (P : {poly {poly F}}) (x1 x2 : F) : F := P.[x2%:P].[x1].
Definition partial1 (P : {poly {poly F}}) : {poly {poly F}} := \poly_(i < size P) (P`_i)^`().
Definition partial2 (P : {poly {poly F}}) : {poly {poly F}} := P^`().
(** less than n in each variable *)
Definition degree_below (n : nat) (P : {poly {poly F}}) : Prop := (size P <= n)%N /\ forall i, (size (P`_i)%R <= n)%N.
End Two.
