(** What the discrete divergence should satisfy. *)
From mathcomp Require Import all_ssreflect all_algebra.
Set Implicit Arguments.
Unset Strict Implicit.
Unset Printing Implicit Defensive.
Import GRing.Theory.
Local Open Scope ring_scope.

(** a rule with n points that integrates polynomials of degree n or less exactly: the sum over the derivative of p is the difference of p at the ends of the element *)
Definition integrates (F : fieldType) (pts ws : seq F) : Prop :=
  forall p : {poly F}, (size p <= (size pts).+2)%N -> \sum_(i < size pts) ws`_i * (p^`()).[pts`_i] = p.[1] - p.[-1].
(** integral over a plane of n2 rows of n1 elements of size dx1 x dx3 with ns x ns points each *)
Definition plane_integral (F : fieldType) (n1 n2 ns : nat) (ws : seq F) (dx1 dx3 : F) (f : nat -> nat -> F) : F :=
  \sum_(r < n2) \sum_(c < n1) \sum_(j < ns) \sum_(i < ns) (dx1 * dx3 / 4%:R) * (ws`_j * ws`_i) * f (r * n1 + c)%N (j * ns + i)%N.
(** integrals over a wall of such a plane: n elements of size d, values f of element and point *)
Definition wall_integral (F : fieldType) (n ns : nat) (ws : seq F) (d : F) (f : nat -> nat -> F) : F := \sum_(e < n) \sum_(k < ns) (d / 2%:R) * ws`_k * f e k.
