(** Stability of time integrators: dissipative right-hand sides on a vector space with an inner product. *)
From Coq Require Import Reals.
From Coquelicot Require Import Hierarchy.
Local Open Scope R_scope.

Section Inner.
Context {V : ModuleSpace R_Ring}.
Definition inner_product (ip : V -> V -> R) : Prop :=
  (forall x y z, ip (plus x y) z = ip x z + ip y z) /\ (forall a x z, ip (scal (V := V) a x) z = a * ip x z) /\ (forall x y, ip x y = ip y x) /\ (forall x, 0 <= ip x x).
(** the length of a vector *)
Definition size (ip : V -> V -> R) (x : V) : R := sqrt (ip x x).
(** two solutions of Q' = f(Q) never move apart: the derivative of |u - v|^2 is not positive *)
Definition dissipative (ip : V -> V -> R) (f : V -> V) : Prop := forall u v, ip (minus (f u) (f v)) (minus u v) <= 0.
(** ... and approach each other at the rate mu *)
Definition damped (ip : V -> V -> R) (mu : R) (f : V -> V) : Prop := forall u v, ip (minus (f u) (f v)) (minus u v) <= - mu * ip (minus u v) (minus u v).
Definition linear_map (L : V -> V) : Prop := (forall x y, L (plus x y) = plus (L x) (L y)) /\ forall a x, L (scal (V := V) a x) = scal (V := V) a (L x).
(** f is affine *)
Definition affine_map (f : V -> V) : Prop := exists L c, linear_map L /\ forall x, f x = plus (L x) c.
(** what the nonlinear solver returns for g, started at q, is a zero of g *)
Definition solved (newton : (V -> V) -> V -> V) (g : V -> V) (q : V) : Prop := g (newton g q) = zero.
(** ... or the value of g there has at most the size e *)
Definition nearly_solved (ip : V -> V -> R) (e : R) (newton : (V -> V) -> V -> V) (g : V -> V) (q : V) : Prop := size ip (g (newton g q)) <= e.
(** the linear solver, started at q, solves A x = b *)
Definition linear_solved (solve : (V -> V) -> V -> V -> V) (A : V -> V) (b q : V) : Prop := A (solve A b q) = b.
(** a convex measure of the size of a state, like a norm or the total variation *)
Definition convex (p : V -> R) : Prop := forall a x y, 0 <= a <= 1 -> p (plus (scal (V := V) a x) (scal (V := V) (1 - a) y)) <= a * p x + (1 - a) * p y.
End Inner.

(** The test equation u' = lam u with a complex lam. The complex numbers as a real vector space. *)
From Coquelicot Require Import Complex.
Definition plane : ModuleSpace R_Ring := prod_ModuleSpace R_Ring R_ModuleSpace R_ModuleSpace.
Definition test_rhs (lam : C) : plane -> plane := fun u => Cmult lam (u : C).
Definition plane_ip (u v : plane) : R := fst u * fst v + snd u * snd v.
