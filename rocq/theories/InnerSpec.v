(** Scalar products on a real vector space, norms and linear maps: the vocabulary of the theorems on linear solvers. Nothing here refers to a model.
    The sum over all processes of the local products (solvers/global_operations.py) is one such product. *)
From Coq Require Import Reals List.
From Coquelicot Require Import Hierarchy.
Import ListNotations.
Local Open Scope R_scope.

Section Inner.
Context {V : ModuleSpace R_Ring}.
Definition linear_map (A : V -> V) : Prop := (forall x y, A (plus x y) = plus (A x) (A y)) /\ (forall a x, A (scal (V := V) a x) = scal (V := V) a (A x)).
Definition scalar_product (dot : V -> V -> R) : Prop :=
  (forall x y, dot x y = dot y x) /\ (forall x y z, dot (plus x y) z = dot x z + dot y z) /\ (forall a x y, dot (scal (V := V) a x) y = a * dot x y) /\
  (forall x, 0 <= dot x x) /\ (forall x, dot x x = 0 -> x = zero).
Definition norm (dot : V -> V -> R) (x : V) : R := sqrt (dot x x).
(** sum of a_i q_i *)
Fixpoint combination (a : list R) (q : list V) : V := match a, q with c :: a, x :: q => plus (scal (V := V) c x) (combination a q) | _, _ => zero end.
(** the vectors have norm 1 and are orthogonal to each other *)
Definition orthonormal (dot : V -> V -> R) (q : list V) : Prop := forall i j, (i < length q)%nat -> (j < length q)%nat -> dot (nth i q zero) (nth j q zero) = if Nat.eqb i j then 1 else 0.
End Inner.
