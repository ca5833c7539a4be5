(** What is expected of the nonlinear solver. *)
From Coq Require Import Reals List.
From Verif Require Import NewtonModel.
Import ListNotations.
Local Open Scope R_scope.

(** the function and the linear solver keep the number of unknowns *)
Definition keeps_size (F : vec -> vec) : Prop := forall x, length (F x) = length x.
Definition solver_size (solve : (vec -> vec) -> vec -> R -> vec) : Prop := forall J b tol, length (solve J b tol) = length b.
(** every component is at most e in absolute value *)
Definition within (e : R) (v : vec) : Prop := forall a, In a v -> Rabs a <= e.
(** F is affine with the linear part A *)
Definition affine (F A : vec -> vec) : Prop := (forall v, length (A v) = length v) /\ forall x s v, length x = length v -> F (axpy x s v) = axpy (F x) s (A v).
(** the options a caller gets who only gives the tolerance e and the number of passes *)
Definition default_options (e : R) (n : nat) (search : option (vec -> vec -> vec -> R -> search)) : options := Opts (Fin e) Inf Inf Inf n search.
(** Armijo: a step length is accepted only after its value of phi was seen to be small enough *)
Fixpoint armijo (phi0 : R) (seen : list (R * R)) (t : search) : Prop :=
  match t with
  | Stop None => True
  | Stop (Some s) => exists p, In (s, p) seen /\ p <= phi0 - s * phi0 / 10000
  | Ask s _ next => forall p, armijo phi0 ((s, p) :: seen) (next p)
  end.
(** ... and the full step is tried first *)
Definition full_first (phi0 : R) (t : search) : Prop := exists next, t = Ask 1 true next /\ forall p, p <= phi0 - 1 * phi0 / 10000 -> next p = Stop (Some 1).
