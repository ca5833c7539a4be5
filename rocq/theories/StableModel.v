(** Model of integrators/sdirk.py: the two-stage diagonally implicit Runge-Kutta method. The other integrators are in StepModel.v. *)
From Coq Require Import Reals.
From Coquelicot Require Import Hierarchy.
From Verif Require Import StepModel.
Local Open Scope R_scope.

Section Sdirk.
Context {V : ModuleSpace R_Ring}.
(** sdirk.py 19 *)
Definition sdirk_param : R := 1 + 1 / sqrt 2.
(** sdirk.py 21-22 *)
Definition sdirk_fun1 (rhs : V -> V) (Q : V) (dt : R) (Q1 : V) : V := minus (scal (V := V) (/ dt) (minus Q1 Q)) (scal (V := V) sdirk_param (rhs Q1)).
(** sdirk.py 24-25 *)
Definition sdirk_fun2 (rhs : V -> V) (Q Q1 : V) (dt : R) (Q2 : V) : V :=
  minus (minus (scal (V := V) (/ dt) (minus Q2 Q)) (scal (V := V) (1 - 2 * sdirk_param) (rhs Q1))) (scal (V := V) sdirk_param (rhs Q2)).
(** sdirk.py 30-69; both searches start at Q *)
Definition sdirk (newton : newton_t (V := V)) (rhs : V -> V) (Q : V) (dt : R) : V :=
  let Q1 := newton (sdirk_fun1 rhs Q dt) Q in
  let Q2 := newton (sdirk_fun2 rhs Q Q1 dt) Q in
  plus Q (scal (V := V) dt (plus (scal (V := V) (1 / 2) (rhs Q1)) (scal (V := V) (1 / 2) (rhs Q2)))).
End Sdirk.
