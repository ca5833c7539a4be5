(** Model of the stiffness resilient exponential Runge-Kutta methods: wx_factory/integrators/srerk.py. Numbers are exact reals. *)
From Coq Require Import Reals List Arith.
From Coquelicot Require Import Hierarchy.
Import ListNotations.
Local Open Scope R_scope.

(** range(start, stop, 2) *)
Fixpoint range2 (fuel start stop : nat) : list nat := match fuel with O => [] | S n => if (start <? stop)%nat then start :: range2 n (start + 2) stop else [] end.
(** srerk.py:33-37 -- coeff(p, q); true division of integers *)
Definition node_coeff (p q : nat) : R := (-1) ^ (p + q) * INR (fact (p + q + 2)) / (INR (fact q) * INR (fact (q + 2)) * INR (fact (p - q))).
(** 42 -- the coefficients of the polynomial whose roots are taken *)
Definition node_poly (o : nat) : list R := map (node_coeff o) (seq 0 (o + 1)).
(** 41 *)
Definition stage_orders (order : nat) : list nat := range2 order 2 (order - 2) ++ [order - 2]%nat.
(** 29-46 -- opt_nodes; [roots]: Polynomial.roots. [None]: ValueError *)
Definition opt_nodes (roots : list R -> list R) (order : nat) : option (list (list R)) :=
  if (order <? 3)%nat then None else Some (map (fun o => roots (node_poly o)) (stage_orders order) ++ [[1]]).

Section Step.
Variable V : ModuleSpace R_Ring.
(** [alpha]: alpha_coeff (integrator.py:135-146), from the nodes to the entries of the matrix. [solve ts A us]: the solvers for phi functions (kiops, pmex and the others, task1 false): one vector per time; external. [rhs], [matvec] the right-hand side, and dt times its Jacobian at Q (75-77) *)
Variables (alpha : list R -> nat -> nat -> R) (solve : list R -> (V -> V) -> list V -> list V) (rhs matvec : V -> V) (q : V) (dt : R).
(** row k of alpha @ rz *)
Definition combine_rows (a : nat -> nat -> R) (rz : list V) (k : nat) : V :=
  fold_right plus zero (map (fun p => scal (V := V) (a k (fst p)) (snd p)) (combine (seq 0 (length rz)) rz)).
(** 285-286, 291-292 -- the values at the stages, and r(z_i) *)
Definition stage_values (z : list V) : list V := map (fun zi => plus q (scal (V := V) dt zi)) z.
Definition remainder (zi : V) : V := minus (minus (rhs zi) (rhs q)) (scal (V := V) (/ dt) (matvec (minus zi q))).
(** 294-296; line 73 for alpha *)
Definition stage_input (c : list R) (z : list V) : list V :=
  zero :: rhs q :: zero :: map (combine_rows (alpha c) (map remainder (stage_values z))) (seq 0 (length z)).
(** 282-573 -- the loop over the other projections: [prev] are the nodes of the stages computed last, [rest] the nodes to come *)
Fixpoint projections (prev : list R) (rest : list (list R)) (z : list V) : list V :=
  match rest with [] => z | c :: r => projections c r (solve c matvec (stage_input prev z)) end.
(** 75-81, 576 -- __step__; [None]: no nodes (IndexError), or a result that has not the shape of Q *)
Definition srerk_step (nodes : list (list R)) : option V :=
  match nodes with
  | [] => None
  | c0 :: rest => match projections c0 rest (solve c0 matvec [zero; rhs q]) with [z] => Some (plus q (scal (V := V) dt z)) | _ => None end
  end.
End Step.
