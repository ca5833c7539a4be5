(** C79: the Jacobian-free Newton-Krylov solver. *)
From Coq Require Import Reals List Arith.
From Verif Require Import NewtonModel NewtonSpec NewtonProofs.
Import ListNotations.
Local Open Scope R_scope.

(** A run that reports a solution returns an x at which every component of F is within the tolerance, and both relative tests hold. The number of steps it reports is below maxiter, there is one residual more than steps, the first is that of x0 and the last that of x.
    With the default options at least one step is made, and the last step passed the tests on the step. *)
Theorem C79_found : forall F rdiff solve o x0 x it r, keeps_size F -> solver_size solve -> newton F rdiff solve o x0 = Done x it r true ->
  (forall e, o_ftol o = Fin e -> within e (F x))
  /\ le_num (div_num (Fin (inf_norm (F x))) (o_frtol o)) (Fin (inf_norm (F x0))) = true
  /\ (it < o_maxiter o)%nat /\ length r = S it /\ last r 0 = inf_norm (F x) /\ hd 0 r = inf_norm (F x0) /\ (o_xrtol o = Inf -> (1 <= it)%nat)
  /\ ((1 <= it)%nat -> exists y tol, 0 <= tol <= 9999 / 10000 /\ let d := vneg (solve (jac_matvec F rdiff y (F y)) (F y) tol) in
        (exists t, x = axpy y t d) /\ le_num (Fin (inf_norm d)) (o_xtol o) = true /\ le_num (div_num (Fin (inf_norm d)) (o_xrtol o)) (Fin (inf_norm x)) = true).
Proof. exact newton_found_spec. Qed.
Print Assumptions C79_found.
Example found_example : newton shift 1 same (default_options (1 / 10) 5 None) [1; 2] = Done [3; 3] 1 [2; 0] true.
Proof. exact shift_run. Qed.

(** A run always ends with an x unless no pass is allowed; when the passes are used up it reports one step less than were made and one residual for each pass. *)
Theorem C79_ends : forall F rdiff solve o x0, (newton F rdiff solve o x0 = Unbound <-> o_maxiter o = O)
  /\ forall x it r, newton F rdiff solve o x0 = Done x it r false -> it = (o_maxiter o - 1)%nat /\ length r = o_maxiter o.
Proof. exact newton_ends. Qed.
Print Assumptions C79_ends.

(** Not every x that is returned satisfies the tolerance: whatever the number of passes, an equation without solution gives an x all the same. *)
Theorem C79_returned_refuted : forall n rdiff, (1 <= n)%nat -> exists x r, newton (fun _ => [1]) rdiff (fun _ b _ => map (fun _ => 0) b) (default_options (1 / 2) n None) [0] = Done x (n - 1) r false
  /\ ~ within (1 / 2) ((fun _ => [1]) x).
Proof. exact returned_refuted. Qed.
Print Assumptions C79_returned_refuted.

(** A solution is left alone, whichever line search is used: one step, which is zero. *)
Theorem C79_solution : forall F rdiff solve e n search x0, keeps_size F -> solver_size solve -> 0 <= e -> (2 <= n)%nat -> inf_norm (F x0) = 0 ->
  (forall J b tol, inf_norm b = 0 -> inf_norm (solve J b tol) = 0) -> newton F rdiff solve (default_options e n search) x0 = Done x0 1 [0; 0] true.
Proof. exact solution_kept. Qed.
Print Assumptions C79_solution.
Example solution_example : keeps_size shift /\ solver_size same /\ inf_norm (shift [3; 3]) = 0 /\ forall J b tol, inf_norm b = 0 -> inf_norm (same J b tol) = 0.
Proof. exact shift_solved. Qed.

(** The finite difference gives the exact derivative of an affine function. *)
Theorem C79_jacobian : forall F A rdiff x v, keeps_size F -> affine F A -> 0 < rdiff -> length v = length x -> jac_matvec F rdiff x (F x) v = A v.
Proof. exact affine_matvec. Qed.
Print Assumptions C79_jacobian.
Example jacobian_example : keeps_size shift /\ affine shift ident.
Proof. exact (conj shift_size shift_affine). Qed.

(** An affine equation that has a solution is solved in one step, if the linear solver is exact and the line search tries the full step first (or there is none). *)
Theorem C79_affine : forall F rdiff solve e n search A x0, keeps_size F -> solver_size solve -> 0 <= e -> (2 <= n)%nat -> affine F A -> 0 < rdiff ->
  (forall J b tol, (forall v, length v = length b -> J v = A v) -> (exists v, length v = length b /\ A v = b) -> A (solve J b tol) = b) ->
  (exists y, length y = length x0 /\ inf_norm (F y) = 0) ->
  (forall strategy x v, search = Some strategy -> full_first (norm2 (F x) * norm2 (F x)) (strategy x (F x) v (norm2 (F x) * norm2 (F x)))) ->
  exists x, newton F rdiff solve (default_options e n search) x0 = Done x 1 [inf_norm (F x0); 0] true /\ inf_norm (F x) = 0.
Proof. exact affine_solved. Qed.
Print Assumptions C79_affine.
Example affine_example : affine shift ident /\ (forall J b tol, ident (same J b tol) = b) /\ (exists y, length y = length [1; 2] /\ inf_norm (shift y) = 0) /\ forall k phi0, full_first phi0 (backtrack k 1 phi0).
Proof. exact (conj shift_affine (conj (fun _ _ _ => eq_refl) (conj (shift_solution [1; 2]) backtrack_full))). Qed.

(** With a line search that accepts by Armijo's rule and always finds a step, the 2-norm of F at the result is not larger than at the start, whether or not the tolerance was met. *)
Theorem C79_armijo : forall F rdiff solve o strategy, keeps_size F -> solver_size solve -> o_search o = Some strategy -> (forall x dx phi0, armijo phi0 [] (strategy x (F x) dx phi0)) ->
  (forall x tol, 0 <= tol <= 9999 / 10000 -> let dx := vneg (solve (jac_matvec F rdiff x (F x)) (F x) tol) in
     exists s, fst (run_search F x dx (Mem 0 (norm2 (F x) * norm2 (F x)) (F x)) (strategy x (F x) dx (norm2 (F x) * norm2 (F x)))) = Some s /\ 0 <= s) ->
  forall x0 x it r b, newton F rdiff solve o x0 = Done x it r b -> norm2 (F x) <= norm2 (F x0).
Proof. exact newton_decreases. Qed.
Print Assumptions C79_armijo.
Example armijo_example : forall k, (forall x dx phi0, armijo phi0 [] ((fun _ _ _ : vec => backtrack k 1) x (shift x) dx phi0)) /\
  forall x tol, 0 <= tol <= 9999 / 10000 -> let dx := vneg (same (jac_matvec shift 1 x (shift x)) (shift x) tol) in
  exists s, fst (run_search shift x dx (Mem 0 (norm2 (shift x) * norm2 (shift x)) (shift x)) (backtrack k 1 (norm2 (shift x) * norm2 (shift x)))) = Some s /\ 0 <= s.
Proof. exact backtrack_example. Qed.

(** The line search returns the value of F at the x it returns, and that x is on the line. *)
Theorem C79_search : forall F x dx strategy, length dx = length x -> let (x', fx') := line_search F x (F x) dx strategy in fx' = F x' /\ exists s, x' = axpy x s dx.
Proof. exact search_value_spec. Qed.
Print Assumptions C79_search.
Example search_example : length [1; 2] = length [3; 4]. Proof. reflexivity. Qed.

(** The linear solver is only called with tolerances from 0 to 0.9999: what it does for others has no effect. *)
Theorem C79_tolerances : forall F rdiff solve solve' o x0, keeps_size F -> solver_size solve -> (forall J b tol, 0 <= tol <= 9999 / 10000 -> solve J b tol = solve' J b tol) ->
  newton F rdiff solve o x0 = newton F rdiff solve' o x0.
Proof. exact newton_tolerances. Qed.
Print Assumptions C79_tolerances.
Example tolerances_example : keeps_size shift /\ solver_size same /\ forall J b tol, 0 <= tol <= 9999 / 10000 -> same J b tol = (if Rlt_dec 1 tol then [] else b).
Proof. exact tolerances_case. Qed.
