(** C30: the tableaux of the explicit Runge-Kutta methods. *)
From Coq Require Import List Arith QArith Reals Lra Lia String.
From Coquelicot Require Import Hierarchy.
From Verif Require Import RkModel RkSpec RkProofs ButcherTables ButcherModel ButcherSpec ButcherProofs ButcherData ButcherRefute.
Import ListNotations.
Local Open Scope R_scope.

(** Every method offered is explicit, its nodes are the row sums and lie in [0,1], its weights sum to one and its error weights to zero, up
    to the decimals given *)
Theorem C30_tableaux : forall m, In m METHODS ->
  let tb := method_tab m in let n := m_stages m in
  (forall i j, (i < n)%nat -> (i <= j)%nat -> a_ tb i j = 0) /\
  (forall i, (i < n)%nat -> Rabs (rsum n (a_ tb i) - c_ tb i) <= / 10 ^ 16) /\
  (forall i, (i < n)%nat -> 0 <= c_ tb i <= 1) /\
  Rabs (rsum n (b_ tb) - 1) <= / 10 ^ 16 /\ Rabs (rsum (S n) (e_ tb)) <= / 10 ^ 7.
Proof. exact tableaux_ok. Qed.
Print Assumptions C30_tableaux.
Example C30_tableaux_case : List.length METHODS = 9%nat /\ List.length (mA f14_12) = 35%nat.
Proof. split; reflexivity. Qed.

(** The constructor accepts exactly the explicit tableaux of matching sizes, up to the rounding unit: nothing on and above the diagonal, nodes between 0 and 1 *)
Theorem C30_accepted : forall m, validate m = true <-> (1 <= m_stages m /\ 1 <= m_order m /\ 1 <= m_est m)%nat /\
  (List.length (mA m) = m_stages m /\ (forall row, In row (mA m) -> List.length row = m_stages m) /\ List.length (mB m) = m_stages m /\ List.length (mC m) = m_stages m /\ List.length (mE m) = (m_stages m + 1)%nat) /\
  (forall i j, (i <= j < m_stages m)%nat -> (Qabs.Qabs (nth j (nth i (mA m) []) 0%Q) <= 1 # 4503599627370496)%Q) /\ (forall c, In c (mC m) -> (0 <= c <= 1)%Q).
Proof. exact validate_iff. Qed.
Print Assumptions C30_accepted.
Example C30_accepted_example : validate bs32 = true /\ validate dp54 = false.
Proof. split; reflexivity. Qed.
(** The methods with rational coefficients satisfy the conditions of all rooted trees up to the declared order, and their error weights
    those up to the declared order of the estimator *)
Theorem C30_trees : forall m, In m [bs32; dp54; m43; exlrk32; exlrk43] ->
  order_conditions (m_stages m) (a_ (method_tab m)) (b_ (method_tab m)) (m_order m) 0 /\
  null_conditions (S (m_stages m)) (ea_ (method_tab m)) (e_ (method_tab m)) (m_est m) 0.
Proof. exact trees_exact. Qed.
Print Assumptions C30_trees.
Example C30_trees_case : (size (Node [Node []; Node [Node []; Node []]]) = 5 /\ density (Node [Node []; Node [Node []; Node []]]) = 15 /\ m_order dp54 = 5)%nat.
Proof. repeat split. Qed.

(** The others, as far as the number of trees allows: the conditions for more nodes are not proved for F10(8) and F14(12); for DP8(7) see below *)
Theorem C30_trees_partial : forall m p q (d : nat), In (m, p, q, d) [(kc32, 3, 2, 7); (dp87, 7, 7, 16); (f10_8, 6, 6, 16); (f14_12, 5, 5, 16)]%nat ->
  order_conditions (m_stages m) (a_ (method_tab m)) (b_ (method_tab m)) p (/ 10 ^ 16) /\
  null_conditions (S (m_stages m)) (ea_ (method_tab m)) (e_ (method_tab m)) q (/ 10 ^ d).
Proof. exact trees_decimal. Qed.
Print Assumptions C30_trees_partial.
Example C30_trees_partial_case : (m_order kc32 = 3 /\ m_est kc32 = 2 /\ m_order dp87 = 8 /\ m_order f10_8 = 10 /\ m_order f14_12 = 14)%nat.
Proof. repeat split. Qed.

(** One step on the problem that exode solves: with exact rational coefficients the new value is the Taylor polynomial of the declared order
    of the solution, up to terms of higher order in the step size, and the error estimate is of the declared order *)
Theorem C30_step : forall m, In m [bs32; m43; exlrk32; exlrk43] ->
  forall (V : ModuleSpace R_Ring) (A : V -> V) u tt yy, linear_map A -> exists N r r', forall (s : solver V) hh, tab s = method_tab m -> (forall t x, fun_ s t x = phi_problem A u t x) ->
    y_new s tt hh yy (fun_ s tt yy) = plus (taylor A u tt yy (m_order m) hh) (higher (S (m_order m)) N r hh) /\
    err_estimate s tt hh yy (fun_ s tt yy) = higher (S (m_est m)) N r' hh.
Proof. exact exact_order. Qed.
Print Assumptions C30_step.
Example C30_step_case : linear_map (V := R_ModuleSpace) (fun x => 3 * x) /\
  (forall x, exode_fun (V := R_ModuleSpace) (fun x => 3 * x) [x; 1; 2] = phi_problem (fun x => 3 * x) [x; 1; 2]) /\
  taylor (V := R_ModuleSpace) (fun x => 3 * x) [1; 1] 0 1 2 (/ 2) = 1 + 2 + / 4 * 6.
Proof.
  split; [|split].
  - split; intros; unfold plus, scal; cbn; unfold mult; cbn; ring.
  - intros x. apply exode_problem_fun.
  - unfold taylor, derivative, forcing, vsum, plus, scal, zero; cbn; unfold mult; cbn. field.
Qed.

(** The same for the methods with decimal coefficients, up to perturbations of the coefficients of that size *)
Theorem C30_step_decimal : forall m p q (d : nat), In (m, p, q, d) [(kc32, 3, 2, 7); (f10_8, 10, 8, 16); (f14_12, 14, 12, 16); (dp87, 7, 7, 16)]%nat ->
  linear_order (method_tab m) p q (/ 10 ^ 16) (/ 10 ^ d).
Proof. exact linear_decimal. Qed.
Print Assumptions C30_step_decimal.
Example C30_step_decimal_case : exists s : solver R_ModuleSpace, tab s = method_tab f14_12 /\
  (forall t x, fun_ s t x = phi_problem (fun x => 3 * x) [1; 1; 2] t x).
Proof. exists (ex_solver (method_tab f14_12) (phi_problem (V := R_ModuleSpace) (fun x => 3 * x) [1; 1; 2]) 0). split; reflexivity. Qed.

(** DP8(7) is declared to be of order 8, but on x' = t^7/7!, x(0) = 0, its error is of the order 8: the propagating and the embedded weights
    are exchanged.  With the other choice it is of order 8 on the linear problems. *)
Theorem C30_dp87_refuted : m_order dp87 = 8%nat /\
  (forall (s : solver R_ModuleSpace) hh, tab s = method_tab dp87 -> (forall t x, fun_ s t x = t ^ 7 / INR (fact 7)) ->
    2 / 10 ^ 8 * Rabs hh ^ 8 <= Rabs (y_new s 0 hh 0 (fun_ s 0 0) - hh ^ 8 / INR (fact 8))) /\
  linear_order (method_tab (exchanged dp87)) 8 7 (/ 10 ^ 16) (/ 10 ^ 16).
Proof. exact (conj eq_refl (conj dp87_seven dp87_swapped)). Qed.
Print Assumptions C30_dp87_refuted.
Example C30_dp87_refuted_case : exists s : solver R_ModuleSpace, tab s = method_tab dp87 /\ (forall t x, fun_ s t x = t ^ 7 / INR (fact 7)).
Proof. exists (ex_solver (method_tab dp87) (fun t _ => t ^ 7 / INR (fact 7)) 0). split; reflexivity. Qed.

(** DP5(4) is one of the methods offered, but its matrix does not have the required shape, so that its solver cannot be constructed; the
    default method of exode is not among the methods; all other names work *)
Theorem C30_names_refuted : exode_method exode_default = None /\
  map (fun m => exode_method (m_name m)) METHODS = [Some bs32; None; Some m43; Some kc32; Some exlrk32; Some exlrk43; Some f14_12; Some dp87; Some f10_8].
Proof. exact (conj default_missing names_found). Qed.
Print Assumptions C30_names_refuted.
Example C30_names_refuted_case : exode_method "dp8(7)" = Some dp87 /\ nth 1 (map m_name METHODS) ""%string = "DP5(4)"%string.
Proof. split; reflexivity. Qed.

(** M4(3) is announced (in a comment) as of order 5 on homogeneous linear problems, but on x' = x the term of order 5 is wrong *)
Theorem C30_m43_refuted : forall (s : solver R_ModuleSpace) hh yy, tab s = method_tab m43 -> (forall t x, fun_ s t x = x) ->
  y_new s 0 hh yy (fun_ s 0 yy) = yy * (1 + hh + hh ^ 2 / 2 + hh ^ 3 / 6 + hh ^ 4 / 24 + hh ^ 5 / 144).
Proof. exact m43_exponential. Qed.
Print Assumptions C30_m43_refuted.
Example C30_m43_refuted_case : exists s : solver R_ModuleSpace, tab s = method_tab m43 /\ (forall t x, fun_ s t x = x).
Proof. exists (ex_solver (method_tab m43) (fun _ x => x) 0). split; reflexivity. Qed.
