(** C78: stiffness resilient exponential Runge-Kutta methods *)
From Coq Require Import Reals Lra Lia List Arith Sorted.
From Coquelicot Require Import Coquelicot.
From Verif Require Import SrerkModel SrerkSpec SrerkFacts.
From Verif Require SrerkNodes.
Import ListNotations.
Local Open Scope R_scope.

(** the polynomial of degree o whose roots are taken as nodes has o roots; they are real, different from each other, and between 0 and 1 *)
Theorem C78_nodes : forall o : nat, (exists c, roots_of (node_poly o) c /\ StronglySorted Rlt c)
  /\ forall c, roots_of (node_poly o) c -> length c = o /\ NoDup c /\ List.Forall (fun x => 0 < x < 1) c.
Proof. exact (fun o => conj (SrerkNodes.nodes_exist_sorted o) (@SrerkNodes.nodes_facts o)). Qed.
Print Assumptions C78_nodes.
(** for two nodes they are (10 -/+ sqrt 10)/15 *)
Example C78_nodes_two : roots_of (node_poly 2) [(10 - sqrt 10) / 15; (10 + sqrt 10) / 15].
Proof. exact two_nodes. Qed.

(** it is orthogonal to all the lower powers with the weight x^2: no other nodes give a smaller error *)
Theorem C78_optimal : forall o j : nat, (j < o)%nat -> is_RInt (fun x => x ^ 2 * poly_at (V := R_ModuleSpace) (node_poly o) x * x ^ j) 0 1 0.
Proof. exact (@SrerkNodes.orthogonal_R). Qed.
Print Assumptions C78_optimal.
Example C78_optimal_case : is_RInt (fun x => x ^ 2 * poly_at (V := R_ModuleSpace) (node_poly 3) x * x ^ 2) 0 1 0.
Proof. exact (C78_optimal 3 2 ltac:(lia)). Qed.

(** the method asked for by its order: orders below 3 are refused; otherwise the stages have 2, 4, 6, ... nodes, then order - 2, then the end of the step *)
Theorem C78_requested : forall roots order, (forall o, roots_of (node_poly o) (roots (node_poly o))) ->
  match opt_nodes roots order with
  | None => (order < 3)%nat
  | Some nodes => (3 <= order)%nat /\ exists pre c, nodes = pre ++ [c; [1]] /\ length pre = ((order - 3) / 2)%nat
      /\ (forall i, (i < length pre)%nat -> roots_of (node_poly (2 * (i + 1))) (nth i pre [])) /\ roots_of (node_poly (order - 2)) c
  end.
Proof. exact requested. Qed.
Print Assumptions C78_requested.
Example C78_requested_case : exists roots, (forall o, roots_of (node_poly o) (roots (node_poly o))) /\ option_map (map (@length R)) (opt_nodes roots 7) = Some [2; 4; 5; 1]%nat.
Proof. exact requested_seven. Qed.

(** problems u' = L u + b with a linear operator L: the step is exact, for every order and every step size *)
Theorem C78_linear : forall (V : NormedModule R_AbsRing) roots order nodes dt (solve : list R -> (V -> V) -> list V -> list V) (L : V -> V) (b q : V),
  (forall o, roots_of (node_poly o) (roots (node_poly o))) -> opt_nodes roots order = Some nodes -> dt <> 0 -> linear L ->
  exact_solver (fun x => scal dt (L x)) solve ->
  exists q', srerk_step V alpha_matrix solve (fun x => plus (L x) b) (fun x => scal dt (L x)) q dt nodes = Some q' /\ on_solution (fun x => plus (L x) b) q dt q'.
Proof. exact (fun V roots order nodes dt solve L b q HR HN Hdt HL HS => linear_exact V roots order nodes dt HR HN Hdt solve L b q HL HS). Qed.
Print Assumptions C78_linear.
(** u' = -7 u + b, order 6, step 1/2 *)
Example C78_linear_case : exists roots nodes solve, (forall o, roots_of (node_poly o) (roots (node_poly o))) /\ opt_nodes roots 6 = Some nodes
  /\ exact_solver (V := R_NormedModule) (fun x => scal (V := R_NormedModule) (1/2) (-7 * x)) solve.
Proof. exact linear_case. Qed.

(** problems u' = L u + g(t): the step of the method of order p is exact for every polynomial g of degree p - 1 at most, whatever L is (no condition on its stiffness) *)
Theorem C78_forced : forall (V : NormedModule R_AbsRing) roots order nodes dt (solve : list R -> (R * V -> R * V) -> list (R * V) -> list (R * V)) (L : V -> V) (a : list V) t0 u0,
  (forall o, roots_of (node_poly o) (roots (node_poly o))) -> opt_nodes roots order = Some nodes -> dt <> 0 -> linear L -> (length a <= order)%nat ->
  exact_solver (V := prod_NormedModule R_AbsRing R_NormedModule V) (forced_jac L (poly_slope a t0) dt) solve ->
  exists q', srerk_step (prod_NormedModule R_AbsRing R_NormedModule V) alpha_matrix solve (forced L (poly_at a)) (forced_jac L (poly_slope a t0) dt) (t0, u0) dt nodes = Some q'
    /\ on_solution (V := prod_NormedModule R_AbsRing R_NormedModule V) (forced L (poly_at a)) (t0, u0) dt q'.
Proof. exact (fun V roots order nodes dt solve L a t0 u0 HR HN Hdt HL Ha HS => forced_exact V roots order nodes dt HR HN Hdt solve L a t0 u0 HL Ha HS). Qed.
Print Assumptions C78_forced.
(** u' = -1000 u + t^4, order 5 *)
Example C78_forced_case : exists roots nodes solve q', (forall o, roots_of (node_poly o) (roots (node_poly o))) /\ opt_nodes roots 5 = Some nodes
  /\ exact_solver (V := prod_NormedModule R_AbsRing R_NormedModule R_NormedModule) (forced_jac (V := R_NormedModule) (fun x => -1000 * x) (poly_slope (V := R_ModuleSpace) [0; 0; 0; 0; 1] 2) (1/10)) solve
  /\ srerk_step (prod_NormedModule R_AbsRing R_NormedModule R_NormedModule) alpha_matrix solve (forced (V := R_NormedModule) (fun x => -1000 * x) (poly_at (V := R_ModuleSpace) [0; 0; 0; 0; 1]))
       (forced_jac (V := R_NormedModule) (fun x => -1000 * x) (poly_slope (V := R_ModuleSpace) [0; 0; 0; 0; 1] 2) (1/10)) (2, 3) (1/10) nodes = Some q'
  /\ on_solution (V := prod_NormedModule R_AbsRing R_NormedModule R_NormedModule) (forced (V := R_NormedModule) (fun x => -1000 * x) (poly_at (V := R_ModuleSpace) [0; 0; 0; 0; 1])) (2, 3) (1/10) q'.
Proof. exact stiff_case. Qed.

(** problems u' = g(t): the step gives the integral of every polynomial g of degree 2 p - 3 at most *)
Theorem C78_quadrature : forall (V : NormedModule R_AbsRing) roots order nodes dt (solve : list R -> (R * V -> R * V) -> list (R * V) -> list (R * V)) (a : list V) t0 u0 (G : R -> V),
  (forall o, roots_of (node_poly o) (roots (node_poly o))) -> opt_nodes roots order = Some nodes -> dt <> 0 -> (length a <= 2 * order - 2)%nat ->
  exact_solver (V := prod_NormedModule R_AbsRing R_NormedModule V) (forced_jac (fun _ => zero) (poly_slope a t0) dt) solve ->
  (forall s, is_derive G s (poly_at a s)) ->
  srerk_step (prod_NormedModule R_AbsRing R_NormedModule V) alpha_matrix solve (forced (fun _ => zero) (poly_at a)) (forced_jac (fun _ => zero) (poly_slope a t0) dt) (t0, u0) dt nodes
    = Some (t0 + dt, plus u0 (minus (G (t0 + dt)) (G t0))).
Proof. exact (fun V roots order nodes dt solve a t0 u0 G HR HN Hdt Ha HS HG => quadrature_exact V roots order nodes dt HR HN Hdt solve a t0 u0 G Ha HS HG). Qed.
Print Assumptions C78_quadrature.
(** u' = 6 t^5 from u(0) = 5 to t = 2 with order 4: 5 + 2^6 *)
Example C78_quadrature_case : exists roots nodes solve, (forall o, roots_of (node_poly o) (roots (node_poly o))) /\ opt_nodes roots 4 = Some nodes
  /\ exact_solver (V := prod_NormedModule R_AbsRing R_NormedModule R_NormedModule) (forced_jac (V := R_NormedModule) (fun _ => zero) (poly_slope (V := R_ModuleSpace) [0; 0; 0; 0; 0; 6] 0) 2) solve
  /\ srerk_step (prod_NormedModule R_AbsRing R_NormedModule R_NormedModule) alpha_matrix solve (forced (V := R_NormedModule) (fun _ => zero) (poly_at (V := R_ModuleSpace) [0; 0; 0; 0; 0; 6]))
       (forced_jac (V := R_NormedModule) (fun _ => zero) (poly_slope (V := R_ModuleSpace) [0; 0; 0; 0; 0; 6] 0) 2) (0, 5) 2 nodes = Some (2, 69).
Proof. exact quad_case. Qed.
