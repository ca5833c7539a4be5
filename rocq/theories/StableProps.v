(** C80: stability of the implicit integrators for every step size, and of the TVD Runge-Kutta method. *)
From Coq Require Import Reals.
From Coquelicot Require Import Hierarchy Complex.
From Verif Require Import StepModel StepSpec StableModel StableSpec StableProofs StableOrder StableDamp.
Local Open Scope R_scope.

(** Backward Euler: whatever the step size, two solutions of a dissipative problem, linear or not, do not move apart, up to what the nonlinear solver left; they approach each other at least by the factor 1 / (1 + mu dt) if the problem is damped at the rate mu. *)
Theorem C80_backward_euler : forall (V : ModuleSpace R_Ring) (ip : V -> V -> R) f newton Q Q' dt mu e e', inner_product ip -> 0 <= mu -> damped ip mu f -> 0 < dt ->
  nearly_solved ip e newton (be_fun f Q dt) Q -> nearly_solved ip e' newton (be_fun f Q' dt) Q' ->
  (1 + mu * dt) * size ip (minus (backward_euler newton f Q dt) (backward_euler newton f Q' dt)) <= size ip (minus Q Q') + dt * (e + e').
Proof. exact be_stable_all. Qed.
Print Assumptions C80_backward_euler.
Example backward_euler_example : forall (V : ModuleSpace R_Ring) (ip : V -> V -> R), inner_product ip -> damped ip 1 (decay (V := V)) /\ forall Q, nearly_solved ip 0 (slope 2) (be_fun decay Q 1) Q.
Proof. exact be_example. Qed.

(** The diagonally implicit method: two solutions of a dissipative problem, linear or not, do not move apart. *)
Theorem C80_sdirk : forall (V : ModuleSpace R_Ring) (ip : V -> V -> R), inner_product ip -> forall f newton Q Q' dt, dissipative ip f -> 0 < dt ->
  (forall q, q = Q \/ q = Q' -> solved newton (sdirk_fun1 f q dt) q /\ solved newton (sdirk_fun2 f q (newton (sdirk_fun1 f q dt) q) dt) q) ->
  size ip (minus (sdirk newton f Q dt) (sdirk newton f Q' dt)) <= size ip (minus Q Q').
Proof. exact @sdirk_stable. Qed.
Print Assumptions C80_sdirk.
Example sdirk_example : forall (V : ModuleSpace R_Ring) (Q : V), solved (slope (1 + sdirk_param)) (sdirk_fun1 decay Q 1) Q /\ solved (slope (1 + sdirk_param)) (sdirk_fun2 decay Q (slope (1 + sdirk_param) (sdirk_fun1 decay Q 1) Q) 1) Q.
Proof. exact @slope_sdirk. Qed.

(** Its order is two: the difference from the Taylor polynomial of the exact solution, as for the other integrators in C32. *)
Theorem C80_sdirk_order : forall (V : NormedModule R_AbsRing) newton (f L : V -> V) Q h lam tol, affine f L -> 0 <= lam -> bounded L lam -> 0 < h -> h * lam <= / 4 ->
  let q1 := newton (sdirk_fun1 (V := NormedModule.ModuleSpace R_AbsRing V) f Q h) Q in let q2 := newton (sdirk_fun2 (V := NormedModule.ModuleSpace R_AbsRing V) f Q q1 h) Q in
  small (sdirk_fun1 (V := NormedModule.ModuleSpace R_AbsRing V) f Q h) q1 tol -> small (sdirk_fun2 (V := NormedModule.ModuleSpace R_AbsRing V) f Q q1 h) q2 tol ->
  norm (minus (sdirk (V := NormedModule.ModuleSpace R_AbsRing V) newton f Q h) (taylor 2 f L Q h)) <= 13 * lam ^ 2 * norm (f Q) * h ^ 3 + 3 * lam * h ^ 2 * tol.
Proof. exact @sdirk_order. Qed.
Print Assumptions C80_sdirk_order.
Example sdirk_order_example : affine (V := R_NormedModule) Ropp Ropp /\ bounded (V := R_NormedModule) Ropp 1 /\ forall Q : R, let newton g q := q - g q / (4 + sdirk_param) in
  let q1 := newton (sdirk_fun1 (V := NormedModule.ModuleSpace R_AbsRing R_NormedModule) Ropp Q (/ 4)) Q in
  small (sdirk_fun1 (V := NormedModule.ModuleSpace R_AbsRing R_NormedModule) Ropp Q (/ 4)) q1 0
  /\ small (sdirk_fun2 (V := NormedModule.ModuleSpace R_AbsRing R_NormedModule) Ropp Q q1 (/ 4)) (newton (sdirk_fun2 (V := NormedModule.ModuleSpace R_AbsRing R_NormedModule) Ropp Q q1 (/ 4)) Q) 0.
Proof. exact sdirk_order_case. Qed.

(** Crank-Nicolson: for a constant step size the distance of Q - dt/2 f(Q) never grows, and it bounds the distance of the states. *)
Theorem C80_crank_nicolson : forall (V : ModuleSpace R_Ring) (ip : V -> V -> R), inner_product ip -> forall f newton Q Q' dt, dissipative ip f -> 0 < dt -> solved newton (cn_fun f Q dt) Q -> solved newton (cn_fun f Q' dt) Q' ->
  let m x := minus x (scal (V := V) (dt / 2) (f x)) in let u := crank_nicolson newton f Q dt in let u' := crank_nicolson newton f Q' dt in
  size ip (minus (m u) (m u')) <= size ip (minus (m Q) (m Q')) /\ size ip (minus u u') <= size ip (minus (m u) (m u')).
Proof. exact @cn_stable. Qed.
Print Assumptions C80_crank_nicolson.
(** For affine problems two solutions do not move apart, with any step sizes; the same holds for ros2. *)
Theorem C80_crank_nicolson_affine : forall (V : ModuleSpace R_Ring) (ip : V -> V -> R), inner_product ip -> forall f newton Q Q' dt, affine_map f -> dissipative ip f -> 0 < dt -> solved newton (cn_fun f Q dt) Q -> solved newton (cn_fun f Q' dt) Q' ->
  size ip (minus (crank_nicolson newton f Q dt) (crank_nicolson newton f Q' dt)) <= size ip (minus Q Q').
Proof. exact @cn_linear. Qed.
Print Assumptions C80_crank_nicolson_affine.
Example crank_nicolson_example : forall (V : ModuleSpace R_Ring) (ip : V -> V -> R), inner_product ip -> affine_map (decay (V := V)) /\ dissipative ip decay /\ forall Q : V, solved (slope (3 / 2)) (cn_fun decay Q 1) Q.
Proof. exact (fun V ip H => conj decay_affine (conj (decay_dissipative ip H) slope_cn)). Qed.
Theorem C80_ros2 : forall (V : ModuleSpace R_Ring) (ip : V -> V -> R), inner_product ip -> forall f solve Q Q' dt, affine_map f -> dissipative ip f -> 0 < dt ->
  linear_solved solve (ros2_A f Q dt) (ros2_b f Q dt) Q -> linear_solved solve (ros2_A f Q' dt) (ros2_b f Q' dt) Q' -> size ip (minus (ros2 solve f Q dt) (ros2 solve f Q' dt)) <= size ip (minus Q Q').
Proof. exact @ros2_stable. Qed.
Print Assumptions C80_ros2.
Example ros2_example : forall (V : ModuleSpace R_Ring) (Q : V), linear_solved (slope_solve (3 / 2)) (ros2_A decay Q 1) (ros2_b decay Q 1) Q.
Proof. exact @slope_ros2. Qed.

(** BDF2: the energy |a|^2 + |2 a - b|^2 of the differences a, b of the last two states of two runs never grows, with any sequence of step sizes. *)
Theorem C80_bdf2 : forall (V : ModuleSpace R_Ring) (ip : V -> V -> R), inner_product ip -> forall f newton n Q P Q' P' dt, dissipative ip f -> 0 < dt -> solved newton (bdf2_fun f Q P dt) Q -> solved newton (bdf2_fun f Q' P' dt) Q' ->
  let energy a b := ip a a + ip (minus (scal (V := V) 2 a) b) (minus (scal (V := V) 2 a) b) in
  energy (minus (snd (bdf2 newton f n (Some P) Q dt)) (snd (bdf2 newton f n (Some P') Q' dt))) (minus Q Q') <= energy (minus Q Q') (minus P P').
Proof. exact @bdf2_stable. Qed.
Print Assumptions C80_bdf2.
Example bdf2_example : forall (V : ModuleSpace R_Ring) (Q P : V), solved (slope (5 / 3)) (bdf2_fun decay Q P 1) Q.
Proof. exact @slope_bdf2. Qed.

(** imex2 with the implicit part only: two solutions of a dissipative problem, linear or not, do not move apart. *)
Theorem C80_imex2 : forall (V : ModuleSpace R_Ring) (ip : V -> V -> R), inner_product ip -> forall f newton g Q Q' dt, (forall x, g x = zero) -> dissipative ip f -> 0 < dt -> solved newton (imex_fun g f Q dt) Q -> solved newton (imex_fun g f Q' dt) Q' ->
  size ip (minus (imex2 newton g f Q dt) (imex2 newton g f Q' dt)) <= size ip (minus Q Q').
Proof. exact @imex_stable. Qed.
Print Assumptions C80_imex2.
Example imex2_example : forall (V : ModuleSpace R_Ring) (Q : V), solved (slope (3 / 2)) (imex_fun (fun _ => zero) decay Q 1) Q.
Proof. exact @slope_imex. Qed.

(** Fast decaying modes u' = lam u are damped by backward Euler and by the diagonally implicit method, the more the larger the step is; Crank-Nicolson gives nearly - Q instead. *)
Theorem C80_damping : forall newton lam (Q : plane) dt, Re lam <= 0 -> 0 < dt ->
  (solved newton (be_fun (V := plane) (test_rhs lam) Q dt) Q -> dt * Cmod lam * Cmod (backward_euler (V := plane) newton (test_rhs lam) Q dt) <= Cmod Q)
  /\ (solved newton (sdirk_fun1 (V := plane) (test_rhs lam) Q dt) Q -> solved newton (sdirk_fun2 (V := plane) (test_rhs lam) Q (newton (sdirk_fun1 (V := plane) (test_rhs lam) Q dt) Q) dt) Q ->
      dt * Cmod lam * Cmod (sdirk (V := plane) newton (test_rhs lam) Q dt) <= Cmod Q)
  /\ (solved newton (cn_fun (V := plane) (test_rhs lam) Q dt) Q -> dt * Cmod lam * Cmod (Cplus (crank_nicolson (V := plane) newton (test_rhs lam) Q dt) Q) <= 4 * Cmod Q).
Proof. exact damping. Qed.
Print Assumptions C80_damping.
Example damping_example : inner_product (V := plane) plane_ip /\ forall lam, Re lam <= 0 -> dissipative (V := plane) plane_ip (test_rhs lam) /\ affine_map (V := plane) (test_rhs lam).
Proof. exact (conj plane_inner (fun lam H => conj (test_dissipative lam H) (test_linear lam))). Qed.

(** The TVD Runge-Kutta method keeps every bound on a convex measure of the state that Euler steps of at most the same size keep. *)
Theorem C80_tvd : forall (V : ModuleSpace R_Ring) (p : V -> R) (f : V -> V) h0, convex p -> (forall h Q, 0 <= h <= h0 -> p (euler1 f Q h) <= p Q) -> forall dt Q, 0 <= dt <= h0 -> p (tvdrk3 f Q dt) <= p Q.
Proof. exact tvd_stable. Qed.
Print Assumptions C80_tvd.
Example tvd_example : convex (V := R_ModuleSpace) Rabs /\ forall h Q, 0 <= h <= 2 -> Rabs (euler1 (V := R_ModuleSpace) Ropp Q h) <= Rabs Q.
Proof. exact tvd_case. Qed.
