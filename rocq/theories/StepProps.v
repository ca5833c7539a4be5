(** C32: one step of the time integrators. C36: Jacobian-vector products. *)
From Coq Require Import Reals List Lra Lia FunctionalExtensionality.
From Coquelicot Require Import Hierarchy Series Derive Complex.
From Verif Require Import StepModel StepSpec RkSpec StepProofs StepOrder StepSplit StepWords StepExamples.
Import ListNotations.
Local Open Scope R_scope.

(** ** C36 *)
Theorem C36_finite_difference_affine : forall (V : NormedModule R_AbsRing) (f L : V -> V) (v Q : V) dt, affine f L ->
  matvec_fd (V := space _ V) v dt Q (f Q) f = scal dt (L v) /\ matvec_rat (V := space _ V) v dt Q (f Q) f = minus v (scal (dt / 2) (L v)).
Proof. exact (fun V f L v Q dt H => conj (fd_affine f L v Q dt H) (rat_affine f L v Q dt H)). Qed.
Print Assumptions C36_finite_difference_affine.
Theorem C36_complex_affine : forall (V : NormedModule R_AbsRing) (f L : V -> V) fC (v Q : V) dt, linear L -> complexified f L fC ->
  matvec_complex (V := space _ V) v dt Q fC = scal dt (L v).
Proof. exact @complex_affine. Qed.
Print Assumptions C36_complex_affine.
(** Every polynomial right-hand side with any number of components and any degree *)
Theorem C36_complex_polynomial : forall (F : nat -> poly) (x v : nat -> R) dt i d, directional (F i) x v d ->
  Rabs (matvec_complex (V := vectors) v dt x (fieldC F) i - dt * d) <= Rabs dt * / 2 ^ 52 * magnitude (fun j => Rabs (x j) + Rabs (v j)) (F i).
Proof. exact complex_step_bound. Qed.
Print Assumptions C36_complex_polynomial.
Theorem C36_complex_quadratic : forall (F : nat -> poly) (x v : nat -> R) dt i d, (degree (F i) <= 2)%nat -> directional (F i) x v d ->
  matvec_complex (V := vectors) v dt x (fieldC F) i = dt * d.
Proof. exact complex_step_exact. Qed.
Print Assumptions C36_complex_quadratic.
Theorem C36_finite_difference_polynomial : forall (F : nat -> poly) (x v : nat -> R) dt i d, directional (F i) x v d ->
  Rabs (matvec_fd (V := vectors) v dt x (field F x) (field F) i - dt * d) <= Rabs dt * sqrt (/ 2 ^ 23) * magnitude (fun j => Rabs (x j) + Rabs (v j)) (F i).
Proof. exact fd_bound. Qed.
Print Assumptions C36_finite_difference_polynomial.
(** x0 x1 + 3 x0 x0 x1 has, at (2, 5) in the direction (1, -1), the derivative 51 *)
Example C36_ex : directional (Add (Mul (Comp 0) (Comp 1)) (Mul (Const 3) (Mul (Comp 0) (Mul (Comp 0) (Comp 1)))))
  (fun i => match i with 0%nat => 2 | _ => 5 end) (fun i => match i with 0%nat => 1 | _ => -1 end) 51.
Proof.
  replace 51 with (dpoly (fun i => match i with 0%nat => 2 | _ => 5 end) (fun i => match i with 0%nat => 1 | _ => -1 end)
    (Add (Mul (Comp 0) (Comp 1)) (Mul (Const 3) (Mul (Comp 0) (Mul (Comp 0) (Comp 1)))))) by (cbn; ring). apply directional_dpoly.
Qed.

(** ** C32: explicit methods *)
Theorem C32_euler : forall (V : NormedModule R_AbsRing) (f L : V -> V) Q h, euler1 (V := space _ V) f Q h = taylor 1 f L Q h.
Proof. exact @euler_taylor. Qed.
Print Assumptions C32_euler.
Theorem C32_tvdrk3 : forall (V : NormedModule R_AbsRing) (f L : V -> V) Q h, affine f L -> tvdrk3 (V := space _ V) f Q h = taylor 3 f L Q h.
Proof. exact @tvdrk3_taylor. Qed.
Print Assumptions C32_tvdrk3.
(** For every right-hand side, linear or not, the step is that of the three-stage Runge-Kutta method of Shu and Osher *)
Theorem C32_tvdrk3_tableau : forall (V : NormedModule R_AbsRing) (f : V -> V) Q h t,
  rk_step (V := space _ V) 3 (fun i j => match i, j with 1%nat, 0%nat => 1 | 2%nat, 0%nat => 1 / 4 | 2%nat, 1%nat => 1 / 4 | _, _ => 0 end)
    (fun j => match j with 0%nat => 1 / 6 | 1%nat => 1 / 6 | 2%nat => 2 / 3 | _ => 0 end) (fun i => match i with 1%nat => 1 | 2%nat => 1 / 2 | _ => 0 end)
    (fun _ => f) t h Q (f Q) (tvdrk3 (V := space _ V) f Q h).
Proof. exact @tvdrk3_rk. Qed.
Print Assumptions C32_tvdrk3_tableau.

(** ** C32: implicit methods. The solvers are arbitrary; the last residual is at most tol. *)
Theorem C32_crank_nicolson : forall (V : NormedModule R_AbsRing) newton (f L : V -> V) Q h lam tol, affine f L -> 0 <= lam -> bounded L lam -> 0 < h -> h * lam <= 1 ->
  let q := crank_nicolson (V := space _ V) newton f Q h in
  small (cn_fun (V := space _ V) f Q h) q tol -> norm (minus q (taylor 2 f L Q h)) <= lam ^ 2 * norm (f Q) / 2 * h ^ 3 + 2 * h * tol.
Proof. exact @cn_order. Qed.
Print Assumptions C32_crank_nicolson.
Theorem C32_backward_euler : forall (V : NormedModule R_AbsRing) newton (f L : V -> V) Q h lam tol, affine f L -> 0 <= lam -> bounded L lam -> 0 < h -> h * lam <= / 2 ->
  let q := backward_euler (V := space _ V) newton f Q h in
  small (be_fun (V := space _ V) f Q h) q tol -> norm (minus q (taylor 1 f L Q h)) <= 2 * lam * norm (f Q) * h ^ 2 + 2 * h * tol.
Proof. exact @be_order. Qed.
Print Assumptions C32_backward_euler.
Theorem C32_imex2 : forall (V : NormedModule R_AbsRing) newton (fe fi E I : V -> V) Q h lam tol, affine fe E -> affine fi I -> 0 <= lam -> bounded I lam -> bounded E lam ->
  0 < h -> h * lam <= 1 -> let g := imex_fun (V := space _ V) fe fi Q h in small g (newton g Q) tol ->
  norm (minus (imex2 (V := space _ V) newton fe fi Q h) (taylor 2 (fun x => plus (fe x) (fi x)) (fun x => plus (E x) (I x)) Q h)) <=
    lam ^ 2 * (h * norm (plus (fe Q) (fi Q)) + 2 * tol) * h ^ 2 + 2 * lam * h * tol.
Proof. exact @imex_order. Qed.
Print Assumptions C32_imex2.
Theorem C32_ros2 : forall (V : NormedModule R_AbsRing) solve (f L : V -> V) Q h lam tol, affine f L -> 0 <= lam -> bounded L lam -> 0 < h -> h * lam <= 1 ->
  let q := ros2 (V := space _ V) solve f Q h in norm (minus (ros2_b (V := space _ V) f Q h) (ros2_A (V := space _ V) f Q h q)) <= tol ->
  norm (minus q (taylor 2 f L Q h)) <= lam ^ 2 * norm (f Q) / 2 * h ^ 3 + 2 * tol.
Proof. exact @ros2_order. Qed.
Print Assumptions C32_ros2.
Theorem C32_rosexp2 : forall (V : NormedModule R_AbsRing) pmex solve (ff fi Lf Li : V -> V) ffC fiC Q h lam t1 t2,
  affine ff Lf -> affine fi Li -> complexified ff Lf ffC -> complexified fi Li fiC -> 0 <= lam -> bounded Lf lam -> bounded Li lam -> 0 < h -> h * lam <= / 2 ->
  exponential pmex (fun v => scal h (minus (Lf v) (Li v))) t1 ->
  let q := rosexp2 (V := space _ V) pmex solve ff fi ffC fiC Q h in
  norm (minus (rosexp2_b (V := space _ V) pmex ff fi ffC fiC Q h) (matvec_rat (V := space _ V) q h Q (fi Q) fi)) <= t2 ->
  norm (minus q (taylor 2 ff Lf Q h)) <= 17 / 2 * lam ^ 2 * norm (ff Q) * h ^ 3 + 2 * h * t1 + 2 * t2.
Proof. exact @rosexp2_exp. Qed.
Print Assumptions C32_rosexp2.
Theorem C32_partrosexp2 : forall (V : NormedModule R_AbsRing) pmex solve (ff fi Lf Li : V -> V) ffC fiC Q h lam t1 t2,
  affine ff Lf -> affine fi Li -> complexified ff Lf ffC -> complexified fi Li fiC -> 0 <= lam -> bounded Lf lam -> bounded Li lam -> 0 < h -> h * lam <= / 2 ->
  exponential pmex (fun v => scal h (minus (Lf v) (Li v))) t1 ->
  let q := partrosexp2 (V := space _ V) pmex solve ff fi ffC fiC Q h in
  norm (minus (partrosexp2_b (V := space _ V) pmex ff fi ffC fiC Q h) (partrosexp2_A (V := space _ V) fiC Q h q)) <= t2 ->
  norm (minus q (taylor 2 ff Lf Q h)) <=
    lam ^ 2 * (norm (ff Q) / 2 + 4 * norm (fi Q) + 8 * norm (minus (ff Q) (fi Q))) * h ^ 3 + 2 * h * t1 + 2 * t2.
Proof. exact @partrosexp2_exp. Qed.
Print Assumptions C32_partrosexp2.
(** The simulation creates rosexp2 with the full right-hand side also as the implicit one (simulation.py): the exponential part then vanishes
    and the method is ros2. *)
Theorem C32_rosexp2_configured : forall (V : NormedModule R_AbsRing) pmex solve (f : V -> V) fC Q h, (forall J x, (forall v, J v = zero) -> pmex J zero x = x) ->
  rosexp2 (V := space _ V) pmex solve f f fC fC Q h = ros2 (V := space _ V) solve f Q h.
Proof. exact @rosexp2_same. Qed.
Print Assumptions C32_rosexp2_configured.

(** BDF2 with a correct previous value *)
Theorem C32_bdf2_partial : forall (V : NormedModule R_AbsRing) newton (f L : V -> V) n Q P h lam tol, affine f L -> 0 <= lam -> bounded L lam -> 0 < h -> h * lam <= 3 / 4 ->
  let q := snd (bdf2 (V := space _ V) newton f n (Some P) Q h) in small (bdf2_fun (V := space _ V) f Q P h) q tol ->
  norm (minus q (taylor 2 f L Q h)) <= 2 / 3 * lam ^ 2 * norm (f Q) * h ^ 3 + 2 / 3 * norm (minus P (taylor 2 f L Q (- h))) + 2 * h * tol.
Proof. exact @bdf2_order. Qed.
Print Assumptions C32_bdf2_partial.
(** Its start-up only covers half a step: for a constant right-hand side the result lags behind by up to 3/4 of a step for ever *)
Theorem C32_bdf2_lag : forall (V : NormedModule R_AbsRing) newton (c : V), solves_const newton c -> forall k Q0 h n, (1 <= k)%nat -> h <> 0 ->
  snd (iterate (bdf2 (V := space _ V) newton (fun _ => c) k) n None Q0 h) = plus Q0 (scal ((INR n - 3 / 4 * (1 - (1 / 3) ^ n)) * h) c).
Proof. exact @bdf2_const. Qed.
Print Assumptions C32_bdf2_lag.
Theorem C32_bdf2_start_refuted : exists newton, solves_const (V := R_NormedModule) newton 1 /\ forall k n h, (1 <= k)%nat -> (1 <= n)%nat -> h <> 0 ->
  snd (iterate (bdf2 (V := space _ R_NormedModule) newton (fun _ => 1) k) n None 0 h) <> INR n * h.
Proof. exact bdf2_start_wrong. Qed.
Print Assumptions C32_bdf2_start_refuted.
(** A change of the step size is not taken into account either *)
Theorem C32_bdf2_change_refuted : exists newton, solves_const (V := R_NormedModule) newton 1 /\ forall k Q h1 h2, h2 <> 0 -> h1 <> h2 ->
  snd (bdf2 (V := space _ R_NormedModule) newton (fun _ => 1) k (Some (Q - h1)) Q h2) <> Q + h2.
Proof. exact bdf2_change_wrong. Qed.
Print Assumptions C32_bdf2_change_refuted.

(** ** C32: operator splitting *)
Theorem C32_lie_calls : forall (V S1 S2 : Type) (step1 : S1 -> V -> R -> S1 * V) (step2 : S2 -> V -> R -> S2 * V) hs s1 l1 s2 l2 Q,
  let '((s1', l1'), (s2', l2')) := fst (run (lie (logged step1) (logged step2)) (s1, l1) (s2, l2) Q hs) in
  total l1' = total hs + total l1 /\ total l2' = total hs + total l2.
Proof. exact @lie_run. Qed.
Print Assumptions C32_lie_calls.
Theorem C32_strang_calls : forall (V S1 S2 : Type) (step1 : S1 -> V -> R -> S1 * V) (step2 : S2 -> V -> R -> S2 * V) hs s1 l1 s2 l2 Q,
  let '((s1', l1'), (s2', l2')) := fst (run (strang (logged step1) (logged step2)) (s1, l1) (s2, l2) Q hs) in
  total l1' = total hs + total l1 /\ total l2' = total hs + total l2.
Proof. exact @strang_run. Qed.
Print Assumptions C32_strang_calls.
Theorem C32_strang_one_step : forall (V S1 S2 : Type) (step1 : S1 -> V -> R -> S1 * V) (step2 : S2 -> V -> R -> S2 * V) s1 l1 s2 l2 Q dt,
  let '((s1', l1'), (s2', l2')) := fst (strang (logged step1) (logged step2) (s1, l1) (s2, l2) Q dt) in l1' = dt / 2 :: dt / 2 :: l1 /\ l2' = dt :: l2.
Proof. exact @strang_calls. Qed.
Print Assumptions C32_strang_one_step.
Theorem C32_os22_calls : forall (V S1 S2 : Type) (step1 : S1 -> V -> R -> S1 * V) (step2 : S2 -> V -> R -> S2 * V) p s1 l1 s2 l2 Q dt, p <> 1 ->
  let '((s1', l1'), (s2', l2')) := fst (os22 (logged step1) (logged step2) p (s1, l1) (s2, l2) Q dt) in
  total l1' = total l1 + dt /\ total l2' = total l2 + dt.
Proof. exact @os22_totals. Qed.
Print Assumptions C32_os22_calls.
Theorem C32_lie_order : forall (V : NormedModule R_AbsRing) (A B : V -> V), linear A -> linear B -> forall lam, 0 <= lam -> bounded A lam -> bounded B lam ->
  forall S1 S2 (step1 : S1 -> V -> R -> S1 * V) (step2 : S2 -> V -> R -> S2 * V), accurate 1 step1 A -> accurate 1 step2 B ->
  accurate 1 (fun s Q h => lie step1 step2 (fst s) (snd s) Q h) (fun y => plus (A y) (B y)).
Proof. exact (fun V A B LA LB lam Hl BA BB => @lie_accurate V A B LB lam Hl BA BB). Qed.
Print Assumptions C32_lie_order.
Theorem C32_strang_order : forall (V : NormedModule R_AbsRing) (A B : V -> V), linear A -> linear B -> forall lam, 0 <= lam -> bounded A lam -> bounded B lam ->
  forall S1 S2 (step1 : S1 -> V -> R -> S1 * V) (step2 : S2 -> V -> R -> S2 * V), accurate 2 step1 A -> accurate 2 step2 B ->
  accurate 2 (fun s Q h => strang step1 step2 (fst s) (snd s) Q h) (fun y => plus (A y) (B y)).
Proof. exact @strang_accurate. Qed.
Print Assumptions C32_strang_order.
Theorem C32_os22_order : forall (V : NormedModule R_AbsRing) (A B : V -> V), linear A -> linear B -> forall lam, 0 <= lam -> bounded A lam -> bounded B lam ->
  forall S1 S2 (step1 : S1 -> V -> R -> S1 * V) (step2 : S2 -> V -> R -> S2 * V) p, p <> 1 -> accurate 2 step1 A -> accurate 2 step2 B ->
  accurate 2 (fun s Q h => os22 step1 step2 p (fst s) (snd s) Q h) (fun y => plus (A y) (B y)).
Proof. exact @os22_accurate. Qed.
Print Assumptions C32_os22_order.

(** ** Concrete cases: the equation Q' = 1 - Q on the real line, split as -Q and 1 *)
Example C32_ex_affine : affine (V := R_NormedModule) (fun x => 1 - x) (fun x => - x) /\ bounded (V := R_NormedModule) (fun x => - x) 1 /\
  complexified (V := R_NormedModule) (fun x => 1 - x) (fun x => - x) (fun z => (1 - fst z, - snd z)).
Proof. exact ex_affine. Qed.
Example C32_ex_solvers : forall Q h, 0 < h -> h <= / 2 ->
  small (V := R_NormedModule) (cn_fun (V := space _ R_NormedModule) (fun x => 1 - x) Q h) (crank_nicolson (V := space _ R_NormedModule) secant (fun x => 1 - x) Q h) 0 /\
  small (V := R_NormedModule) (be_fun (V := space _ R_NormedModule) (fun x => 1 - x) Q h) (backward_euler (V := space _ R_NormedModule) secant (fun x => 1 - x) Q h) 0 /\
  (let g := imex_fun (V := space _ R_NormedModule) (fun _ => 1) (fun x => - x) Q h in small (V := R_NormedModule) g (secant g Q) 0) /\
  (forall P, let g := bdf2_fun (V := space _ R_NormedModule) (fun x => 1 - x) Q P h in small (V := R_NormedModule) g (secant g Q) 0) /\
  (let f := fun x => 1 - x in norm (V := R_NormedModule) (minus (ros2_b (V := space _ R_NormedModule) f Q h) (ros2_A (V := space _ R_NormedModule) f Q h
     (ros2 (V := space _ R_NormedModule) linear_secant f Q h))) <= 0).
Proof. exact ex_solvers. Qed.
Example C32_ex_accurate : accurate (V := R_NormedModule) (S := unit) 2 (fun s Q h => (s, Q - h * Q + h ^ 2 / 2 * Q)) (fun x => - x) /\
  accurate (V := R_NormedModule) (S := unit) 1 (fun s Q h => (s, Q - h * Q)) (fun x => - x).
Proof. exact ex_accurate. Qed.
Example C32_ex_exponential : forall h, h <> 0 -> exponential (V := R_NormedModule) exp_solver (fun v => h * (- v - 0 * v)) 0.
Proof. exact ex_exponential. Qed.
Example C32_ex_phi : forall Q h, phi (V := R_NormedModule) 1 (fun v => h * (- v - - v)) (1 - Q) (1 - Q).
Proof. exact ex_phi. Qed.
