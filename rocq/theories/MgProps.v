(** C49, C50, C70 *)
From Coq Require Import Reals List Bool Arith Lia Lra Psatz.
From Coquelicot Require Import Hierarchy.
From Verif Require Import InnerSpec InnerFacts VecTac GcrotCases FgmresModel FgmresFacts FgmresOuter SmoothModel SmoothProofs MgModel MgSpec MgProofs MgLinear.
Import ListNotations.
Local Open Scope nat_scope.

(** C49. Levels of the finite volume hierarchy: the orders halve from the largest power of two that is not larger than the order of the scheme down to 1, the numbers of elements are the configured ones times the order *)
Theorem C49_levels_fv : forall s n i, 1 <= s -> i < max_num_levels Fv s ->
  let order i := nth i (orders Fv false s) 0 in let hori i := nth i (elem_counts_hori Fv false n s) 0 in let vert i := nth i (elem_counts_vert Fv false n s) 0 in
  order 0 <= s < 2 * order 0 /\ 1 <= order i /\ (S i < max_num_levels Fv s -> order i = 2 * order (S i)) /\ (S i = max_num_levels Fv s -> order i = 1 /\ order (S i) = 0) /\ hori i = n * order i /\ vert i = n * order i.
Proof.
  intros s n i Hs Hi order hori vert. unfold order, hori, vert. rewrite hori_count, vert_count by (cbn in *; lia). cbn [max_num_levels] in *. rewrite !order_fv by lia. rewrite Nat.sub_0_r.
  destruct (Nat.log2_spec s) as [L1 L2]; [lia|]. cbn [Nat.pow] in L2. split; [lia|]. split; [apply Nat.neq_0_lt_0, Nat.pow_nonzero; lia|]. split; [|split; [|auto]].
  - intros H. rewrite order_fv by lia. replace (Nat.log2 s - i) with (S (Nat.log2 s - S i)) by lia. reflexivity.
  - intros H. replace i with (Nat.log2 s) by lia. rewrite Nat.sub_diag. split; [reflexivity|]. rewrite <- Nat.add_1_r. apply order_fv_end.
Qed.
Print Assumptions C49_levels_fv.
(** levels of the hierarchy of orders (p-multigrid): one order less on each level, down to 1, same elements *)
Theorem C49_levels_dg : forall s n i, i < max_num_levels Dg s ->
  let order i := nth i (orders Dg false s) 0 in order i = s - i /\ 1 <= order i /\ order (S i) = order i - 1 /\ nth i (elem_counts_hori Dg false n s) 0 = n /\ nth i (elem_counts_vert Dg false n s) 0 = n.
Proof.
  intros s n i Hi order. unfold order. assert (E1 : nth i (elem_counts_hori Dg false n s) 0 = n) by (rewrite hori_count; [reflexivity|cbn in Hi; lia|lia]).
  assert (E2 : nth i (elem_counts_vert Dg false n s) 0 = n) by (rewrite vert_count; [reflexivity|lia]). cbn [max_num_levels] in Hi. rewrite !order_dg by lia. lia.
Qed.
Print Assumptions C49_levels_dg.
(** the parameters of the smoother per level: the last one is repeated; an empty list raises *)
Theorem C49_parameters : forall (T : Type) (l : list T) n, (forall l', extended_list l n = Some l' -> length l' = n /\ forall i d, i < n -> nth i l' d = nth (Nat.min i (length l - 1)) l d) /\ (extended_list l n = None <-> l = [] /\ 1 <= n).
Proof. intros. split; [intros l'; apply extended_ok|apply extended_none]. Qed.
Print Assumptions C49_parameters.
Example C49_levels_example : orders Fv false 6 = [4; 2; 1; 0] /\ elem_counts_hori Fv false 10 6 = [40; 20; 10; 0] /\ orders Dg false 4 = [4; 3; 2; 1; 0].
Proof. vm_compute. auto. Qed.
(** whatever the operators, the smoothers and the solver on the coarsest level do, one application is a V-cycle over the levels of the hierarchy *)
Theorem C49_v_cycle : forall V A pre post restrict prolong num_pre num_post use_solver solver num_levels b x0 x t, 1 <= num_levels ->
  apply V A pre post restrict prolong num_pre num_post use_solver solver num_levels b x0 = Some (x, t) -> t = v_cycle num_pre num_post use_solver (num_levels - 1).
Proof. intros V A pre post restrict prolong np nq u solver L b x0 x t HL H. rewrite (iterate_shape A pre post restrict prolong np nq u solver 1 _ _ _ _ _ _ H), shape_v. reflexivity. Qed.
Print Assumptions C49_v_cycle.
Theorem C49_num_levels : forall d fv_only requested s, 1 <= s -> 1 <= requested -> let n := num_mg_levels d fv_only requested s in
  1 <= n <= max_num_levels d s /\ n <= requested /\ (d = Fv -> fv_only = true -> n = 1) /\ (d = Dg \/ fv_only = false -> n = requested \/ n = max_num_levels d s).
Proof. intros d f r s Hs Hr. unfold num_mg_levels. cbv zeta. assert (1 <= max_num_levels d s) by (destruct d; cbn; lia). destruct d, f; repeat split; intros; try discriminate; try lia; destruct H0; try discriminate; lia. Qed.
Print Assumptions C49_num_levels.
(** gamma passes on each next level (a W-cycle for 2): level l is visited gamma^l times, with the requested smoothing in each visit; the levels visited form a walk that starts and ends on the finest one *)
Theorem C49_visits : forall V A pre post restrict prolong num_pre num_post use_solver solver gamma last b x0 x t,
  iterate V A pre post restrict prolong num_pre num_post use_solver solver gamma last 0 b x0 = Some (x, t) ->
  walk 0 t 0 /\ forall l, times (Pre l) t = (if Nat.leb l last then num_pre * gamma ^ l else 0) /\ times (Post l) t = (if Nat.leb l last then num_post * gamma ^ l else 0) /\
    times (Restrict l) t = (if Nat.ltb l last then gamma ^ l else 0) /\ times (Prolong l) t = (if Nat.ltb l last then gamma ^ l else 0) /\ times (Solve l) t = (if use_solver && Nat.eqb l last then gamma ^ l else 0).
Proof.
  intros V A pre post restrict prolong np nq u solver gamma last b x0 x t H. rewrite (iterate_shape A pre post restrict prolong np nq u solver gamma _ _ _ _ _ _ H). split; [apply shape_walk|].
  intros l. pose proof (fun e => shape_times np nq u gamma last 0 e) as T. exact (conj (T (Pre l)) (conj (T (Post l)) (conj (T (Restrict l)) (conj (T (Prolong l)) (T (Solve l)))))).
Qed.
Print Assumptions C49_visits.

Local Open Scope R_scope.
(** C50. A solution of numbers is never worse than the initial guess *)
Theorem C50_partial : forall (V : ModuleSpace R_Ring) (dot : V -> V -> R) (A : V -> V) (norm1 : V -> R) radius expm niter target dt b x0 y, A zero = zero ->
  exponential dot A norm1 radius expm niter target dt b x0 = Some y -> norm dot (plus b (opp (A y))) <= norm dot (plus b (opp (A match x0 with None => zero | Some x => x end))).
Proof. intros V dot A norm1 radius expm. exact (exponential_no_worse dot A norm1 radius expm). Qed.
Print Assumptions C50_partial.
(** starting from a guess is correcting it: the smoother adds to the guess what it returns for the residual without a guess *)
Theorem C50_correction : forall (V : ModuleSpace R_Ring) (dot : V -> V -> R) (A : V -> V) (norm1 : V -> R) radius expm niter target dt b x, linear_map A ->
  exponential dot A norm1 radius expm niter target dt b (Some x) = match exponential dot A norm1 radius expm niter target dt (plus b (opp (A x))) None with Some d => Some (plus d x) | None => None end.
Proof. intros V dot A norm1 radius expm. exact (exponential_shift dot A norm1 radius expm). Qed.
Print Assumptions C50_correction.
(** a guess that solves the system is replaced by NaN: the projected matrix is zero, so that the length of the step is the target divided by zero *)
Theorem C50_refuted : forall (V : ModuleSpace R_Ring) (dot : V -> V -> R) (A : V -> V) (norm1 : V -> R) radius expm, scalar_product dot -> A zero = zero -> norm1 zero = 0 ->
  (forall n m, (forall i l, (i < n)%nat -> (l < n)%nat -> m i l = 0) -> radius n m = 0) ->
  forall niter target dt b x0, (1 <= niter)%nat -> b = A match x0 with None => zero | Some x => x end -> exponential dot A norm1 radius expm niter target dt b x0 = None.
Proof. intros V dot A norm1 radius expm. exact (exponential_nan dot A norm1 radius expm). Qed.
Print Assumptions C50_refuted.
(** the hypotheses of both are met: the system 2 x = 6 *)
Example C50_refuted_example : exponential (V := R_ModuleSpace) Rmult (Rmult 2) Rabs (fun n m => rsum n (fun i => rsum n (fun l => Rabs (m i l)))) (fun _ _ _ _ => 1) 4 2 1 6 (Some 3) = None.
Proof.
  apply (C50_refuted R_ModuleSpace Rmult (Rmult 2) Rabs _ (fun _ _ _ _ => 1) line_product).
  - unfold zero. cbn. ring.
  - exact Rabs_R0.
  - intros n m H. apply rsum_zero. intros i Hi. apply rsum_zero. intros l Hl. rewrite H by assumption. apply Rabs_R0.
  - lia.
  - cbv beta iota. change (6 = 2 * 3 :> R). ring.
Qed.
Example C50_example : exists y, exponential (V := R_ModuleSpace) Rmult (Rmult 2) Rabs (fun _ _ => 1) (fun _ _ _ _ => 1) 4 2 1 6 (Some 1) = Some y.
Proof. unfold exponential, candidate. cbv zeta beta. destruct (passes _ _ _ _ _ _ _) as [S j]. destruct (Req_EM_T 1 0) as [E|_]; [lra|]. destruct (Rlt_dec _ _); eexists; reflexivity. Qed.

(** C70. A pass keeps a solution of the finest system, on any number of levels, with linear operators, transfers and smoothers; with the solver on the coarsest level (which returns zero for a zero system, C35_zero_rhs) when there are two levels or more *)
Theorem C70_keeps : forall (V : nat -> ModuleSpace R_Ring) A pre post restrict prolong num_pre num_post use_solver solver gamma,
  (forall l, linear_map (A l)) -> (forall l, linear_smoother (pre l)) -> (forall l, linear_smoother (post l)) -> (forall l, linear_between (restrict l)) -> (forall l, linear_between (prolong l)) -> (1 <= gamma)%nat ->
  (use_solver = true -> forall l, solver l zero zero = Some zero) -> keeps_solutions (A 0%nat) (pre 0%nat) -> keeps_solutions (A 0%nat) (post 0%nat) ->
  forall last b x, A 0%nat x = b -> use_solver = false \/ (1 <= last)%nat -> exists t, iterate V A pre post restrict prolong num_pre num_post use_solver solver gamma last 0 b (Some x) = Some (x, t).
Proof. intros V A pre post r p np nq u solver gamma LA L1 L2 Lr Lp G Hs K1 K2. exact (pass_keeps A pre post r p np nq solver gamma LA L1 L2 Lr Lp G u Hs K1 K2). Qed.
Print Assumptions C70_keeps.
(** a pass is a linear function of the right-hand side and of the guess, no guess counting as zero: a fixed matrix, as preconditioned Krylov methods assume *)
Theorem C70_linear : forall (V : nat -> ModuleSpace R_Ring) A pre post restrict prolong num_pre num_post solver gamma,
  (forall l, linear_map (A l)) -> (forall l, linear_smoother (pre l)) -> (forall l, linear_smoother (post l)) -> (forall l, linear_between (restrict l)) -> (forall l, linear_between (prolong l)) -> (1 <= gamma)%nat ->
  forall last, exists f : V 0%nat -> V 0%nat -> V 0%nat,
    (forall b x, exists t, iterate V A pre post restrict prolong num_pre num_post false solver gamma last 0 b (Some x) = Some (f b x, t)) /\
    (forall b, exists t, iterate V A pre post restrict prolong num_pre num_post false solver gamma last 0 b None = Some (f b zero, t)) /\
    (forall b c x y, f (plus b c) (plus x y) = plus (f b x) (f c y)) /\ (forall a b x, f (scal (V := V 0%nat) a b) (scal (V := V 0%nat) a x) = scal (V := V 0%nat) a (f b x)).
Proof.
  intros V A pre post r p np nq solver gamma LA L1 L2 Lr Lp G last. destruct (pass_linear A pre post r p np nq solver gamma LA L1 L2 Lr Lp G last 0%nat) as (f & [F1 F2] & Hf).
  exists f. split; [intros b x; exact (Hf b (Some x))|]. split; [intros b; exact (Hf b None)|]. split; assumption.
Qed.
Print Assumptions C70_linear.
(** the error after a pass is the pass for a zero right-hand side applied to the error before: it does not depend on the right-hand side *)
Theorem C70_error : forall (V : nat -> ModuleSpace R_Ring) A pre post restrict prolong num_pre num_post solver gamma,
  (forall l, linear_map (A l)) -> (forall l, linear_smoother (pre l)) -> (forall l, linear_smoother (post l)) -> (forall l, linear_between (restrict l)) -> (forall l, linear_between (prolong l)) -> (1 <= gamma)%nat ->
  keeps_solutions (A 0%nat) (pre 0%nat) -> keeps_solutions (A 0%nat) (post 0%nat) ->
  forall last b x xs, A 0%nat xs = b -> exists x' t t', iterate V A pre post restrict prolong num_pre num_post false solver gamma last 0 b (Some x) = Some (x', t) /\
    iterate V A pre post restrict prolong num_pre num_post false solver gamma last 0 zero (Some (plus x (opp xs))) = Some (plus x' (opp xs), t').
Proof. intros V A pre post r p np nq solver gamma LA L1 L2 Lr Lp G K1 K2. exact (pass_error A pre post r p np nq solver gamma LA L1 L2 Lr Lp G K1 K2). Qed.
Print Assumptions C70_error.
(** the smoothers erk1 and erk3 are such smoothers *)
Theorem C70_smoothers : forall (V : ModuleSpace R_Ring) (h A : V -> V), linear_map h -> linear_map A ->
  let erk1 := fun b x => Some (rk1 h A b x) in let erk3 := fun b x => Some (rk3 h A b x) in linear_smoother erk1 /\ keeps_solutions A erk1 /\ linear_smoother erk3 /\ keeps_solutions A erk3.
Proof. intros V h A Lh LA. exact (conj (rk1_linear h A Lh LA) (conj (rk1_keeps h A Lh) (conj (rk3_linear h A Lh LA) (rk3_keeps h A Lh)))). Qed.
Print Assumptions C70_smoothers.
(** two levels on the real line, A = 2 on the finest, 1 on the coarse one *)
Example C70_example : let A l := if Nat.eqb l 0 then Rmult 2 else id_line in let s l := fun b x => Some (rk3 (V := R_ModuleSpace) (Rmult (1 / 10)) (A l) b x) in
  (forall l, linear_map (V := R_ModuleSpace) (A l)) /\ (forall l, linear_smoother (V := R_ModuleSpace) (s l)) /\ keeps_solutions (V := R_ModuleSpace) (A 0%nat) (s 0%nat) /\ linear_between (V := R_ModuleSpace) (W := R_ModuleSpace) (Rmult (1 / 2)).
Proof.
  intros A s. assert (L : forall l, linear_map (V := R_ModuleSpace) (A l)) by (intros l; unfold A; destruct (Nat.eqb l 0); [apply line_scale|exact line_id]). split; [exact L|].
  pose proof (fun l => C70_smoothers R_ModuleSpace (Rmult (1 / 10)) (A l) (line_scale (1 / 10)) (L l)) as S. split; [intros l; exact (proj1 (proj2 (proj2 (S l))))|]. split; [exact (proj2 (proj2 (proj2 (S 0%nat))))|apply (line_scale (1 / 2))].
Qed.
(** ark3 solves another system: its two operators add up to the identity minus dt^2 / 2 times the Jacobian, not dt / 2 times. It keeps the solutions of the system when dt = 1 *)
Theorem C70_ark3_partial : forall (V : ModuleSpace R_Ring) (h J Jc : V -> V), linear_map h -> keeps_solutions (matvec_rat 1 J) (fun b x => Some (ark3 h (a_conv 1 Jc) (a_visc 1 Jc J) b x)).
Proof. intros V h J Jc Lh. exact (ark3_keeps h _ _ _ Lh (ark3_unit_step J Jc)). Qed.
Print Assumptions C70_ark3_partial.
(** for any other step there are Jacobians (here the identity) and pseudo time steps for which it moves away from the solution x = 1 *)
Theorem C70_ark3_refuted : forall dt, dt <> 0 -> dt <> 1 -> exists k, 0 < k /\ ark3 (V := R_ModuleSpace) (Rmult k) (a_conv (V := R_ModuleSpace) dt (fun _ => 0)) (a_visc (V := R_ModuleSpace) dt (fun _ => 0) id_line) (matvec_rat (V := R_ModuleSpace) dt id_line 1) (Some 1) <> 1.
Proof. exact ark3_wrong. Qed.
Print Assumptions C70_ark3_refuted.
