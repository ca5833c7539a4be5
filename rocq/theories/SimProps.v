(** Properties C19 to C24, C26 and C53. *)
From Coq Require Import ZArith Reals List Bool Lia Lra Floats.SpecFloat.
From Verif Require Import TopologyModel SimModel SimSpec SimProofs.
Import ListNotations.
Local Open Scope R_scope.

(** C19: the announced number of steps is the number needed to reach t_end (none when it is not positive). *)
Theorem C19_announced : forall Q I (e : env R_arith Q I) d x i s n, 0 < d -> init e d x i = Some (s, n) ->
  ((0 <= n)%Z -> steps_needed (t_end e) d (starting_step e) n) /\ ((n <= 0)%Z -> t_end e <= d * IZR (starting_step e)).
Proof. intros Q I e d x i s n D E. exact (announced_needed (t_end e) d (starting_step e) n D (proj1 (init_eq e d x i s n E))). Qed.
Print Assumptions C19_announced.

(** C19: when nothing fails, run performs exactly the announced number of steps, each with the ideal size, and ends
    exactly at t_end. *)
Theorem C19_complete : forall Q I (e : env R_arith Q I) d x i s n, 0 < d -> init e d x i = Some (s, n) -> never_fails e ->
  exists s', run e (Z.to_nat n) s = Finished s' /\ length (calls s') = Z.to_nat n /\
    ideal_calls (t_end e) d (starting_step e) (calls s') /\
    ((0 < n)%Z -> t s' = t_end e /\ step_id s' = (starting_step e + n)%Z).
Proof. exact @run_complete. Qed.
Print Assumptions C19_complete.

(** C19: whatever the integrator does, run terminates, makes a prefix of the ideal calls, and stops early only after an
    exception or right after the first call that reports a failure. *)
Theorem C19_with_failures : forall Q I (e : env R_arith Q I) d x i s n, 0 < d -> init e d x i = Some (s, n) ->
  match run e (Z.to_nat n) s with
  | OutOfFuel => False
  | Error s' | Finished s' =>
      ideal_calls (t_end e) d (starting_step e) (calls s') /\ (length (calls s') <= Z.to_nat n)%nat /\
      step_id s' = (starting_step e + Z.of_nat (length (calls s')))%Z /\
      (calls s' <> [] -> t s' = time_at (t_end e) d (step_id s')) /\ (calls s' = [] -> t s' = t s) /\
      (forall before c, calls s' = before ++ [c] -> Forall (fun c => c_flag c = 0%Z) before)
  end /\ forall s', run e (Z.to_nat n) s = Finished s' -> length (calls s') = Z.to_nat n \/ exists before c, calls s' = before ++ [c] /\ c_flag c <> 0%Z.
Proof. exact @run_ok. Qed.
Print Assumptions C19_with_failures.

(** C19: each call of the integrator gets the state left by the previous one and the step size of the call; filters, NaN check
    and prescribed winds follow; an exception means a NaN after the last call.  (Over any arithmetic, for a writer that leaves
    the state alone.) *)
Theorem C19_states : forall A Q I (e : env A Q I) d x i s n fuel, (forall y, write_effect e y = y) -> init e d x i = Some (s, n) ->
  match run e fuel s with
  | Finished s' => evolves e i x (calls s') (integ s') (q s')
  | Error s' => exists cs c i1 x1 i2 x2, calls s' = cs ++ [c] /\ evolves e i x cs i1 x1 /\
                  integ_step e i1 x1 (c_dt c) = (i2, x2) /\ has_nan e (filters e x2 (c_dt c)) = true
  | OutOfFuel => True
  end.
Proof. intros A Q I e d x i s n fuel WE E. exact (run_states e WE i x d s n fuel E). Qed.
Print Assumptions C19_states.

(** A concrete simulation over the reals: t_end = 5/2, dt = 1, three steps *)
Definition ex_env (fr : freqs) : env R_arith R unit :=
  Build_env R_arith R unit (5 / 2) 0 (fun u x d => (u, x + d)) (fun _ => 0%Z) (fun x _ => x) (fun _ => false) (fun _ x => x) fr (fun x => x).
Example C19_ex : forall fr, never_fails (ex_env fr) /\ 0 < 1 /\ exists s, init (ex_env fr) 1 7 tt = Some (s, 3%Z).
Proof.
  intros fr. split; [split; reflexivity|]. split; [lra|]. unfold init. destruct (output_step _ _ _ _ _ _ _) as [o q1].
  cbn [t_end starting_step ex_env ceil_div R_arith num]. destruct (Req_EM_T 1 0) as [|_]; [lra|]. eexists. do 2 f_equal.
  rewrite Z.sub_0_r. apply Flocq.Core.Raux.Zceil_imp. cbn. lra.
Qed.

(** With binary64 times the announced number can be wrong: t_end = 1.0 and dt = 0.1 announce 10 steps, 11 are made. *)
Theorem C19_float_count_refuted : exists (e : env f64_arith Z unit) d s n s', never_fails e /\ t_end e = f64_of_int 1 /\ d = f64_tenth /\
  init e d 0%Z tt = Some (s, n) /\ n = 10%Z /\ run e 20 s = Finished s' /\ length (calls s') = 11%nat /\ step_id s' = 11%Z.
Proof. exact float_step_count. Qed.
Print Assumptions C19_float_count_refuted.

(** dt = 0 (allowed by the schema) makes the constructor raise. *)
Theorem C19_zero_dt_refuted : exists (e : env f64_arith Z unit) x, init e (S754_zero false) x tt = None.
Proof. exists (counter_env (f64_of_int 1) 0 no_output), 0%Z. reflexivity. Qed.
Print Assumptions C19_zero_dt_refuted.

(** C20 is false of every simulation that makes at least one step: the second run makes no step at all. *)
Theorem C20_second_run_does_nothing : forall Q I (e : env R_arith Q I) d x i s n,
  0 < d -> init e d x i = Some (s, n) -> never_fails e -> (0 < n)%Z ->
  exists s1 s2, run e (Z.to_nat n) s = Finished s1 /\ length (calls s1) = Z.to_nat n /\
    run e (Z.to_nat n) s1 = Finished s2 /\ calls s2 = calls s1 /\ step_id s2 = starting_step e.
Proof. exact @rerun. Qed.
Print Assumptions C20_second_run_does_nothing.
Theorem C20_rerun_refuted : exists (e : env f64_arith Z unit) d s n s1 s2, never_fails e /\ init e d 0%Z tt = Some (s, n) /\ n = 2%Z /\
  run e 5 s = Finished s1 /\ q s1 = 2%Z /\ run e 5 s1 = Finished s2 /\ q s2 = 0%Z.
Proof. exact rerun_example. Qed.
Print Assumptions C20_rerun_refuted.

(** C21: for a one-step integrator (and an output writer that leaves the state alone), restarting from the state saved at
    step k gives the same times, step sizes, step numbers and states as the uninterrupted run, for every later step. *)
Theorem C21_restart : forall Q I (e : env R_arith Q I) d x i s n k s1 fr,
  0 < d -> starting_step e = 0%Z -> memoryless e -> (forall y, write_effect e y = y) ->
  init e d x i = Some (s, n) -> steps e k s s1 -> d * IZR (Z.of_nat k) <= t_end e ->
  (0 < save_state_freq (out_freqs e))%Z -> (exists m, Z.of_nat k = (m * save_state_freq (out_freqs e))%Z) ->
  exists y, In (Saved (Z.of_nat k) y) (world (out s1)) /\
    forall i2, exists s2, init (restarted e (Z.of_nat k) fr) d y i2 = Some (s2, n - Z.of_nat k)%Z /\ same_trajectory s1 s2 /\
      forall m s1', steps e m s1 s1' -> exists s2', steps (restarted e (Z.of_nat k) fr) m s2 s2' /\ same_trajectory s1' s2'.
Proof. exact @restart_ok. Qed.
Print Assumptions C21_restart.
Example C21_ex : let e := ex_env {| output_freq := 0; save_state_freq := 2; stat_freq := 0 |} in
  memoryless e /\ exists s s2, init e 1 7 tt = Some (s, 3%Z) /\ steps e 2 s s2 /\ 1 * IZR (Z.of_nat 2) <= t_end e.
Proof.
  intros e. split; [intros i i' x d; split; reflexivity|]. destruct (C19_ex {| output_freq := 0; save_state_freq := 2; stat_freq := 0 |}) as [_ [_ [s E]]].
  destruct (init_eq _ _ _ _ _ _ E) as [_ [Et [Ed _]]]. cbn [starting_step ex_env] in Et.
  exists s. assert (S1 : step e s = Going (next_sim e s)).
  { rewrite step_eq. rewrite Et. cbn [t_end ex_env e ltb R_arith]. destruct (Rlt_dec (1 * 0) (5 / 2)); [reflexivity|lra]. }
  assert (N1 : next_time e s = 1 /\ next_dt e s = 1).
  { unfold next_time, next_dt. rewrite Et, Ed. cbn [t_end ex_env e ltb R_arith add num]. destruct (Rlt_dec (5 / 2) (1 * 0 + 1)); [lra|]. split; [ring|reflexivity]. }
  assert (S2 : step e (next_sim e s) = Going (next_sim e (next_sim e s))).
  { rewrite step_eq. cbn [t next_sim]. rewrite (proj1 N1). cbn [t_end ex_env e ltb R_arith]. destruct (Rlt_dec 1 (5 / 2)); [reflexivity|lra]. }
  exists (next_sim e (next_sim e s)). split; [exact E|]. split; [econstructor; [exact S1|econstructor; [exact S2|constructor]]|]. cbn. lra.
Qed.
(** In binary64 the restarted time step * dt differs from the accumulated time, and so does the number of steps. *)
Theorem C21_float_restart_refuted : exists (e : env f64_arith Z unit) d s n s' s2 n2 s2', memoryless e /\ (forall x, write_effect e x = x) /\ never_fails e /\
  starting_step e = 0%Z /\ init e d 0%Z tt = Some (s, n) /\ run e 20 s = Finished s' /\
  In (Saved 10%Z 10%Z) (world (out s')) /\ init (restarted e 10 no_output) d 10%Z tt = Some (s2, n2) /\
  run (restarted e 10 no_output) 20 s2 = Finished s2' /\ t s' = t s2' /\ step_id s' = 11%Z /\ step_id s2' = 10%Z /\ q s' <> q s2'.
Proof. exact float_restart. Qed.
Print Assumptions C21_float_restart_refuted.
(** A multistep integrator loses its history: the restarted run takes another trajectory. *)
Theorem C21_multistep_restart_refuted : exists (e : env f64_arith Z (option Z)) d s n s' s2 n2 s2', (forall x, write_effect e x = x) /\ never_fails e /\
  starting_step e = 0%Z /\ init e d 0%Z None = Some (s, n) /\ run e 20 s = Finished s' /\
  In (Saved 2%Z 4%Z) (world (out s')) /\ init (restarted e 2 no_output) d 4%Z None = Some (s2, n2) /\
  run (restarted e 2 no_output) 20 s2 = Finished s2' /\ t s' = t s2' /\ step_id s' = step_id s2' /\ q s' <> q s2'.
Proof. exact multistep_restart. Qed.
Print Assumptions C21_multistep_restart_refuted.
(** A missing or unreadable state file: the run starts from step 0 with the initial state. *)
Theorem C21_fallback : forall Q (cfg : Z) (load : option Q) initial,
  (determine_starting_state cfg load initial = (initial, 0%Z) /\ ((cfg <= 0)%Z \/ load = None)) \/
  (exists y, (0 < cfg)%Z /\ load = Some y /\ determine_starting_state cfg load initial = (y, cfg)).
Proof.
  intros Q cfg load initial. unfold determine_starting_state. destruct (Z.ltb_spec 0 cfg); [|left; auto]. destruct load as [y|]; [right; eauto|left; auto].
Qed.
Print Assumptions C21_fallback.

(** C22, for each of the three actions *)
Theorem C22_output_schedule : forall A Q I (e : env A Q I) d x i s n fuel s', init e d x i = Some (s, n) -> run e fuel s = Finished s' ->
  let o := out s' in let fr := out_freqs e in
  multiples_between (output_freq fr) (starting_step e) (step_id s') (wrote_at (world o)) /\
  multiples_between (save_state_freq fr) (starting_step e) (step_id s') (saved_at (world o)) /\
  multiples_between (stat_freq fr) (starting_step e) (step_id s') (stats_at (world o)) /\
  num_writes o = Z.of_nat (length (wrote_at (world o))) /\ num_save_states o = Z.of_nat (length (saved_at (world o))) /\
  num_blockstats o = Z.of_nat (length (stats_at (world o))).
Proof. exact @output_schedule. Qed.
Print Assumptions C22_output_schedule.
Example C22_ex : exists s n s', let e := counter_env (f64_of_int 5) 0 {| output_freq := 2; save_state_freq := 0; stat_freq := 3 |} in
  init e (f64_of_int 1) 0%Z tt = Some (s, n) /\ run e 9 s = Finished s' /\ wrote_at (world (out s')) = [0; 2; 4]%Z /\ stats_at (world (out s')) = [0; 3]%Z.
Proof.
  cbv zeta. set (e := counter_env _ _ _).
  assert (C : match init e (f64_of_int 1) 0%Z tt with Some (s, n) => match run e 9 s with Finished s' => (wrote_at (world (out s')), stats_at (world (out s'))) | _ => ([], []) end | None => ([], []) end = ([0; 2; 4], [0; 3])%Z) by (vm_compute; reflexivity).
  destruct (init e (f64_of_int 1) 0%Z tt) as [[s n]|]; [|discriminate]. destruct (run e 9 s) as [s'| |] eqn:R; try discriminate. injection C as C1 C2.
  exists s, n, s'. repeat split; assumption.
Qed.

(** C23: if writing leaves the state alone, the output options do not influence the simulation. *)
Theorem C23_output_independent : forall A Q I (e : env A Q I) fr, (forall x, write_effect e x = x) -> forall d x i,
  match init e d x i, init (with_freqs e fr) d x i with
  | Some (s1, n1), Some (s2, n2) => n1 = n2 /\ forall fuel, twins (run e fuel s1) (run (with_freqs e fr) fuel s2)
  | None, None => True
  | _, _ => False
  end.
Proof.
  intros A Q I e fr WE d x i. pose proof (twin_init e fr WE d x i) as H. unfold with_freqs in *. destruct (init e d x i) as [[s1 n1]|], (init (restarted e (starting_step e) fr) d x i) as [[s2 n2]|]; try exact H.
  destruct H as [H1 H2]. split; [exact H1|]. intros fuel. apply twin_run; assumption.
Qed.
Print Assumptions C23_output_independent.
(** C23: the netCDF writer leaves a shallow-water state alone exactly when there is no topography (or it is zero). *)
Theorem C23_netcdf_no_topography : forall hs (x : sw_state), netcdf_write_effect hs x = x <->
  (forall l, hs = Some l -> forall i a b, nth_error (sw_h x) i = Some a -> nth_error l i = Some b -> b = 0).
Proof. exact netcdf_unchanged. Qed.
Print Assumptions C23_netcdf_no_topography.
(** With topography the state depends on whether output is written. *)
Theorem C23_netcdf_refuted : exists s1 n1 s2 n2 s1' s2',
  init (lake_env no_output) (f64_of_int 1) lake tt = Some (s1, n1) /\ init (lake_env write_every_step) (f64_of_int 1) lake tt = Some (s2, n2) /\
  run (lake_env no_output) 5 s1 = Finished s1' /\ run (lake_env write_every_step) 5 s2 = Finished s2' /\ q s1' <> q s2'.
Proof. exact output_changes_state. Qed.
Print Assumptions C23_netcdf_refuted.

(** C24: listed process counts are accepted by the process topology and divide the elements evenly. *)
Theorem C24_listed_counts_work : forall n size, (1 <= n)%Z -> In size (allowed_pe_counts n) -> bad_size size = false /\
  exists m, adjust_num_elements n size = Some m /\ (1 <= m)%Z /\ n = (num_lines_per_panel size * m)%Z.
Proof. exact allowed_good. Qed.
Print Assumptions C24_listed_counts_work.
(** Exactly these counts are listed: one element per tile side is excluded, unless there is a single element per panel side. *)
Theorem C24_exact : forall n size, (1 <= n)%Z ->
  (In size (allowed_pe_counts n) <-> exists k, (1 <= k)%Z /\ size = (6 * k * k)%Z /\ Z.divide k n /\ ((k < n)%Z \/ n = 1%Z)).
Proof. exact allowed_exact. Qed.
Print Assumptions C24_exact.
Theorem C24_others_refused : forall n size, ~ In size (allowed_pe_counts n) -> adjust_num_elements n size = None.
Proof. exact adjust_refuses. Qed.
Print Assumptions C24_others_refused.
Example C24_ex : allowed_pe_counts 12 = [6; 24; 54; 96; 216]%Z /\ adjust_num_elements 12 54 = Some 4%Z.
Proof. split; reflexivity. Qed.
Theorem C24_all_listed_refuted : exists n size, (1 <= n)%Z /\ bad_size size = false /\ Z.divide (num_lines_per_panel size) n /\ ~ In size (allowed_pe_counts n).
Proof. exists 2%Z, 24%Z. split; [lia|]. split; [reflexivity|]. split; [exists 1%Z; reflexivity|]. vm_compute. intros [H|[]]; discriminate H. Qed.
Print Assumptions C24_all_listed_refuted.

(** C26 up to 1000 s: a value and a unit whose product is the duration *)
Theorem C26_short_durations_partial : forall x, value_of x <= 1000 -> exists r, readable_time x = Some r /\
  match r with Zero => value_of x = 0 | Short v _ u => v * u = value_of x | Clock _ _ _ => False end.
Proof. exact readable_ok. Qed.
Print Assumptions C26_short_durations_partial.
Example C26_ex : value_of (PyFloat (1 / 2)) <= 1000.
Proof. cbn. lra. Qed.
(** Every float duration above 1000 s raises ValueError; an integer one is shown without its minutes and seconds. *)
Theorem C26_long_durations_refuted : forall x, 1000 < x -> readable_time (PyFloat x) = None.
Proof. exact readable_fails. Qed.
Print Assumptions C26_long_durations_refuted.
Theorem C26_integer_clock_refuted : forall n, (1000 < n)%Z -> readable_time (PyInt n) = Some (Clock (n / 3600) 0 0).
Proof. exact readable_int_wrong. Qed.
Print Assumptions C26_integer_clock_refuted.

(** C53: the time coordinate of dynamic output is the model time, except for a shortened last step. *)
Theorem C53_time_stamps : forall Q I (e : env R_arith Q I) d x i s n s' k st y, 0 < d -> init e d x i = Some (s, n) -> run e (Z.to_nat n) s = Finished s' ->
  In (Wrote k st y) (world (out s')) ->
  (k = starting_step e /\ st = d * IZR k) \/
  ((starting_step e < k)%Z /\ (d * IZR k <= t_end e -> st = d * IZR k) /\
   (t_end e < d * IZR k -> st = (t_end e - d * IZR (k - 1)) * IZR k /\ t_end e - st = (IZR k - 1) * (d * IZR k - t_end e))).
Proof. exact @stamps. Qed.
Print Assumptions C53_time_stamps.
(** t_end = 5/2, dt = 1: the last output is at step 3, model time 5/2, and is stamped 3/2. *)
Theorem C53_last_stamp_refuted : exists (e : env R_arith R unit) d x s n s', 0 < d /\ never_fails e /\ init e d x tt = Some (s, n) /\ run e (Z.to_nat n) s = Finished s' /\
  exists st y, In (Wrote (step_id s') st y) (world (out s')) /\ st <> t s'.
Proof.
  set (fr := {| output_freq := 1; save_state_freq := 0; stat_freq := 0 |}). destruct (C19_ex fr) as [NF [D [s E]]].
  destruct (C19_complete _ _ _ _ _ _ _ _ D E NF) as [s' [R [_ [_ T]]]]. destruct (T ltac:(lia)) as [T1 T2]. cbn [starting_step ex_env] in T2.
  exists (ex_env fr), 1, 7, s, 3%Z, s'. split; [exact D|]. split; [exact NF|]. split; [exact E|]. split; [exact R|].
  destruct (output_schedule _ _ _ _ _ _ _ _ E R) as [[_ M] _]. assert (IN : In (step_id s') (wrote_at (world (out s')))).
  { apply M. cbn. split; [lia|]. split; [rewrite T2; lia|]. exists (step_id s'). lia. }
  apply in_flat_map in IN. destruct IN as [ev [H1 H2]]. destruct ev as [k st y|k y|k y]; cbn in H2; [|contradiction|contradiction]. destruct H2 as [->|[]].
  exists st, y. split; [exact H1|]. destruct (stamps _ _ _ _ _ _ _ _ _ _ D E R H1) as [[K _]|[_ [_ K]]].
  - rewrite T2 in K. discriminate.
  - rewrite T1. cbn [t_end ex_env] in *. rewrite T2 in K. change (0 + 3)%Z with 3%Z in K. change (3 - 1)%Z with 2%Z in K. destruct K as [K _]; [lra|]. rewrite K. cbn [num R_arith]. lra.
Qed.
Print Assumptions C53_last_stamp_refuted.
