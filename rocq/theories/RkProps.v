(** C31: step size control of the adaptive Runge-Kutta methods; C54: the exponential solver built on them. *)
From Coq Require Import Reals List Bool Lra Lia String.
From Coquelicot Require Import Hierarchy.
From Verif Require Import RkModel RkSpec RkProofs.
Import ListNotations.
Notation length := List.length.
Local Open Scope R_scope.

(** C31: a step of a running solver either fails, leaving time and solution alone, or advances the time by hu > 0, not past
    t_bound, with an error estimate below 1, by one step of the Runge-Kutta formula; it never raises (given enough fuel). *)
Theorem C31_step : forall (V : ModuleSpace R_Ring) (s : solver V) t0 y0 fuel st, sound s -> roomy s t0 -> shaped (tab s) -> t0 < t_bound s ->
  reachable s fuel t0 y0 st -> stat st = Running ->
  match step s fuel st with
  | Some st' =>
      t st <= t st' <= t_bound s /\ (stat st' = Finished <-> t st' = t_bound s) /\
      ((stat st' = Failed /\ t st' = t st /\ y st' = y st) \/
       (stat st' <> Failed /\ exists hu x, 0 < hu /\ h_min_b s <= hu /\ t st' = t st + hu /\ error_norm s (t st) hu (y st) (f st) = Fin x /\ x < 1 /\
          rk_step (n_stages (tab s)) (fun i j => nth j (nth i (tA (tab s)) []) 0) (fun j => nth j (tB (tab s)) 0) (fun i => nth i (tC (tab s)) 0)
            (fun_ s) (t st) hu (y st) (f st) (y st')))
  | None => ~ enough s t0 fuel
  end.
Proof. exact @step_summary. Qed.
Print Assumptions C31_step.

(** C31: such a fuel exists, and then the whole integration ends: finished exactly at t_bound, or failed before it. *)
Theorem C31_terminates : forall (V : ModuleSpace R_Ring) (s : solver V) t0 y0 fs st, sound s -> roomy s t0 -> t0 < t_bound s ->
  construct s t0 y0 (Some fs) = Some st -> exists fuel n st' ts, enough s t0 fuel /\
  drive s fuel n st [t0] = Some (st', ts) /\ ((stat st' = Finished /\ t st' = t_bound s) \/ (stat st' = Failed /\ t st' < t_bound s)).
Proof. exact @terminates_summary. Qed.
Print Assumptions C31_terminates.

(** C31: the attempts of one step: step sizes strictly decrease, all but the last had an error of at least 1, the next step is
    not larger after a rejection; failure only after a first size below the minimum or errors that were never below 1. *)
Theorem C31_attempts : forall (V : ModuleSpace R_Ring) (s : solver V) fuel tt yy ff m h1 sc old, sound s -> 0 < h1 ->
  (sc = false -> exists o, old = Some o /\ 0 < o) ->
  match loop s fuel tt yy ff m h1 sc old h1 [] with
  | Accepted tried hu hn x _ =>
      hd hu tried = h1 /\ decreasing (tried ++ [hu]) /\ m <= hu /\ error_norm s tt hu yy ff = Fin x /\ x < 1 /\
      Forall (fun h' => exists x', error_norm s tt h' yy ff = Fin x' /\ 1 <= x') tried /\ 0 < hn /\ (tried <> [] -> hn <= hu)
  | Rejected tried => decreasing tried /\ Forall (fun h' => forall x', error_norm s tt h' yy ff = Fin x' -> 1 <= x') tried /\
      (h1 < m \/ (exists r, tried = h1 :: r))
  | Crash => False
  | OutOfFuel => True
  end.
Proof. exact attempts. Qed.
Print Assumptions C31_attempts.

(** C31: the first stage of every step is the right-hand side at the current time and solution, for methods that evaluate
    the last stage (FSAL) and for autonomous right-hand sides ... *)
Theorem C31_first_stage_partial : forall (V : ModuleSpace R_Ring) (s : solver V) fuel t0 y0 st, sound s -> t0 < t_bound s -> roomy s t0 ->
  reachable s fuel t0 y0 st -> (FSAL s = true \/ (forall t1 t2 x, fun_ s t1 x = fun_ s t2 x)) -> f st = fun_ s (t st) (y st).
Proof. intros V s fuel t0 y0 st OK. exact (first_stage s OK fuel t0 y0 st). Qed.
Print Assumptions C31_first_stage_partial.

(** ... but not in general: the other methods evaluate it at the time that the next step size would have reached. *)
Theorem C31_first_stage_refuted : exists st st', reachable (ex_solver one_stage (fun t _ => t) 0) 1 0 0 st /\
  step (ex_solver one_stage (fun t _ => t) 0) 1 st = Some st' /\ stat st' = Running /\ f st' <> fun_ (ex_solver one_stage (fun t _ => t) 0) (t st') (y st').
Proof. exact stale_time. Qed.
Print Assumptions C31_first_stage_refuted.

(** C31: every named controller gives parameters to which this applies. *)
Theorem C31_controllers : forall name kb1 kb2 a g eeo, In (name, (kb1, kb2, a, g)) controllers ->
  let c := mk_control eeo kb1 kb2 a g in 0 < safety c < 1 /\ 0 < safety_sc c /\ error_exponent c < 0.
Proof. exact controllers_sound. Qed.
Print Assumptions C31_controllers.

(** C31: a controller given as a tuple of four numbers is silently replaced by the default of the class. *)
Theorem C31_tuple_controller_refuted : forall upper default c, choose_controller upper default (Tuple c) = find_controller (upper default).
Proof. exact tuple_ignored. Qed.
Print Assumptions C31_tuple_controller_refuted.

Example C31_ex : sound (ex_solver bs32 (fun t x => t + x) (1 / 2)) /\ roomy (ex_solver bs32 (fun t x => t + x) (1 / 2)) 0 /\ shaped bs32 /\
  exists st, construct (ex_solver bs32 (fun t x => t + x) (1 / 2)) 0 1 (Some (1 / 4)) = Some st.
Proof.
  destruct (ex_sound bs32 (fun t x => t + x) (1 / 2)) as [H1 H2]; [lra|]. split; [exact H1|]. split; [apply H2|].
  split; [cbn; repeat split; auto; repeat constructor|]. unfold construct. cbn. destruct (Rle_dec _ _); [lra|].
  destruct (Rlt_dec _ _) as [L|]; [rewrite Rabs_pos_eq in L; lra|]. eexists. reflexivity.
Qed.

(** C54: exode does not tell its caller that the integration failed: it returns the initial vector ... *)
Theorem C54_silent_failure_refuted : forall (V : ModuleSpace R_Ring) (mk : (R -> V -> V) -> solver V) median A u, sound (mk (phi_problem A u)) ->
  max_step (mk (phi_problem A u)) = None -> t_bound (mk (phi_problem A u)) = 1 -> (forall a b c, enorm (mk (phi_problem A u)) a b c = Fin 2) ->
  forall n, exists fuel, exode mk median fuel (S n) 1 A u None = Some (nth 0 u zero, None).
Proof. exact exode_silent_phi. Qed.
Print Assumptions C54_silent_failure_refuted.
(** ... and from then on (the remembered step size is NaN) every call, whatever the problem, returns its initial vector. *)
Theorem C54_later_calls_refuted : forall (V : ModuleSpace R_Ring) (mk : (R -> V -> V) -> solver V) median fuel n tau A u,
  (forall F, t_bound (mk F) = 1) -> (1 <= n)%nat -> exode mk median fuel n tau A u (Some None) = Some (nth 0 u zero, None).
Proof. exact exode_nan. Qed.
Print Assumptions C54_later_calls_refuted.
(** C54, what holds: a call that starts from a number as step size and whose integration finishes returns the solution at time 1,
    obtained from the initial vector by accepted steps only. *)
Theorem C54_finished : forall (V : ModuleSpace R_Ring) (mk : (R -> V -> V) -> solver V) median fuel n tau A u first fs,
  sound (mk (phi_problem A u)) -> roomy (mk (phi_problem A u)) 0 -> t_bound (mk (phi_problem A u)) = 1 ->
  fs = match first with None => tau | Some x => x end -> 0 < fs <= 1 -> enough (mk (phi_problem A u)) 0 fuel ->
  1 < INR n * h_min_b (mk (phi_problem A u)) ->
  exists st next, exode mk median fuel n tau A u (option_map Some first) = Some (y st, next) /\ reachable (mk (phi_problem A u)) fuel 0 (nth 0 u zero) st /\
    ((stat st = Finished /\ t st = 1) \/ stat st = Failed).
Proof. exact exode_finished_phi. Qed.
Print Assumptions C54_finished.
Example C54_ex : sound (ex_solver bs32 (phi_problem (V := R_ModuleSpace) (fun x => x) [1; 2]) 2) /\ phi_problem (V := R_ModuleSpace) (fun x => 3 * x) [1; 2; 5] 2 7 = 3 * 7 + 2 + 2 * 5.
Proof. split; [apply ex_sound; lra|]. cbn. unfold plus, scal; cbn. unfold mult; cbn. lra. Qed.
