(** C83: the statistics printed during a run *)
From Coq Require Import Reals List Arith ZArith Permutation Lra.
From Verif Require Import StatModel StatSpec StatRuns StatMain.
Import ListNotations.
Local Open Scope R_scope.

(** The three errors are finite and not negative, and each of them is 0 exactly if the depth is the analytic one at every point. The analytic depth is not negative and positive somewhere *)
Theorem C83_errors : forall ns qw tiles h exact, proper ns qw tiles -> (forall x, In x (points ns tiles) -> 0 <= value ns exact x) -> (exists x, In x (points ns tiles) /\ 0 < value ns exact x) ->
  exists a b c, error_norms ns qw tiles h exact = Some (Errors (Some a) (Some b) (Some c)) /\ 0 <= a /\ 0 <= b /\ 0 <= c /\
  (a = 0 <-> forall x, In x (points ns tiles) -> value ns h x = value ns exact x) /\ (b = 0 <-> forall x, In x (points ns tiles) -> value ns h x = value ns exact x) /\ (c = 0 <-> forall x, In x (points ns tiles) -> value ns h x = value ns exact x).
Proof. exact norms_main. Qed.
Print Assumptions C83_errors.
(** A depth that is wrong by the factor 1 + c everywhere has the errors |c|, |c|, |c| *)
Theorem C83_scale : forall ns qw tiles h exact c, proper ns qw tiles -> (forall x, In x (points ns tiles) -> 0 <= value ns exact x) -> (exists x, In x (points ns tiles) /\ 0 < value ns exact x) ->
  (forall x, In x (points ns tiles) -> value ns h x = (1 + c) * value ns exact x) -> error_norms ns qw tiles h exact = Some (Errors (Some (Rabs c)) (Some (Rabs c)) (Some (Rabs c))).
Proof. exact uniform_main. Qed.
Print Assumptions C83_scale.
(** The report does not depend on how the points are divided among the processes *)
Theorem C83_processes : forall ns qw tiles tiles' q q' analytic analytic' case time first, proper ns qw tiles -> proper ns qw tiles' ->
  Permutation (map (fun x => (weight ns qw x, value ns (depth q) x, value ns (analytic case time) x, value ns (energy q) x, value ns (enstrophy q) x)) (points ns tiles))
    (map (fun x => (weight ns qw x, value ns (depth q') x, value ns (analytic' case time) x, value ns (energy q') x, value ns (enstrophy q') x)) (points ns tiles')) ->
  blockstats ns qw tiles analytic case time q first = blockstats ns qw tiles' analytic' case time q' first.
Proof. exact processes_main. Qed.
Print Assumptions C83_processes.
Example processes_example : forall q : R -> R, Permutation
  (map (fun x => (weight 1 (fun _ _ => 4) x, value 1 (fun r _ _ => q (INR r)) x)) (points 1 [dot_tile; dot_tile])) (map (fun x => (weight 1 (fun _ _ => 4) x, value 1 (fun _ e _ => q (INR e)) x)) (points 1 [Tile 2 (fun _ _ => 1)])).
Proof. exact processes_case. Qed.
(** A run reports at the multiples of stat_freq and raises no exception *)
Theorem C83_schedule : forall ns qw tiles analytic case freq t_end dt state start n, proper ns qw tiles -> (1 <= case)%Z -> (0 < freq)%nat ->
  exists l, run ns qw tiles analytic case freq t_end dt state start n = Some l /\ map fst l = filter (fun s => Nat.eqb (s mod freq) 0) (seq start (n + 1)).
Proof. exact schedule_main. Qed.
Print Assumptions C83_schedule.
(** The changes of mass, energy and enstrophy are relative to the first state that was reported, which is that of the first multiple of stat_freq from the start of the run on *)
Theorem C83_changes : forall ns qw tiles analytic case freq t_end dt state start n l s r x, proper ns qw tiles -> (2 <= case)%Z -> (0 < freq)%nat ->
  run ns qw tiles analytic case freq t_end dt state start n = Some l -> first_multiple freq start r -> In (s, x) l ->
  exists c, drift x = Some c /\ relative (global_integral ns qw tiles (depth (state s))) (global_integral ns qw tiles (depth (state r))) (d_mass c) /\
    relative (global_integral ns qw tiles (energy (state s))) (global_integral ns qw tiles (energy (state r))) (d_energy c) /\
    relative (global_integral ns qw tiles (enstrophy (state s))) (global_integral ns qw tiles (enstrophy (state r))) (d_enstrophy c).
Proof. exact drift_main. Qed.
Print Assumptions C83_changes.
Example changes_example : first_multiple 10 0 0 /\ forall s, (0 < s <= 10)%nat -> first_multiple 10 s 10.
Proof. split; [apply multiple_zero|]. intros s [H1 H2]. split; [exact H2|]. split; [exists 1%nat; reflexivity|]. intros [|m] M; [destruct (Nat.lt_irrefl 0); exact (Nat.lt_le_trans _ _ _ H1 M)|]. apply (Nat.mul_le_mono_r 1 (S m) 10), le_n_S, Nat.le_0_l. Qed.
(** When the mass is conserved the reported change is 0 in every report *)
Theorem C83_conserved : forall ns qw tiles analytic case freq t_end dt state start n l s x M, proper ns qw tiles -> (2 <= case)%Z -> (0 < freq)%nat ->
  run ns qw tiles analytic case freq t_end dt state start n = Some l -> In (s, x) l -> (forall k, global_integral ns qw tiles (depth (state k)) = M) -> M <> 0 -> exists c, drift x = Some c /\ d_mass c = Some 0.
Proof. exact conserved_main. Qed.
Print Assumptions C83_conserved.
(** How often statistics are printed does not change them *)
Theorem C83_frequency : forall ns qw tiles analytic case f f' t_end dt state n n' l l' s x x', proper ns qw tiles -> (1 <= case)%Z -> (0 < f)%nat -> (0 < f')%nat ->
  run ns qw tiles analytic case f t_end dt state 0 n = Some l -> run ns qw tiles analytic case f' t_end dt state 0 n' = Some l' -> In (s, x) l -> In (s, x') l' -> x = x'.
Proof. exact frequency_main. Qed.
Print Assumptions C83_frequency.
(** The analytic depth is that of the time of the step, as long as the steps are not shortened ... *)
Theorem C83_time : forall ns qw tiles analytic case freq t_end dt state start n l s x, proper ns qw tiles -> (case = 1)%Z \/ (case = 2)%Z \/ (case = 10)%Z -> (0 < freq)%nat -> 0 < dt ->
  run ns qw tiles analytic case freq t_end dt state start n = Some l -> In (s, x) l -> dt * INR s <= t_end -> norms x = error_norms ns qw tiles (depth (state s)) (analytic case (INR s * dt)).
Proof. exact time_main. Qed.
Print Assumptions C83_time.
(** ... but at the end of a run whose last step is shortened it is that of an earlier time: *)
Theorem C83_last_refuted : forall ns qw tiles analytic freq t_end dt state start n l m x, proper ns qw tiles -> (0 < freq)%nat -> 0 < dt -> run ns qw tiles analytic 1 freq t_end dt state start n = Some l -> (0 < m)%nat -> (start <= m)%nat ->
  dt * INR m < t_end -> t_end < dt * INR (m + 1) -> In ((m + 1)%nat, x) l ->
  fst (clock t_end dt start (m + 1 - start)) = t_end /\ exists t, t < t_end /\ norms x = error_norms ns qw tiles (depth (state (m + 1)%nat)) (analytic 1%Z t) /\ t = INR (m + 1) * (t_end - dt * INR m).
Proof. exact last_main. Qed.
Print Assumptions C83_last_refuted.
Example last_example : forall state, depth (state 2%nat) = (fun _ _ _ => 3 / 2) -> exists l x, run 1 (fun _ _ => 4) [dot_tile] (fun _ t _ _ _ => t) 1 1 (3 / 2) 1 state 0 2 = Some l /\ In (2%nat, x) l /\ norms x = Some (Errors (Some (1 / 2)) (Some (1 / 2)) (Some (1 / 2))).
Proof. exact last_case. Qed.
(** A run that is started again at step k freq reports changes relative to its own start: the factor of growth of the whole run is the product of those of the two parts, *)
Theorem C83_restart : forall ns qw tiles analytic case freq t_end dt state k n n' l l' s x x' y, proper ns qw tiles -> (2 <= case)%Z -> (0 < freq)%nat -> 
  run ns qw tiles analytic case freq t_end dt state 0 n = Some l -> run ns qw tiles analytic case freq t_end dt state (k * freq) n' = Some l' -> In (s, x) l -> In ((k * freq)%nat, y) l -> In (s, x') l' ->
  global_integral ns qw tiles (depth (state 0%nat)) <> 0 -> global_integral ns qw tiles (depth (state (k * freq)%nat)) <> 0 ->
  exists c c' d a a' b, drift x = Some c /\ drift x' = Some c' /\ drift y = Some d /\ d_mass c = Some a /\ d_mass c' = Some a' /\ d_mass d = Some b /\ 1 + a = (1 + b) * (1 + a').
Proof. exact restart_main. Qed.
Print Assumptions C83_restart.
(** so the same step of the same run is reported differently *)
Theorem C83_restart_refuted : exists l l' x x' c c', run 1 (fun _ _ => 4) [dot_tile] (fun _ _ _ _ _ => 0) 5 1 10 1 grown 0 2 = Some l /\ run 1 (fun _ _ => 4) [dot_tile] (fun _ _ _ _ _ => 0) 5 1 10 1 grown 1 1 = Some l' /\
  In (2%nat, x) l /\ In (2%nat, x') l' /\ drift x = Some c /\ drift x' = Some c' /\ d_mass c = Some 1 /\ d_mass c' = Some 0.
Proof. exact restart_case. Qed.
Print Assumptions C83_restart_refuted.
Example proper_example : proper 1 (fun _ _ => 4) [dot_tile].
Proof. exact dot_proper. Qed.
