(** Property C27. *)
From Coq Require Import ZArith List Bool Arith Lia.
From Verif Require Import StatsModel StatsSpec StatsProofs.
Import ListNotations.

(** C27: rows of the parameter table carry the same run_id exactly when the same run wrote them. *)
Theorem C27_one_id_per_run : forall V W (l : list (action V W)) x y, let d := committed (exec l) in
  In x (params d) -> In y (params d) -> (p_author x = p_author y <-> p_run x = p_run y).
Proof. intros V W l x y d. apply same_author_same_run, (i_good _ (inv_exec l)). Qed.
Print Assumptions C27_one_id_per_run.

(** C27: the step ids of a run are 0, 1, 2, ... in the order of writing. *)
Theorem C27_steps_in_order : forall V W (l : list (action V W)) r, let d := committed (exec l) in
  map p_step (params_of r d) = upto (length (params_of r d)).
Proof. intros V W l r d. apply (g_steps _ (i_good _ (inv_exec l))). Qed.
Print Assumptions C27_steps_in_order.

(** C27: the run_id is the key of the first row of that run; keys are unique and positive. *)
Theorem C27_run_id_is_first_entry : forall V W (l : list (action V W)), let d := committed (exec l) in
  NoDup (map entry_id (params d)) /\ forall x, In x (params d) -> (0 < p_run x)%Z /\
    exists p0 rest, params_of (p_author x) d = p0 :: rest /\ entry_id p0 = p_run x /\ p_run p0 = p_run x /\ p_step p0 = 0%Z.
Proof.
  intros V W l d. pose proof (i_good _ (inv_exec l)) as G. split; [apply (g_nodup _ G)|]. intros x X. destruct (first_row d x G X) as [p0 [rest [P [E H]]]].
  split; [|exists p0, rest; auto]. rewrite <- E. apply (g_pos _ G). apply (in_params_of (p_author x) p0 d). rewrite P. left. reflexivity.
Qed.
Print Assumptions C27_run_id_is_first_entry.

(** C27: every data row and every timing row refers to a parameter row of the run that wrote it. *)
Theorem C27_rows_refer_to_params : forall V W (l : list (action V W)), let d := committed (exec l) in
  (forall x, In x (data d) -> exists p, In p (params d) /\ p_author p = d_author x /\ p_run p = d_run x /\ p_step p = d_step x) /\
  (forall x, In x (timing d) -> exists p, In p (params d) /\ p_author p = t_author x /\ p_run p = t_run x /\ p_step p = t_step x).
Proof. intros V W l d. pose proof (i_good _ (inv_exec l)) as G. split; [apply (g_data _ G)|apply (g_timing _ G)]. Qed.
Print Assumptions C27_rows_refer_to_params.

(** C27: for every parameter row all residuals and timings of its call are there, numbered 0, 1, 2, ..., and no others: what a
    crash interrupts leaves no trace. *)
Theorem C27_calls_complete : forall V W (l : list (action V W)) p, let d := committed (exec l) in In p (params d) ->
  map (fun x => (d_iter x, d_value x)) (data_of (p_author p) (p_step p) d) = combine (upto (length (residuals (p_job p)))) (residuals (p_job p)) /\
  map (fun x => (t_iter x, t_values x)) (timing_of (p_author p) (p_step p) d) = combine (upto (length (stored_timings (p_job p)))) (stored_timings (p_job p)).
Proof. intros V W l p d P. pose proof (i_good _ (inv_exec l)) as G. split; [apply (g_residuals _ G p P)|apply (g_times _ G p P)]. Qed.
Print Assumptions C27_calls_complete.

(** C27: a call that is not disturbed adds its row. *)
Theorem C27_write_adds_a_row : forall V W (l : list (action V W)) r j,
  alive (runs (exec l) r) = true -> where_ (runs (exec l) r) = Idle -> txn (exec l) = None -> rhs_times j <> Some [] ->
  exists p, params (committed (exec (l ++ [Begin r j; Key r; Data r; Timing r; Commit r]))) = params (committed (exec l)) ++ [p] /\ p_author p = r /\ p_job p = j.
Proof. intros V W l r j A Wh T J. unfold exec at 1. rewrite fold_left_app. apply write_adds; try assumption. apply inv_exec. Qed.
Print Assumptions C27_write_adds_a_row.

(** Two runs, the second one trying to write in the middle of a write of the first; a third run dies in its first write. *)
Definition ex_history : list (action nat nat) :=
  let w r j := [Begin r j; Key r; Data r; Timing r; Commit r] in
  let j := {| residuals := [7; 8]; rhs_times := None |} in
  w 0 j ++ [Begin 2 j; Key 2; Data 2; Fail 2] ++ [Begin 0 j; Begin 1 j; Key 0; Key 1; Data 0; Timing 0; Commit 0] ++ w 1 j ++ w 0 j ++ w 1 j.
Example C27_ex : map (fun p => (p_author p, entry_id p, p_run p, p_step p)) (params (committed (exec ex_history))) =
  [(0%nat, 1, 1, 0); (0%nat, 2, 1, 1); (1%nat, 3, 3, 0); (0%nat, 4, 1, 2); (1%nat, 5, 3, 1)]%Z /\ length (data (committed (exec ex_history))) = 10 /\
  alive (runs (exec ex_history) 1) = true /\ where_ (runs (exec ex_history) 1) = Idle /\ txn (exec ex_history) = None.
Proof. vm_compute. repeat split. Qed.
