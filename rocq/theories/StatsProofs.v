From Coq Require Import ZArith List Bool Arith Lia.
From Verif Require Import StatsModel StatsSpec.
Import ListNotations.

Section Proofs.
Context {V W : Type}.
Notation db := (db V W). Notation job := (job V W). Notation prow := (prow V W). Notation run := (run V W). Notation state := (state V W).

Record good (d : db) : Prop := {
  g_pos : forall p, In p (params d) -> (0 < entry_id p)%Z;
  g_nodup : NoDup (map entry_id (params d));
  g_steps : forall r, map p_step (params_of r d) = upto (length (params_of r d));
  g_runs : forall r p p0 rest, params_of r d = p0 :: rest -> In p (params_of r d) -> p_run p = entry_id p0;
  g_data : forall x, In x (data d) -> exists p, In p (params d) /\ p_author p = d_author x /\ p_run p = d_run x /\ p_step p = d_step x;
  g_timing : forall x, In x (timing d) -> exists p, In p (params d) /\ p_author p = t_author x /\ p_run p = t_run x /\ p_step p = t_step x;
  g_residuals : forall p, In p (params d) -> map (fun x => (d_iter x, d_value x)) (data_of (p_author p) (p_step p) d) = combine (upto (length (residuals (p_job p)))) (residuals (p_job p));
  g_times : forall p, In p (params d) -> map (fun x => (t_iter x, t_values x)) (timing_of (p_author p) (p_step p) d) = combine (upto (length (stored_timings (p_job p)))) (stored_timings (p_job p)) }.

Definition linked (d : db) (r : nat) (rid sid : Z) : Prop :=
  sid = Z.of_nat (length (params_of r d)) /\ match params_of r d with [] => rid = (-1)%Z | p0 :: _ => rid = entry_id p0 end.

(** The whole effect of a write *)
Definition final_id (d : db) (rid : Z) : Z := if Z.ltb rid 0 then next_id (params d) else rid.
Definition new_row (d : db) (r : nat) (j : job) (rid sid : Z) : prow :=
  {| p_author := r; p_job := j; entry_id := next_id (params d); p_run := final_id d rid; p_step := sid |}.
Definition new_data (r : nat) (j : job) (rid sid : Z) : list (drow V) :=
  map (fun '(i, v) => {| d_author := r; d_run := rid; d_step := sid; d_iter := i; d_value := v |}) (enumerate 0 (residuals j)).
Definition new_timing (r : nat) (j : job) (rid sid : Z) : list (trow W) :=
  map (fun '(i, v) => {| t_author := r; t_run := rid; t_step := sid; t_iter := i; t_values := v |}) (enumerate 0 (stored_timings j)).
Definition complete (d : db) (r : nat) (j : job) (rid sid : Z) : db := {|
  params := params d ++ [new_row d r j rid sid];
  data := data d ++ new_data r j (final_id d rid) sid;
  timing := timing d ++ new_timing r j (final_id d rid) sid |}.

Lemma next_id_gt (l : list prow) p : In p l -> (entry_id p < next_id l)%Z.
Proof. unfold next_id. induction l as [|q l IH]; cbn; intros []; [subst; lia|]. specialize (IH H). lia. Qed.
Lemma next_id_pos (l : list prow) : (0 < next_id l)%Z.
Proof. unfold next_id. induction l as [|q l IH]; cbn; lia. Qed.
Lemma enumerate_combine {X} (l : list X) : forall k, enumerate (Z.of_nat k) l = combine (map Z.of_nat (seq k (length l))) l.
Proof.
  induction l as [|x l IH]; intros k; [reflexivity|]. cbn [enumerate length seq map combine]. f_equal. replace (Z.of_nat k + 1)%Z with (Z.of_nat (S k)) by lia. apply IH.
Qed.
Lemma enumerate_upto {X} (l : list X) : enumerate 0 l = combine (upto (length l)) l.
Proof. apply (enumerate_combine l 0). Qed.
Lemma filter_none {X} (f : X -> bool) l : (forall x, In x l -> f x = false) -> filter f l = [].
Proof. induction l as [|x l IH]; cbn; intros H; [reflexivity|]. rewrite (H x) by auto. apply IH. auto. Qed.
Lemma filter_all {X} (f : X -> bool) l : (forall x, In x l -> f x = true) -> filter f l = l.
Proof. induction l as [|x l IH]; cbn; intros H; [reflexivity|]. rewrite (H x) by auto. f_equal. apply IH. auto. Qed.
Lemma upto_S n : upto (S n) = upto n ++ [Z.of_nat n].
Proof. unfold upto. rewrite seq_S, map_app. reflexivity. Qed.

Lemma params_complete d r j rid sid r' : params_of r' (complete d r j rid sid) = params_of r' d ++ (if Nat.eqb r r' then [new_row d r j rid sid] else []).
Proof. unfold params_of. cbn [params complete]. rewrite filter_app. cbn. reflexivity. Qed.
Lemma in_params_of r p (d : db) : In p (params_of r d) <-> In p (params d) /\ p_author p = r.
Proof. unfold params_of. rewrite filter_In, Nat.eqb_eq. reflexivity. Qed.
Lemma step_bound (d : db) r p : good d -> In p (params d) -> p_author p = r -> (0 <= p_step p < Z.of_nat (length (params_of r d)))%Z.
Proof.
  intros G H A. assert (K : In (p_step p) (map p_step (params_of r d))) by (apply in_map, in_params_of; auto).
  rewrite (g_steps d G r) in K. apply in_map_iff in K. destruct K as [k [E K]]. apply in_seq in K. lia.
Qed.
Lemma linked_sign d r rid sid : good d -> linked d r rid sid -> match params_of r d with [] => (rid <? 0)%Z = true | p0 :: _ => (rid <? 0)%Z = false /\ rid = entry_id p0 end.
Proof.
  intros G [_ L]. destruct (params_of r d) as [|p0 rest] eqn:P; [subst; reflexivity|]. split; [|exact L].
  assert (In p0 (params d)) by (apply (in_params_of r p0 d); rewrite P; left; reflexivity). pose proof (g_pos d G p0 H). apply Z.ltb_ge. lia.
Qed.
Lemma final_linked d r j rid sid : good d -> linked d r rid sid -> linked (complete d r j rid sid) r (final_id d rid) (sid + 1).
Proof.
  intros G L. pose proof (linked_sign d r rid sid G L) as K. destruct L as [L1 L2]. unfold linked. rewrite params_complete, Nat.eqb_refl. split; [rewrite app_length; cbn; lia|].
  unfold final_id. destruct (params_of r d) as [|p0 rest]; cbn [app].
  - rewrite K. reflexivity.
  - destruct K as [-> K]. exact K.
Qed.
Lemma others_linked d r j rid sid r' rid' sid' : r <> r' -> linked d r' rid' sid' -> linked (complete d r j rid sid) r' rid' sid'.
Proof. intros N L. unfold linked. rewrite params_complete. apply Nat.eqb_neq in N. rewrite N, app_nil_r. exact L. Qed.

Lemma data_complete d r j rid sid a s : data_of a s (complete d r j rid sid) = data_of a s d ++ (if Nat.eqb r a && Z.eqb sid s then new_data r j (final_id d rid) sid else []).
Proof.
  unfold data_of. cbn [data complete]. rewrite filter_app. f_equal. destruct (Nat.eqb r a && Z.eqb sid s) eqn:E.
  - apply filter_all. intros x X. apply in_map_iff in X. destruct X as [[i v] [<- _]]. exact E.
  - apply filter_none. intros x X. apply in_map_iff in X. destruct X as [[i v] [<- _]]. exact E.
Qed.
Lemma timing_complete d r j rid sid a s : timing_of a s (complete d r j rid sid) = timing_of a s d ++ (if Nat.eqb r a && Z.eqb sid s then new_timing r j (final_id d rid) sid else []).
Proof.
  unfold timing_of. cbn [timing complete]. rewrite filter_app. f_equal. destruct (Nat.eqb r a && Z.eqb sid s) eqn:E.
  - apply filter_all. intros x X. apply in_map_iff in X. destruct X as [[i v] [<- _]]. exact E.
  - apply filter_none. intros x X. apply in_map_iff in X. destruct X as [[i v] [<- _]]. exact E.
Qed.

Lemma good_complete d r j rid sid : good d -> linked d r rid sid -> good (complete d r j rid sid).
Proof.
  intros G L. pose proof (linked_sign d r rid sid G L) as K. assert (L0 := L). destruct L as [L1 L2].
  assert (OLD : forall p, In p (params d) -> Nat.eqb r (p_author p) && Z.eqb sid (p_step p) = false).
  { intros p P. destruct (Nat.eqb_spec r (p_author p)) as [->|]; [|reflexivity]. cbn. apply Z.eqb_neq. pose proof (step_bound d _ p G P eq_refl). lia. }
  assert (NOD : data_of r sid d = []).
  { apply filter_none. intros x X. destruct (Nat.eqb_spec (d_author x) r) as [A|]; [|reflexivity]. cbn. apply Z.eqb_neq. destruct (g_data d G x X) as [p [P1 [P2 [P3 P4]]]].
    pose proof (step_bound d r p G P1 ltac:(congruence)). lia. }
  assert (NOT : timing_of r sid d = []).
  { apply filter_none. intros x X. destruct (Nat.eqb_spec (t_author x) r) as [A|]; [|reflexivity]. cbn. apply Z.eqb_neq. destruct (g_timing d G x X) as [p [P1 [P2 [P3 P4]]]].
    pose proof (step_bound d r p G P1 ltac:(congruence)). lia. }
  constructor.
  - intros p. cbn [params complete]. rewrite in_app_iff. intros [P|[<-|[]]]; [apply (g_pos d G p P)|apply next_id_pos].
  - cbn [params complete]. rewrite map_app. cbn [map new_row entry_id]. assert (NI : ~ In (next_id (params d)) (map entry_id (params d))).
    { intros I. apply in_map_iff in I. destruct I as [p [E P]]. apply next_id_gt in P. lia. }
    revert NI. generalize (g_nodup d G). generalize (map entry_id (params d)) (next_id (params d)). clear. intros l x H. induction H as [|y l N H IH]; cbn; intros X; [constructor; [easy|constructor]|].
    constructor; [|apply IH; intros Q; apply X; right; exact Q]. rewrite in_app_iff. cbn. intros [Y|[Y|[]]]; [contradiction|apply X; left; auto].
  - intros a. rewrite params_complete. destruct (Nat.eqb_spec r a) as [<-|N].
    + rewrite map_app, app_length, (g_steps d G r). cbn [map length new_row p_step]. rewrite Nat.add_1_r, upto_S, L1. reflexivity.
    + rewrite app_nil_r. apply (g_steps d G a).
  - intros a p p0 rest E P. rewrite params_complete in *. destruct (Nat.eqb_spec r a) as [<-|N].
    + apply in_app_iff in P. destruct (params_of r d) as [|q0 qs] eqn:Q.
      * cbn in *. injection E as <- _. destruct P as [[]|[<-|[]]]. cbn [p_run entry_id new_row]. unfold final_id. rewrite K. reflexivity.
      * cbn [app] in E. injection E as <- _. destruct P as [P|[<-|[]]].
        -- rewrite <- Q in P. apply (g_runs d G r p q0 qs Q P).
        -- cbn [p_run entry_id new_row]. unfold final_id. destruct K as [-> K]. exact K.
    + rewrite app_nil_r in *. apply (g_runs d G a p p0 rest E P).
  - intros x. cbn [data params complete]. rewrite in_app_iff. intros [X|X].
    + destruct (g_data d G x X) as [p [P H]]. exists p. rewrite in_app_iff. auto.
    + apply in_map_iff in X. destruct X as [[i v] [<- _]]. exists (new_row d r j rid sid). rewrite in_app_iff. cbn. auto.
  - intros x. cbn [timing params complete]. rewrite in_app_iff. intros [X|X].
    + destruct (g_timing d G x X) as [p [P H]]. exists p. rewrite in_app_iff. auto.
    + apply in_map_iff in X. destruct X as [[i v] [<- _]]. exists (new_row d r j rid sid). rewrite in_app_iff. cbn. auto.
  - intros p. cbn [params complete]. rewrite in_app_iff. rewrite data_complete. intros [P|[<-|[]]].
    + rewrite (OLD p P), app_nil_r. apply (g_residuals d G p P).
    + cbn [p_author p_step p_job new_row]. rewrite Nat.eqb_refl, Z.eqb_refl, NOD. cbn [andb app]. unfold new_data. rewrite map_map, <- enumerate_upto.
      rewrite <- (map_id (enumerate 0 (residuals j))) at 2. apply map_ext. intros [i v]. reflexivity.
  - intros p. cbn [params complete]. rewrite in_app_iff. rewrite timing_complete. intros [P|[<-|[]]].
    + rewrite (OLD p P), app_nil_r. apply (g_times d G p P).
    + cbn [p_author p_step p_job new_row]. rewrite Nat.eqb_refl, Z.eqb_refl, NOT. cbn [andb app]. unfold new_timing. rewrite map_map, <- enumerate_upto.
      rewrite <- (map_id (enumerate 0 (stored_timings j))) at 2. apply map_ext. intros [i v]. reflexivity.
Qed.

(** What an open transaction holds, at each point of a write by run r *)
Definition pending (c : db) (r : nat) (x : run) (d : db) : Prop :=
  match where_ x with
  | Idle => False
  | Inserted new j => linked c r (run_id x) (step_id x) /\ new = next_id (params c) /\ d = insert_param r j x c
  | Keyed j => exists rid, linked c r rid (step_id x) /\ run_id x = final_id c rid /\
      d = {| params := params c ++ [new_row c r j rid (step_id x)]; data := data c; timing := timing c |}
  | Filled j => exists rid, linked c r rid (step_id x) /\ run_id x = final_id c rid /\
      d = {| params := params c ++ [new_row c r j rid (step_id x)]; data := data c ++ new_data r j (run_id x) (step_id x); timing := timing c |}
  | Timed j => exists rid, linked c r rid (step_id x) /\ run_id x = final_id c rid /\ d = complete c r j rid (step_id x)
  end.
Record inv (s : state) : Prop := {
  i_good : good (committed s);
  i_linked : forall r, alive (runs s r) = true -> where_ (runs s r) = Idle -> linked (committed s) r (run_id (runs s r)) (step_id (runs s r));
  i_busy : forall r, where_ (runs s r) <> Idle -> exists d, txn s = Some (r, d);
  i_txn : forall r d, txn s = Some (r, d) -> alive (runs s r) = true /\ pending (committed s) r (runs s r) d }.

Lemma set_same (rs : nat -> run) r x : set_run rs r x r = x.
Proof. unfold set_run. rewrite Nat.eqb_refl. reflexivity. Qed.
Lemma set_other (rs : nat -> run) r x r' : r' <> r -> set_run rs r x r' = rs r'.
Proof. intros N. unfold set_run. apply Nat.eqb_neq in N. rewrite N. reflexivity. Qed.

(** A step of the run that owns the transaction, without commit *)
Lemma inv_progress (s : state) r x d : inv s -> (exists d0, txn s = Some (r, d0)) \/ (txn s = None) -> alive x = true -> where_ x <> Idle -> pending (committed s) r x d ->
  inv {| committed := committed s; txn := Some (r, d); runs := set_run (runs s) r x |}.
Proof.
  intros I T A N P. constructor; cbn [committed txn runs].
  - apply (i_good s I).
  - intros r' A' W'. destruct (Nat.eq_dec r' r) as [->|E]; [rewrite set_same in W'; contradiction|]. rewrite set_other in * by exact E. apply (i_linked s I); assumption.
  - intros r' W'. destruct (Nat.eq_dec r' r) as [->|E]; [eauto|]. rewrite set_other in W' by exact E. destruct (i_busy s I r' W') as [d' D']. destruct T as [[d0 T]|T]; rewrite T in D'; [congruence|discriminate].
  - intros r' d' E. injection E as <- <-. rewrite set_same. auto.
Qed.
Lemma inv_die (s : state) r : inv s -> inv (die s r).
Proof.
  intros I. unfold die. constructor; cbn [committed txn runs].
  - apply (i_good s I).
  - intros r' A' W'. destruct (Nat.eq_dec r' r) as [->|E]; [rewrite set_same in A'; discriminate|]. rewrite set_other in * by exact E. apply (i_linked s I); assumption.
  - intros r' W'. destruct (Nat.eq_dec r' r) as [->|E]; [rewrite set_same in W'; contradiction|]. rewrite set_other in W' by exact E. destruct (i_busy s I r' W') as [d' D']. rewrite D'.
    apply Nat.eqb_neq in E. rewrite E. eauto.
  - intros r' d' E. destruct (txn s) as [[o d]|] eqn:T; [|discriminate]. destruct (Nat.eqb_spec o r) as [|NE]; [discriminate|]. injection E as <- <-. rewrite set_other by exact NE. apply (i_txn s I). exact T.
Qed.
Lemma update_new (c : db) r j (x : run) : update_run (next_id (params c)) (insert_param r j x c) =
  {| params := params c ++ [{| p_author := r; p_job := j; entry_id := next_id (params c); p_run := next_id (params c); p_step := step_id x |}]; data := data c; timing := timing c |}.
Proof.
  unfold update_run, insert_param. cbn [params data timing]. f_equal. rewrite map_app. cbn [map entry_id p_author p_job p_step]. rewrite Z.eqb_refl. f_equal.
  rewrite <- (map_id (params c)) at 2. apply map_ext_in. intros p P. apply next_id_gt in P. destruct (Z.eqb_spec (entry_id p) (next_id (params c))); [lia|reflexivity].
Qed.

Lemma inv_act (s : state) a : inv s -> inv (act s a).
Proof.
  intros I. destruct a as [r j|r|r|r|r|r]; cbn [act]; [| | | | |apply inv_die, I].
  - destruct (alive (runs s r)) eqn:A; [|exact I]. destruct (where_ (runs s r)) eqn:Wh; try exact I. destruct (txn s) eqn:T; [exact I|].
    apply inv_progress; try assumption; [right; exact T|reflexivity|discriminate|]. cbn. split; [apply (i_linked s I); assumption|]. split; reflexivity.
  - destruct (alive (runs s r)) eqn:A; [|exact I]. destruct (where_ (runs s r)) as [|new j| | |] eqn:Wh; try exact I.
    destruct (i_busy s I r ltac:(congruence)) as [d T]. rewrite T. destruct (i_txn s I r d T) as [_ P]. unfold pending in P. rewrite Wh in P. destruct P as [L [-> ->]].
    destruct (Z.ltb_spec (run_id (runs s r)) 0) as [H|H].
    + apply inv_progress; try assumption; [left; eauto|reflexivity|discriminate|]. cbn. exists (run_id (runs s r)). split; [exact L|]. apply Z.ltb_lt in H. unfold final_id. rewrite H. split; [reflexivity|].
      rewrite update_new. unfold new_row, final_id. rewrite H. reflexivity.
    + apply inv_progress; try assumption; [left; eauto|reflexivity|discriminate|]. cbn. exists (run_id (runs s r)). split; [exact L|]. apply Z.ltb_ge in H. unfold final_id. rewrite H. split; [reflexivity|].
      unfold insert_param, new_row, final_id. rewrite H. reflexivity.
  - destruct (alive (runs s r)) eqn:A; [|exact I]. destruct (where_ (runs s r)) as [| |j| |] eqn:Wh; try exact I.
    destruct (i_busy s I r ltac:(congruence)) as [d T]. rewrite T. destruct (i_txn s I r d T) as [_ P]. unfold pending in P. rewrite Wh in P. destruct P as [rid [L [E ->]]].
    apply inv_progress; try assumption; [left; eauto|reflexivity|discriminate|]. cbn. exists rid. split; [exact L|]. split; [exact E|]. reflexivity.
  - destruct (alive (runs s r)) eqn:A; [|exact I]. destruct (where_ (runs s r)) as [| | |j|] eqn:Wh; try exact I.
    destruct (i_busy s I r ltac:(congruence)) as [d T]. rewrite T. destruct (i_txn s I r d T) as [_ P]. unfold pending in P. rewrite Wh in P. destruct P as [rid [L [E ->]]].
    destruct (insert_timing r j (runs s r) _) as [d'|] eqn:IT; [|apply inv_die, I].
    apply inv_progress; try assumption; [left; eauto|reflexivity|discriminate|]. cbn. exists rid. split; [exact L|]. split; [exact E|].
    unfold insert_timing in IT. unfold complete, new_timing, stored_timings. rewrite <- E. destruct (rhs_times j) as [[|t0 ts]|]; [discriminate| |].
    + destruct (Nat.eqb (length t0) 9); injection IT as <-; [reflexivity|]. cbn. rewrite app_nil_r. reflexivity.
    + injection IT as <-. cbn. rewrite app_nil_r. reflexivity.
  - destruct (alive (runs s r)) eqn:A; [|exact I]. destruct (where_ (runs s r)) as [| | | |j] eqn:Wh; try exact I.
    destruct (i_busy s I r ltac:(congruence)) as [d T]. rewrite T. destruct (i_txn s I r d T) as [_ P]. unfold pending in P. rewrite Wh in P. destruct P as [rid [L [E ->]]].
    constructor; cbn [committed txn runs].
    + apply good_complete; [apply (i_good s I)|exact L].
    + intros r' A' W'. destruct (Nat.eq_dec r' r) as [->|NE].
      * rewrite set_same. cbn [run_id step_id]. rewrite E. apply final_linked; [apply (i_good s I)|exact L].
      * rewrite set_other in * by exact NE. apply others_linked; [congruence|]. apply (i_linked s I); assumption.
    + intros r' W'. destruct (Nat.eq_dec r' r) as [->|NE]; [rewrite set_same in W'; contradiction|]. rewrite set_other in W' by exact NE. destruct (i_busy s I r' W') as [d' D']. congruence.
    + discriminate.
Qed.
Lemma inv_exec (l : list (action V W)) : inv (exec l).
Proof.
  unfold exec. assert (H : forall l s, inv s -> inv (fold_left act l s)). { clear. induction l as [|a l IH]; cbn; intros s I; [exact I|]. apply IH, inv_act, I. }
  apply H. constructor; cbn.
  - constructor; cbn; try tauto; try constructor; try reflexivity; discriminate.
  - intros r _ _. split; reflexivity.
  - congruence.
  - discriminate.
Qed.

(** Consequences *)
Lemma same_author_same_run (d : db) x y : good d -> In x (params d) -> In y (params d) -> (p_author x = p_author y <-> p_run x = p_run y).
Proof.
  intros G X Y. assert (HX : In x (params_of (p_author x) d)) by (apply in_params_of; auto). assert (HY : In y (params_of (p_author y) d)) by (apply in_params_of; auto).
  split.
  - intros E. destruct (params_of (p_author x) d) as [|p0 rest] eqn:P; [destruct HX|]. rewrite (g_runs d G _ x p0 rest P) by (rewrite P; exact HX).
    rewrite <- E in HY. rewrite (g_runs d G _ y p0 rest P) by exact HY. reflexivity.
  - intros E. destruct (params_of (p_author x) d) as [|p0 rest] eqn:P; [destruct HX|]. destruct (params_of (p_author y) d) as [|q0 rest'] eqn:Q; [destruct HY|].
    rewrite (g_runs d G _ x p0 rest P) in E by (rewrite P; exact HX). rewrite (g_runs d G _ y q0 rest' Q) in E by (rewrite Q; exact HY).
    assert (A : In p0 (params_of (p_author x) d)) by (rewrite P; left; reflexivity). assert (B : In q0 (params_of (p_author y) d)) by (rewrite Q; left; reflexivity).
    apply in_params_of in A. apply in_params_of in B. destruct A as [A1 A2], B as [B1 B2]. rewrite <- A2, <- B2. f_equal.
    clear - G A1 B1 E. pose proof (g_nodup d G) as N. revert A1 B1 E. induction (params d) as [|z l IH]; [intros []|]. cbn in N. inversion N as [|? ? NI ND]; subst.
    intros [->|A1] [->|B1] E; [reflexivity| | |apply IH; assumption]; exfalso; apply NI; [rewrite E; apply in_map, B1|rewrite <- E; apply in_map, A1].
Qed.
Lemma first_row (d : db) x : good d -> In x (params d) -> exists p0 rest, params_of (p_author x) d = p0 :: rest /\ entry_id p0 = p_run x /\ p_run p0 = p_run x /\ p_step p0 = 0%Z.
Proof.
  intros G X. assert (HX : In x (params_of (p_author x) d)) by (apply in_params_of; auto). pose proof (g_steps d G (p_author x)) as S0.
  destruct (params_of (p_author x) d) as [|p0 rest] eqn:P; [destruct HX|]. exists p0, rest. split; [reflexivity|].
  rewrite (g_runs d G _ x p0 rest P) by (rewrite P; exact HX). split; [reflexivity|]. split; [apply (g_runs d G _ p0 p0 rest P); rewrite P; left; reflexivity|].
  cbn in S0. injection S0 as S0 _. exact S0.
Qed.

Lemma write_adds (s : state) r j : inv s -> alive (runs s r) = true -> where_ (runs s r) = Idle -> txn s = None -> rhs_times j <> Some [] ->
  exists p, params (committed (fold_left act [Begin r j; Key r; Data r; Timing r; Commit r] s)) = params (committed s) ++ [p] /\ p_author p = r /\ p_job p = j.
Proof.
  intros I A Wh T J. cbn [fold_left act]. rewrite A, Wh, T. cbn [runs txn committed]. rewrite !set_same. cbn [alive where_ run_id].
  destruct (run_id (runs s r) <? 0)%Z; cbn [runs txn committed]; rewrite !set_same; cbn [alive where_]; cbn [runs txn committed]; rewrite !set_same; cbn [alive where_];
    (destruct (insert_timing _ _ _ _) as [d'|] eqn:E; [|exfalso; apply J; unfold insert_timing in E; destruct (rhs_times j) as [[|t0 ts]|]; [reflexivity|destruct (Nat.eqb _ _); discriminate|discriminate]]);
    cbn [runs txn committed]; rewrite !set_same; cbn [alive where_ committed].
  - assert (P : params d' = params (update_run (next_id (params (committed s))) (insert_param r j (runs s r) (committed s)))).
    { unfold insert_timing in E. destruct (rhs_times j) as [[|t0 ts]|]; [discriminate| |injection E as <-; reflexivity]. destruct (Nat.eqb _ _); injection E as <-; reflexivity. }
    rewrite P, update_new. eexists. split; [reflexivity|]. split; reflexivity.
  - assert (P : params d' = params (insert_param r j (runs s r) (committed s))).
    { unfold insert_timing in E. destruct (rhs_times j) as [[|t0 ts]|]; [discriminate| |injection E as <-; reflexivity]. destruct (Nat.eqb _ _); injection E as <-; reflexivity. }
    rewrite P. eexists. split; [reflexivity|]. split; reflexivity.
Qed.
End Proofs.
