From Coq Require Import Reals List Arith ZArith Lra Lia Permutation Bool.
From Verif Require Import StatModel StatSpec StatProofs StatRuns.
Import ListNotations.
Local Open Scope R_scope.

Lemma norms_main : forall ns qw tiles h ex, proper ns qw tiles -> (forall x, In x (points ns tiles) -> 0 <= value ns ex x) -> (exists x, In x (points ns tiles) /\ 0 < value ns ex x) ->
  exists a b c, error_norms ns qw tiles h ex = Some (Errors (Some a) (Some b) (Some c)) /\ 0 <= a /\ 0 <= b /\ 0 <= c /\
  (a = 0 <-> forall x, In x (points ns tiles) -> value ns h x = value ns ex x) /\ (b = 0 <-> forall x, In x (points ns tiles) -> value ns h x = value ns ex x) /\ (c = 0 <-> forall x, In x (points ns tiles) -> value ns h x = value ns ex x).
Proof. intros ns qw tiles h ex PR P Y. exact (norms_finite ns qw tiles PR h ex (conj P Y)). Qed.
Lemma uniform_main : forall ns qw tiles h ex c, proper ns qw tiles -> (forall x, In x (points ns tiles) -> 0 <= value ns ex x) -> (exists x, In x (points ns tiles) /\ 0 < value ns ex x) ->
  (forall x, In x (points ns tiles) -> value ns h x = (1 + c) * value ns ex x) -> error_norms ns qw tiles h ex = Some (Errors (Some (Rabs c)) (Some (Rabs c)) (Some (Rabs c))).
Proof. intros ns qw tiles h ex c PR P Y. exact (norms_uniform ns qw tiles PR h ex (conj P Y) c). Qed.
Lemma processes_main : forall ns qw tiles tiles' q q' analytic analytic' case time first, proper ns qw tiles -> proper ns qw tiles' ->
  Permutation (map (fun x => (weight ns qw x, value ns (depth q) x, value ns (analytic case time) x, value ns (energy q) x, value ns (enstrophy q) x)) (points ns tiles))
    (map (fun x => (weight ns qw x, value ns (depth q') x, value ns (analytic' case time) x, value ns (energy q') x, value ns (enstrophy q') x)) (points ns tiles')) ->
  blockstats ns qw tiles analytic case time q first = blockstats ns qw tiles' analytic' case time q' first.
Proof. intros ns qw tiles tiles' q q' analytic analytic' case time first PR PR' PE. exact (same_report ns qw tiles tiles' q q' analytic analytic' case time PR PR' PE first). Qed.
Lemma schedule_main : forall ns qw tiles analytic case freq t_end dt state start n, proper ns qw tiles -> (1 <= case)%Z -> (0 < freq)%nat ->
  exists l, run ns qw tiles analytic case freq t_end dt state start n = Some l /\ map fst l = filter (fun s => Nat.eqb (s mod freq) 0) (seq start (n + 1)).
Proof.
  intros ns qw tiles analytic case freq t_end dt state start n PR HC HF. destruct (multiple_exists freq start HF) as [r FM]. eexists. split; [exact (run_ok ns qw tiles analytic PR case freq t_end dt state start HC HF n r FM)|].
  rewrite map_map. cbn [fst]. rewrite map_id, Nat.add_1_r. reflexivity.
Qed.
Lemma some_inj : forall A (a b : A), Some a = Some b -> a = b.
Proof. congruence. Qed.
Section Reports.
Context {ns : nat} {qw : nat -> nat -> R} {tiles : list tile} {analytic : Z -> R -> field} {case : Z} {freq : nat} {t_end dt : R} {state : nat -> fields} {start n : nat} {l : list (nat * report)}.
Lemma reported : proper ns qw tiles -> (1 <= case)%Z -> (0 < freq)%nat -> run ns qw tiles analytic case freq t_end dt state start n = Some l -> forall s r x, first_multiple freq start r -> In (s, x) l ->
  x = rep ns qw tiles analytic case t_end dt state start (integrate ns qw tiles (state r)) s /\ (start <= s <= start + n)%nat.
Proof.
  intros PR HC HF E s r x FM I. rewrite (run_ok ns qw tiles analytic PR case freq t_end dt state start HC HF n r FM) in E. apply some_inj in E. subst l. apply in_map_iff in I. destruct I as (s' & I1 & I2). injection I1 as -> <-. split; [reflexivity|]. apply filter_In in I2. destruct I2 as [I2 _]. apply in_seq in I2. lia.
Qed.
End Reports.
Lemma drift_main : forall ns qw tiles analytic case freq t_end dt state start n l s r x, proper ns qw tiles -> (2 <= case)%Z -> (0 < freq)%nat ->
  run ns qw tiles analytic case freq t_end dt state start n = Some l -> first_multiple freq start r -> In (s, x) l ->
  exists c, drift x = Some c /\ relative (global_integral ns qw tiles (depth (state s))) (global_integral ns qw tiles (depth (state r))) (d_mass c) /\
    relative (global_integral ns qw tiles (energy (state s))) (global_integral ns qw tiles (energy (state r))) (d_energy c) /\
    relative (global_integral ns qw tiles (enstrophy (state s))) (global_integral ns qw tiles (enstrophy (state r))) (d_enstrophy c).
Proof.
  intros ns qw tiles analytic case freq t_end dt state start n l s r x PR HC HF E FM I. assert (H1 : (1 <= case)%Z) by lia. destruct (reported PR H1 HF E s r x FM I) as [-> _].
  exact (rep_drift ns qw tiles analytic case freq t_end dt state start HF (integrate ns qw tiles (state r)) s HC).
Qed.
Lemma conserved_main : forall ns qw tiles analytic case freq t_end dt state start n l s x M, proper ns qw tiles -> (2 <= case)%Z -> (0 < freq)%nat ->
  run ns qw tiles analytic case freq t_end dt state start n = Some l -> In (s, x) l -> (forall k, global_integral ns qw tiles (depth (state k)) = M) -> M <> 0 -> exists c, drift x = Some c /\ d_mass c = Some 0.
Proof.
  intros ns qw tiles analytic case freq t_end dt state start n l s x M PR HC HF E I H N. destruct (multiple_exists freq start HF) as [r FM].
  destruct (drift_main ns qw tiles analytic case freq t_end dt state start n l s r x PR HC HF E FM I) as (c & C & [D _] & _). exists c. split; [exact C|]. rewrite !H in D. rewrite (D N). f_equal. unfold Rdiv. ring.
Qed.
Lemma frequency_main : forall ns qw tiles analytic case f f' t_end dt state n n' l l' s x x', proper ns qw tiles -> (1 <= case)%Z -> (0 < f)%nat -> (0 < f')%nat ->
  run ns qw tiles analytic case f t_end dt state 0 n = Some l -> run ns qw tiles analytic case f' t_end dt state 0 n' = Some l' -> In (s, x) l -> In (s, x') l' -> x = x'.
Proof.
  intros ns qw tiles analytic case f f' t_end dt state n n' l l' s x x' PR HC HF HF' E E' I I'. destruct (reported PR HC HF E s 0%nat x (multiple_zero f) I) as [-> _]. destruct (reported PR HC HF' E' s 0%nat x' (multiple_zero f') I') as [-> _]. reflexivity.
Qed.
Lemma time_main : forall ns qw tiles analytic case freq t_end dt state start n l s x, proper ns qw tiles -> (case = 1)%Z \/ (case = 2)%Z \/ (case = 10)%Z -> (0 < freq)%nat -> 0 < dt ->
  run ns qw tiles analytic case freq t_end dt state start n = Some l -> In (s, x) l -> dt * INR s <= t_end -> norms x = error_norms ns qw tiles (depth (state s)) (analytic case (INR s * dt)).
Proof.
  intros ns qw tiles analytic case freq t_end dt state start n l s x PR HC HF Hdt E I L. destruct (multiple_exists freq start HF) as [r FM]. assert (H1 : (1 <= case)%Z) by lia. destruct (reported PR H1 HF E s r x FM I) as [-> B]. unfold rep. cbn [norms].
  replace (known case) with true by (destruct HC as [->|[->| ->]]; reflexivity). unfold time. rewrite clock_regular; [reflexivity|exact Hdt|]. replace (start + (s - start))%nat with s by lia. exact L.
Qed.
(** the last step when t_end is not a multiple of dt *)
Lemma last_main : forall ns qw tiles analytic freq t_end dt state start n l m x, proper ns qw tiles -> (0 < freq)%nat -> 0 < dt -> run ns qw tiles analytic 1 freq t_end dt state start n = Some l -> (0 < m)%nat -> (start <= m)%nat ->
  dt * INR m < t_end -> t_end < dt * INR (m + 1) -> In ((m + 1)%nat, x) l ->
  fst (clock t_end dt start (m + 1 - start)) = t_end /\ exists t, t < t_end /\ norms x = error_norms ns qw tiles (depth (state (m + 1)%nat)) (analytic 1%Z t) /\ t = INR (m + 1) * (t_end - dt * INR m).
Proof.
  intros ns qw tiles analytic freq t_end dt state start n l m x PR HF Hdt E Hm Hs L U I. destruct (multiple_exists freq start HF) as [r FM]. assert (H1 : (1 <= 1)%Z) by lia. destruct (reported PR H1 HF E _ r x FM I) as [-> B]. unfold rep. cbn [norms]. change (known 1) with true. unfold time.
  assert (C : clock t_end dt start (m + 1 - start) = (t_end, t_end - dt * INR m)). { replace (m + 1 - start)%nat with (m - start + 1)%nat by lia. rewrite clock_last; [|exact Hdt| |]; replace (start + (m - start))%nat with m by lia; [reflexivity|exact L|exact U]. }
  rewrite C. split; [reflexivity|]. eexists. split; [|split; [reflexivity|reflexivity]]. cbn [snd]. now apply wrong_time.
Qed.
(** a run that is started again at step k *)
Lemma restart_main : forall ns qw tiles analytic case freq t_end dt state k n n' l l' s x x' y, proper ns qw tiles -> (2 <= case)%Z -> (0 < freq)%nat -> 
  run ns qw tiles analytic case freq t_end dt state 0 n = Some l -> run ns qw tiles analytic case freq t_end dt state (k * freq) n' = Some l' -> In (s, x) l -> In ((k * freq)%nat, y) l -> In (s, x') l' ->
  global_integral ns qw tiles (depth (state 0%nat)) <> 0 -> global_integral ns qw tiles (depth (state (k * freq)%nat)) <> 0 ->
  exists c c' d a a' b, drift x = Some c /\ drift x' = Some c' /\ drift y = Some d /\ d_mass c = Some a /\ d_mass c' = Some a' /\ d_mass d = Some b /\ 1 + a = (1 + b) * (1 + a').
Proof.
  intros ns qw tiles analytic case freq t_end dt state k n n' l l' s x x' y PR HC HF E E' I J I' N0 Nk.
  assert (FM : first_multiple freq (k * freq) (k * freq)) by (split; [lia|]; split; [now exists k|intros m M; exact M]).
  destruct (drift_main _ _ _ _ _ _ _ _ _ _ _ _ s 0%nat x PR HC HF E (multiple_zero freq) I) as (c & C1 & [C2 _] & _). destruct (drift_main _ _ _ _ _ _ _ _ _ _ _ _ _ 0%nat y PR HC HF E (multiple_zero freq) J) as (d & D1 & [D2 _] & _).
  destruct (drift_main _ _ _ _ _ _ _ _ _ _ _ _ s _ x' PR HC HF E' FM I') as (c' & C1' & [C2' _] & _).
  do 6 eexists. split; [exact C1|]. split; [exact C1'|]. split; [exact D1|]. split; [exact (C2 N0)|]. split; [exact (C2' Nk)|]. split; [exact (D2 N0)|]. field. split; assumption.
Qed.

(** ** one point on one process *)
Definition dot_tile : tile := Tile 1 (fun _ _ => 1).
Definition flat (a : R) : fields := Fields (fun _ _ _ => a) (fun _ _ _ => a) (fun _ _ _ => a).
Lemma dot_points : points 1 [dot_tile] = [(0%nat, dot_tile, 0%nat, 0%nat, 0%nat)].
Proof. reflexivity. Qed.
Lemma dot_proper : proper 1 (fun _ _ => 4) [dot_tile].
Proof. split; [lia|]. split; [discriminate|]. split; [intros t [<-|[]]; cbn; lia|]. rewrite dot_points. intros x [<-|[]]. cbn. lra. Qed.
Lemma dot_integral : forall f, global_integral 1 (fun _ _ => 4) [dot_tile] f = 4 * f 0%nat 0%nat 0%nat.
Proof. intros f. cbn. ring. Qed.
(** the depth grows from 1 to 2 in the first step and stays: a run started again at step 1 reports no change *)
Definition grown (s : nat) : fields := flat (match s with O => 1 | _ => 2 end).
Lemma restart_case : exists l l' x x' c c', run 1 (fun _ _ => 4) [dot_tile] (fun _ _ _ _ _ => 0) 5 1 10 1 grown 0 2 = Some l /\ run 1 (fun _ _ => 4) [dot_tile] (fun _ _ _ _ _ => 0) 5 1 10 1 grown 1 1 = Some l' /\
  In (2%nat, x) l /\ In (2%nat, x') l' /\ drift x = Some c /\ drift x' = Some c' /\ d_mass c = Some 1 /\ d_mass c' = Some 0.
Proof.
  pose proof dot_proper as PR. assert (H25 : (2 <= 5)%Z) by lia. assert (H01 : (0 < 1)%nat) by lia. assert (FM : first_multiple 1 1 1) by (split; [lia|]; split; [now exists 1%nat|intros m M; lia]).
  destruct (schedule_main 1 (fun _ _ => 4) [dot_tile] (fun _ _ _ _ _ => 0) 5 1 10 1 grown 0 2 PR ltac:(lia) ltac:(lia)) as (l & E & F), (schedule_main 1 (fun _ _ => 4) [dot_tile] (fun _ _ _ _ _ => 0) 5 1 10 1 grown 1 1 PR ltac:(lia) ltac:(lia)) as (l' & E' & F').
  assert (I : In 2%nat (map fst l)) by (rewrite F; cbn; auto). assert (I' : In 2%nat (map fst l')) by (rewrite F'; cbn; auto). apply in_map_iff in I. destruct I as ([s x] & S1 & I). cbn in S1. subst s. apply in_map_iff in I'. destruct I' as ([s x'] & S1 & I'). cbn in S1. subst s.
  destruct (drift_main _ _ _ _ _ _ _ _ _ _ _ _ _ 0%nat x PR H25 H01 E (multiple_zero 1) I) as (c & C1 & [C2 _] & _). destruct (drift_main _ _ _ _ _ _ _ _ _ _ _ _ _ 1%nat x' PR H25 H01 E' FM I') as (c' & C1' & [C2' _] & _).
  rewrite !dot_integral in C2, C2'. cbn [grown flat depth] in C2, C2'.
  exists l, l', x, x', c, c'. split; [exact E|]. split; [exact E'|]. split; [exact I|]. split; [exact I'|]. split; [exact C1|]. split; [exact C1'|]. split; [rewrite C2 by lra; f_equal; field|rewrite C2' by lra; f_equal; field].
Qed.
(** an analytic depth that grows with the time, and a state that follows it: steps of 1 up to the time 3 / 2. The last report is an error of 1 / 2 *)
Lemma last_case : forall state, depth (state 2%nat) = (fun _ _ _ => 3 / 2) -> exists l x, run 1 (fun _ _ => 4) [dot_tile] (fun _ t _ _ _ => t) 1 1 (3 / 2) 1 state 0 2 = Some l /\ In (2%nat, x) l /\ norms x = Some (Errors (Some (1 / 2)) (Some (1 / 2)) (Some (1 / 2))).
Proof.
  intros state ES. pose proof dot_proper as PR. destruct (schedule_main 1 (fun _ _ => 4) [dot_tile] (fun _ t _ _ _ => t) 1 1 (3 / 2) 1 state 0 2 PR ltac:(lia) ltac:(lia)) as (l & E & F).
  assert (I : In 2%nat (map fst l)) by (rewrite F; cbn; auto). apply in_map_iff in I. destruct I as ([s x] & S1 & I). cbn in S1. subst s.
  destruct (last_main 1 (fun _ _ => 4) [dot_tile] (fun _ t _ _ _ => t) 1 (3 / 2) 1 state 0 2 l 1 x PR ltac:(lia) ltac:(lra) E ltac:(lia) ltac:(lia)) as (_ & t & _ & N & T); [cbn; lra|cbn; lra|exact I|].
  exists l, x. split; [exact E|]. split; [exact I|]. assert (T1 : t = 1) by (rewrite T; cbn; lra). rewrite N, T1. change (1 + 1)%nat with 2%nat. rewrite ES. rewrite (uniform_main 1 (fun _ _ => 4) [dot_tile] (fun _ _ _ => 3 / 2) (fun _ _ _ => 1) (1 / 2) PR).
  - rewrite Rabs_pos_eq by lra. reflexivity.
  - intros y _. destruct y as [[[[? ?] ?] ?] ?]. cbn. lra.
  - exists (0%nat, dot_tile, 0%nat, 0%nat, 0%nat). split; [now left|cbn; lra].
  - intros y _. destruct y as [[[[? ?] ?] ?] ?]. cbn. lra.
Qed.
(** two processes with a point each, or one with both *)
Lemma processes_case : forall q : R -> R, Permutation
  (map (fun x => (weight 1 (fun _ _ => 4) x, value 1 (fun r _ _ => q (INR r)) x)) (points 1 [dot_tile; dot_tile])) (map (fun x => (weight 1 (fun _ _ => 4) x, value 1 (fun _ e _ => q (INR e)) x)) (points 1 [Tile 2 (fun _ _ => 1)])).
Proof. intros q. apply Permutation_refl. Qed.
