(** Proofs for C19 to C24, C26 and C53. *)
From Coq Require Import ZArith Reals List Bool Lia Lra Floats.SpecFloat.
From Flocq Require Import Core.Raux.
From Verif Require Import TopologyModel SimModel SimSpec.
Import ListNotations.
Local Open Scope R_scope.

(** * One step, unfolded *)
Section Generic.
Context {A : arith} {Q I : Type}.
Implicit Types (e : env A Q I) (s : sim A Q I).

Definition next_time e s := if ltb A (t_end e) (add A (t s) (dt s)) then t_end e else add A (t s) (dt s).
Definition next_dt e s := if ltb A (t_end e) (add A (t s) (dt s)) then sub A (t_end e) (t s) else dt s.
Definition next_integ e s := fst (integ_step e (integ s) (q s) (next_dt e s)).
Definition stepped_q e s := filters e (snd (integ_step e (integ s) (q s) (next_dt e s))) (next_dt e s).
Definition windy_q e s := winds e (next_time e s) (stepped_q e s).
Definition next_call e s : call A :=
  {| c_dt := next_dt e s; c_t := next_time e s; c_step := (step_id s + 1)%Z; c_flag := failure_flag e (next_integ e s) |}.
Definition next_output e s := output_step (times A) (out_freqs e) (write_effect e) (out s) (windy_q e s) (next_dt e s) (step_id s + 1).
Definition next_sim e s : sim A Q I :=
  {| t := next_time e s; dt := next_dt e s; step_id := (step_id s + 1)%Z; q := snd (next_output e s); initial_q := initial_q s;
     integ := next_integ e s; out := fst (next_output e s); calls := calls s ++ [next_call e s] |}.
Definition raised_sim e s : sim A Q I :=
  {| t := next_time e s; dt := next_dt e s; step_id := (step_id s + 1)%Z; q := stepped_q e s; initial_q := initial_q s;
     integ := next_integ e s; out := out s; calls := calls s ++ [next_call e s] |}.

Lemma step_eq e s : step e s =
  if ltb A (t s) (t_end e) then
    if has_nan e (stepped_q e s) then Raised (raised_sim e s)
    else if (failure_flag e (next_integ e s) =? 0)%Z then Going (next_sim e s) else Stopped (next_sim e s)
  else Stopped s.
Proof.
  unfold step, raised_sim, next_sim, next_call, next_output, windy_q, stepped_q, next_integ, next_time, next_dt.
  destruct (ltb A (t s) (t_end e)); [|reflexivity].
  destruct (ltb A (t_end e) (add A (t s) (dt s))).
  - destruct (integ_step e (integ s) (q s) (sub A (t_end e) (t s))) as [i' q1]. cbn [fst snd].
    destruct (has_nan e _); [reflexivity|]. destruct (output_step _ _ _ _ _ _ _) as [o' q4]. reflexivity.
  - destruct (integ_step e (integ s) (q s) (dt s)) as [i' q1]. cbn [fst snd].
    destruct (has_nan e _); [reflexivity|]. destruct (output_step _ _ _ _ _ _ _) as [o' q4]. reflexivity.
Qed.

Lemma going_inv e s s' : step e s = Going s' -> s' = next_sim e s /\ ltb A (t s) (t_end e) = true
  /\ has_nan e (stepped_q e s) = false /\ failure_flag e (next_integ e s) = 0%Z.
Proof.
  rewrite step_eq. destruct (ltb _ _ _); [|discriminate]. destruct (has_nan e _); [discriminate|].
  destruct (Z.eqb_spec (failure_flag e (next_integ e s)) 0) as [F|F]; [|discriminate]. intros [= <-]. auto.
Qed.

Lemma output_id fr (o : outstate (num A) Q) x d k (w : Q -> Q) : (forall y, w y = y) -> snd (output_step (times A) fr w o x d k) = x.
Proof. intros H. unfold output_step. destruct (due (output_freq fr) k); cbn; [apply H|reflexivity]. Qed.
End Generic.

(** * States *)
Section States.
Context {A : arith} {Q I : Type}.
Variable e : env A Q I.
Hypothesis WE : forall y, write_effect e y = y.
Variables (i0 : I) (x0 : Q).
Definition evolved (s : sim A Q I) : Prop := evolves e i0 x0 (calls s) (integ s) (q s).
Definition broken (s : sim A Q I) : Prop := exists cs c i1 x1 i2 x2, calls s = cs ++ [c] /\ evolves e i0 x0 cs i1 x1 /\
  integ_step e i1 x1 (c_dt c) = (i2, x2) /\ has_nan e (filters e x2 (c_dt c)) = true.
Lemma evolved_next s : evolved s -> has_nan e (stepped_q e s) = false -> evolved (next_sim e s).
Proof.
  intros E N. unfold evolved. cbn [calls integ q next_sim]. unfold next_output. rewrite output_id by exact WE. unfold windy_q, stepped_q in *. unfold next_integ.
  destruct (integ_step e (integ s) (q s) (next_dt e s)) as [i2 x2] eqn:J. cbn [fst snd] in *.
  change (next_time e s) with (c_t (next_call e s)). change (next_dt e s) with (c_dt (next_call e s)). change (next_dt e s) with (c_dt (next_call e s)) in J, N.
  econstructor; [exact E|exact J| |exact N]. cbn [c_flag next_call]. unfold next_integ. change (next_dt e s) with (c_dt (next_call e s)). rewrite J. reflexivity.
Qed.
Lemma broken_next s : evolved s -> has_nan e (stepped_q e s) = true -> broken (raised_sim e s).
Proof.
  intros E N. unfold broken, stepped_q in *. cbn [calls raised_sim]. destruct (integ_step e (integ s) (q s) (next_dt e s)) as [i2 x2] eqn:J. cbn [snd] in N.
  exists (calls s), (next_call e s), (integ s), (q s), i2, x2. auto.
Qed.
Lemma loop_states : forall m s, evolved s -> match loop e m s with Finished s' => evolved s' | Error s' => broken s' | OutOfFuel => True end.
Proof.
  induction m as [|m IH]; intros s E; cbn [loop]; rewrite step_eq; (destruct (ltb A (t s) (t_end e)); [|exact E]); (destruct (has_nan e (stepped_q e s)) eqn:N; [apply broken_next; assumption|]);
    destruct (failure_flag e (next_integ e s) =? 0)%Z; try exact Logic.I; try (apply IH); apply evolved_next; assumption.
Qed.
Lemma run_states d s n fuel : init e d x0 i0 = Some (s, n) -> match run e fuel s with Finished s' => evolved s' | Error s' => broken s' | OutOfFuel => True end.
Proof.
  intros E. apply loop_states. unfold init in E. destruct (output_step (times A) _ _ _ _ _ _) as [o q1] eqn:O. destruct (ceil_div A (t_end e) d); [|discriminate].
  injection E as <- <-. assert (q1 = x0) by (change q1 with (snd (o, q1)); rewrite <- O; apply output_id; exact WE). subst. constructor.
Qed.
End States.

(** * C19 *)
Section Loop.
Context {Q I : Type}.
Variable e : env R_arith Q I.
Variables (d : R) (s0 : Z) (n : nat).
Hypothesis d_pos : 0 < d.
Hypothesis n_enough : t_end e <= d * IZR (s0 + Z.of_nat n).
Hypothesis n_least : d * IZR (s0 + Z.of_nat n - 1) < t_end e.

Local Notation T := (time_at (t_end e) d).
Lemma below k : (k <= s0 + Z.of_nat n - 1)%Z -> d * IZR k < t_end e.
Proof. intros H. apply Rle_lt_trans with (d * IZR (s0 + Z.of_nat n - 1)); [|exact n_least]. apply Rmult_le_compat_l; [lra|]. now apply IZR_le. Qed.
Lemma T_before k : (k <= s0 + Z.of_nat n - 1)%Z -> T k = d * IZR k.
Proof. intros H. unfold time_at. apply Rmin_right. left. now apply below. Qed.
Lemma T_end k : (s0 + Z.of_nat n <= k)%Z -> T k = t_end e.
Proof. intros H. unfold time_at. apply Rmin_left. apply Rle_trans with (1 := n_enough). apply Rmult_le_compat_l; [lra|]. now apply IZR_le. Qed.

Definition flags_zero (l : list (call R_arith)) := Forall (fun c => c_flag c = 0%Z) l.
Record inv (j : nat) (s : sim R_arith Q I) : Prop := {
  i_t : t s = T (s0 + Z.of_nat j);
  i_dt : (j < n)%nat -> dt s = d;
  i_id : step_id s = (s0 + Z.of_nat j)%Z;
  i_len : length (calls s) = j;
  i_calls : ideal_calls (t_end e) d s0 (calls s) }.

Lemma ltb_R a b : ltb R_arith a b = true <-> a < b.
Proof. cbn. destruct (Rlt_dec a b); split; intro; auto; try discriminate; contradiction. Qed.

Lemma next_time_ok j s : (j < n)%nat -> inv j s -> next_time e s = T (s0 + Z.of_nat (S j)) /\ next_dt e s = T (s0 + Z.of_nat (S j)) - T (s0 + Z.of_nat j).
Proof.
  intros L [Ht Hd _ _ _]. unfold next_time, next_dt. rewrite Hd by exact L. rewrite Ht.
  rewrite (T_before (s0 + Z.of_nat j)) by lia.
  assert (E : add R_arith (d * IZR (s0 + Z.of_nat j)) d = d * IZR (s0 + Z.of_nat (S j))).
  { cbn [add R_arith num]. replace (s0 + Z.of_nat (S j))%Z with (s0 + Z.of_nat j + 1)%Z by lia. rewrite (plus_IZR _ 1). ring. }
  rewrite E. cbn [ltb R_arith]. destruct (Rlt_dec (t_end e) (d * IZR (s0 + Z.of_nat (S j)))) as [G|G].
  - unfold time_at. rewrite Rmin_left by lra. split; reflexivity.
  - unfold time_at. rewrite Rmin_right by lra. split; [reflexivity|]. rewrite <- E. cbn [add R_arith num]. ring.
Qed.

Lemma next_call_ok j s : (j < n)%nat -> inv j s -> ideal_call (t_end e) d s0 (next_call e s) (S j) /\ ideal_calls (t_end e) d s0 (calls s ++ [next_call e s]).
Proof.
  intros L H. assert (K : ideal_call (t_end e) d s0 (next_call e s) (S j)).
  { destruct (next_time_ok j s L H) as [E1 E2]. unfold ideal_call, next_call. cbn [c_step c_t c_dt]. rewrite (i_id _ _ H). split; [lia|]. split; [exact E1|].
    rewrite E2. do 2 f_equal. lia. }
  split; [exact K|]. intros k c Hc. destruct (Nat.lt_ge_cases k (length (calls s))) as [B|B].
  - rewrite nth_error_app1 in Hc by exact B. now apply (i_calls _ _ H).
  - rewrite nth_error_app2 in Hc by exact B. destruct (k - length (calls s))%nat eqn:D; [|destruct n0; discriminate].
    injection Hc as <-. rewrite (i_len _ _ H) in *. replace k with j by lia. exact K.
Qed.

Lemma inv_next j s : (j < n)%nat -> inv j s -> inv (S j) (next_sim e s).
Proof.
  intros L H. destruct (next_time_ok j s L H) as [E1 E2]. destruct (next_call_ok j s L H) as [_ K]. constructor; cbn [t dt step_id calls next_sim].
  - exact E1.
  - intros L'. rewrite E2. rewrite !T_before by lia. replace (s0 + Z.of_nat (S j))%Z with (s0 + Z.of_nat j + 1)%Z by lia. rewrite (plus_IZR _ 1). cbn [num R_arith]. ring.
  - rewrite (i_id _ _ H). lia.
  - rewrite app_length, (i_len _ _ H). cbn. lia.
  - exact K.
Qed.

Lemma running j s : inv j s -> (t s < t_end e <-> (j < n)%nat \/ (n < j)%nat /\ False).
Proof.
  intros H. rewrite (i_t _ _ H). split.
  - intros L. left. destruct (Nat.lt_ge_cases j n) as [|G]; [assumption|]. rewrite T_end in L by lia. lra.
  - intros [L|[_ []]]. rewrite T_before by lia. apply below. lia.
Qed.

(** what a run that ends looks like *)
Definition final_ok (s' : sim R_arith Q I) : Prop :=
  ideal_calls (t_end e) d s0 (calls s') /\ (length (calls s') <= n)%nat /\ t s' = T (s0 + Z.of_nat (length (calls s'))) /\
  step_id s' = (s0 + Z.of_nat (length (calls s')))%Z /\
  forall before c, calls s' = before ++ [c] -> flags_zero before.

Lemma loop_ok : forall m j s, (j + m = n)%nat -> inv j s -> flags_zero (calls s) ->
  match loop e m s with
  | OutOfFuel => False
  | Error s' => final_ok s'
  | Finished s' => final_ok s' /\ (length (calls s') = n \/ exists before c, calls s' = before ++ [c] /\ c_flag c <> 0%Z)
  end.
Proof.
  assert (FIN : forall j s, (j < n)%nat -> inv j s -> flags_zero (calls s) -> forall x, calls x = calls s ++ [next_call e s] -> t x = next_time e s -> step_id x = (step_id s + 1)%Z -> final_ok x).
  { intros j s L H F x Hx Ht Hi. destruct (next_time_ok j s L H) as [E1 _]. destruct (next_call_ok j s L H) as [_ K].
    unfold final_ok. rewrite Hx, app_length, (i_len _ _ H), Ht, Hi, (i_id _ _ H). cbn [length].
    split; [exact K|]. split; [lia|]. split; [rewrite E1; f_equal; lia|]. split; [lia|].
    intros b c Eb. apply app_inj_tail in Eb. destruct Eb as [<- _]. exact F. }
  induction m as [|m IH]; intros j s E H F; cbn [loop]; rewrite step_eq.
  - destruct (ltb R_arith (t s) (t_end e)) eqn:B.
    + apply ltb_R in B. apply (running j s H) in B. exfalso. lia.
    + split.
      * unfold final_ok. rewrite (i_len _ _ H), (i_id _ _ H), (i_t _ _ H). split; [exact (i_calls _ _ H)|]. repeat split; try lia.
        intros b c Eb. unfold flags_zero in *. rewrite Eb in F. apply Forall_app in F. tauto.
      * left. rewrite (i_len _ _ H). lia.
  - destruct (ltb R_arith (t s) (t_end e)) eqn:B.
    + assert (L : (j < n)%nat) by lia. destruct (has_nan e (stepped_q e s)); [apply (FIN j s L H F); reflexivity|].
      destruct (Z.eqb_spec (failure_flag e (next_integ e s)) 0) as [Z0|Z0].
      * apply (IH (S j)); [lia | apply inv_next; assumption|]. unfold flags_zero. cbn [calls next_sim]. apply Forall_app. split; [exact F|]. constructor; [exact Z0|constructor].
      * split; [apply (FIN j s L H F); reflexivity|]. right. exists (calls s), (next_call e s). split; [reflexivity|exact Z0].
    + exfalso. assert (X : ltb R_arith (t s) (t_end e) = true) by (apply ltb_R, (running j s H); lia). congruence.
Qed.
End Loop.

(** announced number of steps *)
Lemma announced_needed (t_end d : R) (s0 n : Z) : 0 < d -> ceil_div R_arith t_end d = Some (n + s0)%Z ->
  ((0 <= n)%Z -> steps_needed t_end d s0 n) /\ ((n <= 0)%Z -> t_end <= d * IZR s0).
Proof.
  intros D. cbn [ceil_div R_arith]. destruct (Req_EM_T d 0) as [|_]; [lra|]. intros [= E].
  assert (U : t_end <= d * IZR (s0 + n)).
  { replace (s0 + n)%Z with (Zceil (t_end / d)) by lia. pose proof (Zceil_ub (t_end / d)) as H. apply Rmult_le_compat_l with (r := d) in H; [|lra].
    replace (d * (t_end / d)) with t_end in H by (field; lra). exact H. }
  split.
  - intros N. split; [exact N|]. split; [exact U|]. intros k [_ K]. destruct (Rlt_le_dec (d * IZR k) t_end) as [|G]; [assumption|]. exfalso.
    assert (C : (Zceil (t_end / d) <= k)%Z).
    { apply Zceil_glb. apply Rmult_le_reg_l with d; [lra|]. replace (d * (t_end / d)) with t_end by (field; lra). exact G. }
    lia.
  - intros N. apply Rle_trans with (1 := U). apply Rmult_le_compat_l; [lra|]. apply IZR_le. lia.
Qed.

Section Init.
Context {Q I : Type}.
Implicit Types (e : env R_arith Q I).
Lemma init_eq e d x i s n : init e d x i = Some (s, n) ->
  ceil_div R_arith (t_end e) d = Some (n + starting_step e)%Z /\ t s = d * IZR (starting_step e) /\ dt s = d /\ step_id s = starting_step e /\
  calls s = [] /\ integ s = i /\ initial_q s = q s.
Proof.
  unfold init. destruct (output_step _ _ _ _ _ _ _) as [o q1]. destruct (ceil_div R_arith (t_end e) d) as [c|]; [|discriminate].
  intros [= <- <-]. cbn. repeat split. f_equal. lia.
Qed.

Lemma run_ok e d x i s n : 0 < d -> init e d x i = Some (s, n) ->
  match run e (Z.to_nat n) s with
  | OutOfFuel => False
  | Error s' | Finished s' =>
      ideal_calls (t_end e) d (starting_step e) (calls s') /\ (length (calls s') <= Z.to_nat n)%nat /\
      step_id s' = (starting_step e + Z.of_nat (length (calls s')))%Z /\
      (calls s' <> [] -> t s' = time_at (t_end e) d (step_id s')) /\ (calls s' = [] -> t s' = t s) /\
      (forall before c, calls s' = before ++ [c] -> flags_zero before)
  end /\ forall s', run e (Z.to_nat n) s = Finished s' -> length (calls s') = Z.to_nat n \/ exists before c, calls s' = before ++ [c] /\ c_flag c <> 0%Z.
Proof.
  intros D E. destruct (init_eq _ _ _ _ _ _ E) as [EC [Et [Ed [Ei [El [Eg Eq]]]]]]. unfold run.
  set (s1 := Build_sim _ _ _ _ _ _ _ _ _ _ _).
  destruct (announced_needed _ _ _ _ D EC) as [N1 N2]. destruct (Z_lt_le_dec 0 n) as [P|P].
  - destruct (N1 ltac:(lia)) as [_ [U L]].
    assert (H : inv e d (starting_step e) (Z.to_nat n) 0 s1).
    { unfold s1. constructor; cbn [t dt step_id calls]; try assumption.
      - rewrite Et. unfold time_at. rewrite Z.add_0_r, Rmin_right; [reflexivity|]. left. apply L. lia.
      - intros _. exact Ed.
      - lia.
      - now rewrite El.
      - rewrite El. intros [|j] c Hc; discriminate. }
    pose proof (loop_ok e d (starting_step e) (Z.to_nat n) D) as LK. rewrite Z2Nat.id in LK by lia.
    specialize (LK U (L (starting_step e + n - 1)%Z ltac:(lia)) (Z.to_nat n) 0%nat s1 eq_refl H). unfold s1 in LK at 1. cbn [calls] in LK. rewrite El in LK. specialize (LK (Forall_nil _)). fold s1 in LK.
    assert (GEN : forall s', final_ok e d (starting_step e) (Z.to_nat n) s' -> 
       ideal_calls (t_end e) d (starting_step e) (calls s') /\ (length (calls s') <= Z.to_nat n)%nat /\
       step_id s' = (starting_step e + Z.of_nat (length (calls s')))%Z /\
       (calls s' <> [] -> t s' = time_at (t_end e) d (step_id s')) /\ (calls s' = [] -> t s' = t s) /\
       (forall before c, calls s' = before ++ [c] -> flags_zero before)).
    { intros s' [F1 [F2 [F3 [F4 F5]]]]. split; [exact F1|]. split; [exact F2|]. split; [exact F4|]. split; [|split; [|exact F5]].
      - intros _. rewrite F4. exact F3.
      - intros C. rewrite F3, C. cbn [length]. rewrite Et. unfold time_at. rewrite Z.add_0_r, Rmin_right; [reflexivity|]. left. apply L. lia. }
    destruct (loop e (Z.to_nat n) s1) as [s'|s'|] eqn:R.
    + split; [apply GEN, LK|]. intros s'' [= <-]. apply LK.
    + split; [apply GEN, LK|]. discriminate.
    + contradiction.
  - assert (ST : step e s1 = Stopped s1).
    { rewrite step_eq. destruct (ltb R_arith (t s1) (t_end e)) eqn:B; [|reflexivity]. apply ltb_R in B. unfold s1 in B. cbn [t] in B. rewrite Et in B. specialize (N2 P). lra. }
    assert (LE : loop e (Z.to_nat n) s1 = Finished s1) by (destruct (Z.to_nat n); cbn [loop]; rewrite ST; reflexivity).
    rewrite LE. split.
    + unfold s1. cbn [calls t step_id]. rewrite El. split; [intros [|j] c Hc; discriminate|]. split; [cbn; lia|]. split; [cbn; lia|]. split; [contradiction|]. split; [reflexivity|].
      intros [|? ?] c0 X; discriminate.
    + intros s'' [= <-]. left. unfold s1. cbn [calls]. rewrite El. cbn. lia.
Qed.

Lemma calls_flag e : forall m s s', loop e m s = Finished s' -> forall c, In c (calls s') -> In c (calls s) \/ exists i, c_flag c = failure_flag e i.
Proof.
  induction m as [|m IH]; intros s s'; cbn [loop]; rewrite step_eq; (destruct (ltb R_arith (t s) (t_end e)); [destruct (has_nan e _); [discriminate|]; destruct (_ =? 0)%Z |]).
  - discriminate.
  - intros [= <-] c H. cbn [calls next_sim] in H. apply in_app_or in H. destruct H as [H|[<-|[]]]; [now left|]. right. eexists. reflexivity.
  - intros [= <-] c H. now left.
  - intros H c Hc. destruct (IH _ _ H c Hc) as [K|K]; [|now right]. cbn [calls next_sim] in K. apply in_app_or in K. destruct K as [K|[<-|[]]]; [now left|]. right. eexists. reflexivity.
  - intros [= <-] c H. cbn [calls next_sim] in H. apply in_app_or in H. destruct H as [H|[<-|[]]]; [now left|]. right. eexists. reflexivity.
  - intros [= <-] c H. now left.
Qed.
Lemma no_error e : never_fails e -> forall m s s', loop e m s <> Error s'.
Proof.
  intros [_ HN]. induction m as [|m IH]; intros s s'; cbn [loop]; rewrite step_eq; destruct (ltb R_arith (t s) (t_end e)); rewrite ?HN; try discriminate; destruct (failure_flag e (next_integ e s) =? 0)%Z; try discriminate; apply IH.
Qed.

Lemma run_complete e d x i s n : 0 < d -> init e d x i = Some (s, n) -> never_fails e ->
  exists s', run e (Z.to_nat n) s = Finished s' /\ length (calls s') = Z.to_nat n /\
    ideal_calls (t_end e) d (starting_step e) (calls s') /\
    ((0 < n)%Z -> t s' = t_end e /\ step_id s' = (starting_step e + n)%Z).
Proof.
  intros D E NF. destruct (run_ok e d x i s n D E) as [A B]. destruct (run e (Z.to_nat n) s) as [s'|s'|] eqn:R.
  - exists s'. split; [reflexivity|]. destruct A as [A1 [A2 [A3 [A4 _]]]].
    assert (LN : length (calls s') = Z.to_nat n).
    { destruct (B s' eq_refl) as [L|[b [c [C F]]]]; [exact L|]. exfalso.
      unfold run in R. destruct (calls_flag _ _ _ _ R c) as [X|[j X]].
      - rewrite C. apply in_or_app. right. now left.
      - cbn [calls] in X. destruct (init_eq _ _ _ _ _ _ E) as [_ [_ [_ [_ [El _]]]]]. rewrite El in X. destruct X.
      - destruct NF as [NF _]. rewrite NF in X. contradiction. }
    split; [exact LN|]. split; [exact A1|]. intros P. rewrite LN, Z2Nat.id in A3 by lia. split; [|exact A3].
    rewrite A4; [|intros C; rewrite C in LN; cbn in LN; lia]. rewrite A3. destruct (init_eq _ _ _ _ _ _ E) as [EC _].
    destruct (announced_needed _ _ _ _ D EC) as [N _]. destruct (N ltac:(lia)) as [_ [U _]]. unfold time_at. apply Rmin_left. exact U.
  - exfalso. unfold run in R. exact (no_error e NF _ _ _ R).
  - contradiction.
Qed.
End Init.

(** * C20 *)
Lemma loop_idle {A Q I} (e : env A Q I) fuel s : ltb A (t s) (t_end e) = false -> loop e fuel s = Finished s.
Proof. intros H. destruct fuel; cbn [loop]; rewrite step_eq, H; reflexivity. Qed.

Lemma second_run_idle {A Q I} (e : env A Q I) fuel s : ltb A (t s) (t_end e) = false ->
  exists s', run e fuel s = Finished s' /\ calls s' = calls s /\ q s' = initial_q s /\ step_id s' = starting_step e /\ out s' = out s.
Proof. intros H. unfold run. rewrite loop_idle by exact H. eexists. split; [reflexivity|]. repeat split. Qed.

Lemma rerun {Q I} (e : env R_arith Q I) d x i s n : 0 < d -> init e d x i = Some (s, n) -> never_fails e -> (0 < n)%Z ->
  exists s1 s2, run e (Z.to_nat n) s = Finished s1 /\ length (calls s1) = Z.to_nat n /\
    run e (Z.to_nat n) s1 = Finished s2 /\ calls s2 = calls s1 /\ step_id s2 = starting_step e.
Proof.
  intros D E NF P. destruct (run_complete e d x i s n D E NF) as [s1 [R1 [L1 [_ T1]]]]. destruct (T1 P) as [Tt _].
  destruct (second_run_idle e (Z.to_nat n) s1) as [s2 [R2 [C2 [_ [S2 _]]]]].
  { cbn. destruct (Rlt_dec (t s1) (t_end e)); [lra|reflexivity]. }
  exists s1, s2. repeat split; assumption.
Qed.

(** binary64 examples *)
Definition f64_of_int (z : Z) : spec_float := binary_normalize 53 1024 z 0 false.
Definition f64_tenth : spec_float := S754_finite false 7205759403792794 (-56).
Definition no_output : freqs := {| output_freq := 0; save_state_freq := 0; stat_freq := 0 |}.
Definition counter_env (te : spec_float) (s0 : Z) (fr : freqs) : env f64_arith Z unit :=
  Build_env f64_arith Z unit te s0 (fun u x _ => (u, x + 1)%Z) (fun _ => 0%Z) (fun x _ => x) (fun _ => false) (fun _ x => x) fr (fun x => x).

Definition rerun_test : bool :=
  let e := counter_env (f64_of_int 2) 0 no_output in
  match init e (f64_of_int 1) 0%Z tt with
  | Some (s, n) => match run e 5 s with
                   | Finished s1 => match run e 5 s1 with Finished s2 => (n =? 2)%Z && (q s1 =? 2)%Z && (q s2 =? 0)%Z | _ => false end
                   | _ => false
                   end
  | None => false
  end.
Lemma rerun_check : rerun_test = true.
Proof. vm_compute. reflexivity. Qed.
Lemma rerun_example : exists (e : env f64_arith Z unit) d s n s1 s2, never_fails e /\ init e d 0%Z tt = Some (s, n) /\ n = 2%Z /\
  run e 5 s = Finished s1 /\ q s1 = 2%Z /\ run e 5 s1 = Finished s2 /\ q s2 = 0%Z.
Proof.
  exists (counter_env (f64_of_int 2) 0 no_output), (f64_of_int 1). pose proof rerun_check as C. unfold rerun_test in C.
  destruct (init (counter_env (f64_of_int 2) 0 no_output) (f64_of_int 1) 0%Z tt) as [[s n]|]; [|discriminate].
  destruct (run _ 5 s) as [s1| |] eqn:R1; try discriminate. destruct (run _ 5 s1) as [s2| |] eqn:R2; try discriminate.
  apply andb_prop in C. destruct C as [C C3]. apply andb_prop in C. destruct C as [C1 C2]. apply Z.eqb_eq in C1, C2, C3.
  exists s, n, s1, s2. split; [split; reflexivity|]. repeat split; assumption.
Qed.

(** C19 in binary64: 1.0 / 0.1 announces 10 steps, 11 are performed *)
Definition count_test : bool :=
  let e := counter_env (f64_of_int 1) 0 no_output in
  match init e f64_tenth 0%Z tt with
  | Some (s, n) => match run e 20 s with Finished s' => (n =? 10)%Z && (length (calls s') =? 11)%nat && (step_id s' =? 11)%Z | _ => false end
  | None => false
  end.
Lemma count_check : count_test = true.
Proof. vm_compute. reflexivity. Qed.
Lemma float_step_count : exists (e : env f64_arith Z unit) d s n s', never_fails e /\ t_end e = f64_of_int 1 /\ d = f64_tenth /\
  init e d 0%Z tt = Some (s, n) /\ n = 10%Z /\ run e 20 s = Finished s' /\ length (calls s') = 11%nat /\ step_id s' = 11%Z.
Proof.
  exists (counter_env (f64_of_int 1) 0 no_output), f64_tenth. pose proof count_check as C. unfold count_test in C.
  destruct (init (counter_env (f64_of_int 1) 0 no_output) f64_tenth 0%Z tt) as [[s n]|]; [|discriminate].
  destruct (run _ 20 s) as [s'| |] eqn:R1; try discriminate.
  apply andb_prop in C. destruct C as [C C3]. apply andb_prop in C. destruct C as [C1 C2]. apply Z.eqb_eq in C1, C3. apply Nat.eqb_eq in C2.
  exists s, n, s'. split; [split; reflexivity|]. split; [reflexivity|]. repeat split; assumption.
Qed.

(** * C22 *)
Section Output.
Context {A : arith} {Q : Type}.
Implicit Types o : outstate (num A) Q.
Local Notation ostep := (output_step (times A)).
Ltac out := unfold output_step; destruct (due (output_freq _) _), (due (save_state_freq _) _), (due (stat_freq _) _); cbn [fst world num_writes num_save_states num_blockstats];
  unfold wrote_at, saved_at, stats_at; rewrite ?flat_map_app; cbn [flat_map]; rewrite ?app_nil_r, ?Z.add_0_r; reflexivity.
Lemma wrote_output fr w o x d k : wrote_at (world (fst (ostep fr w o x d k))) = wrote_at (world o) ++ (if due (output_freq fr) k then [k] else []).
Proof. out. Qed.
Lemma saved_output fr w o x d k : saved_at (world (fst (ostep fr w o x d k))) = saved_at (world o) ++ (if due (save_state_freq fr) k then [k] else []).
Proof. out. Qed.
Lemma stats_output fr w o x d k : stats_at (world (fst (ostep fr w o x d k))) = stats_at (world o) ++ (if due (stat_freq fr) k then [k] else []).
Proof. out. Qed.
Lemma nw_output fr w o x d k : num_writes (fst (ostep fr w o x d k)) = (num_writes o + (if due (output_freq fr) k then 1 else 0))%Z.
Proof. out. Qed.
Lemma ns_output fr w o x d k : num_save_states (fst (ostep fr w o x d k)) = (num_save_states o + (if due (save_state_freq fr) k then 1 else 0))%Z.
Proof. out. Qed.
Lemma nb_output fr w o x d k : num_blockstats (fst (ostep fr w o x d k)) = (num_blockstats o + (if due (stat_freq fr) k then 1 else 0))%Z.
Proof. out. Qed.
End Output.

Lemma in_zrange a b x : In x (zrange a b) <-> (a <= x < b)%Z.
Proof.
  unfold zrange. rewrite in_map_iff. split.
  - intros [k [<- H]]. apply in_seq in H. lia.
  - intros H. exists (Z.to_nat (x - a)). split; [lia|]. apply in_seq. lia.
Qed.
Lemma zrange_snoc a b : (a <= b)%Z -> zrange a (b + 1) = zrange a b ++ [b].
Proof.
  intros H. unfold zrange. replace (Z.to_nat (b + 1 - a)) with (Z.to_nat (b - a) + 1)%nat by lia. rewrite seq_app, map_app. cbn [seq map]. do 2 f_equal. lia.
Qed.
Lemma increasing_snoc l x : increasing l -> (forall y, In y l -> (y < x)%Z) -> increasing (l ++ [x]).
Proof.
  induction l as [|a [|b l] IH]; intros H B; cbn.
  - exact Logic.I.
  - split; [apply B; now left | exact Logic.I].
  - destruct H as [H1 H2]. split; [exact H1|]. apply IH; [exact H2|]. intros y Y. apply B. now right.
Qed.
Lemma filter_zrange_increasing f a n : increasing (filter f (zrange a (a + Z.of_nat n))).
Proof.
  induction n as [|n IH].
  - replace (a + Z.of_nat 0)%Z with a by lia. unfold zrange. rewrite Z.sub_diag. exact Logic.I.
  - replace (a + Z.of_nat (S n))%Z with (a + Z.of_nat n + 1)%Z by lia. rewrite zrange_snoc by lia. rewrite filter_app. cbn [filter].
    destruct (f (a + Z.of_nat n)%Z); [|now rewrite app_nil_r]. apply increasing_snoc; [exact IH|]. intros y Y. apply filter_In in Y. destruct Y as [Y _]. apply in_zrange in Y. lia.
Qed.
Lemma due_multiple f k : due f k = true <-> (0 < f)%Z /\ exists m, k = (m * f)%Z.
Proof.
  unfold due. rewrite andb_true_iff, Z.ltb_lt, Z.eqb_eq. split; intros [P H]; split; try assumption.
  - exists (k / f)%Z. rewrite (Z.div_mod k f) at 1 by lia. lia.
  - destruct H as [m ->]. apply Z_mod_mult.
Qed.
Lemma multiples_filter f a b : multiples_between f a b (filter (due f) (zrange a (b + 1))).
Proof.
  split.
  - destruct (Z_lt_le_dec b a) as [L|L].
    + unfold zrange. replace (Z.to_nat (b + 1 - a)) with 0%nat by lia. exact Logic.I.
    + replace (b + 1)%Z with (a + Z.of_nat (Z.to_nat (b + 1 - a)))%Z by lia. apply filter_zrange_increasing.
  - intros s. rewrite filter_In, in_zrange, due_multiple. split; intros [H1 H2]; [destruct H2|destruct H2]; repeat split; try assumption; try lia; auto.
Qed.

Section Frequency.
Context {A : arith} {Q I : Type}.
Variable e : env A Q I.
Local Notation s0 := (starting_step e).
Definition logged (o : outstate (num A) Q) (k : Z) : Prop :=
  wrote_at (world o) = filter (due (output_freq (out_freqs e))) (zrange s0 (k + 1)) /\
  saved_at (world o) = filter (due (save_state_freq (out_freqs e))) (zrange s0 (k + 1)) /\
  stats_at (world o) = filter (due (stat_freq (out_freqs e))) (zrange s0 (k + 1)) /\
  num_writes o = Z.of_nat (length (wrote_at (world o))) /\ num_save_states o = Z.of_nat (length (saved_at (world o))) /\
  num_blockstats o = Z.of_nat (length (stats_at (world o))).

Lemma logged_output o x d k : (s0 <= k)%Z -> logged o (k - 1) -> logged (fst (output_step (times A) (out_freqs e) (write_effect e) o x d k)) k.
Proof.
  intros L [H1 [H2 [H3 [N1 [N2 N3]]]]]. unfold logged. rewrite !wrote_output, !saved_output, !stats_output, nw_output, ns_output, nb_output.
  replace (k - 1 + 1)%Z with k in * by lia. rewrite (zrange_snoc s0 k L), !filter_app. cbn [filter]. rewrite H1, H2, H3 in *. rewrite !app_length, !Nat2Z.inj_add, <- N1, <- N2, <- N3.
  destruct (due (output_freq _) k), (due (save_state_freq _) k), (due (stat_freq _) k); repeat split; reflexivity.
Qed.
Lemma logged_init d x i s n : init e d x i = Some (s, n) -> logged (out s) (step_id s) /\ step_id s = s0 /\ calls s = [].
Proof.
  unfold init. destruct (output_step _ _ _ _ _ _ _) as [o q1] eqn:E. destruct (ceil_div _ _ _); [|discriminate]. intros [= <- <-]. cbn.
  split; [|auto]. change o with (fst (o, q1)). rewrite <- E. apply logged_output; [lia|].
  replace (s0 - 1)%Z with (s0 - 1)%Z by lia. unfold logged. cbn. unfold zrange. replace (Z.to_nat (s0 - 1 + 1 - s0)) with 0%nat by lia. cbn. repeat split; reflexivity.
Qed.
Lemma logged_loop : forall m s s', (s0 <= step_id s)%Z -> logged (out s) (step_id s) -> loop e m s = Finished s' -> logged (out s') (step_id s') /\ (s0 <= step_id s')%Z.
Proof.
  assert (NX : forall s, (s0 <= step_id s)%Z -> logged (out s) (step_id s) -> logged (out (next_sim e s)) (step_id (next_sim e s)) /\ (s0 <= step_id (next_sim e s))%Z).
  { intros s L H. cbn [out step_id next_sim]. split; [|lia]. apply logged_output; [lia|]. replace (step_id s + 1 - 1)%Z with (step_id s) by lia. exact H. }
  induction m as [|m IH]; intros s s' L H; cbn [loop]; rewrite step_eq; destruct (ltb A (t s) (t_end e)); try destruct (has_nan e (stepped_q e s)); try discriminate;
    try (intros [= <-]; auto; fail); destruct (failure_flag e (next_integ e s) =? 0)%Z; try discriminate; try (intros [= <-]; now apply NX).
  apply IH; now apply NX.
Qed.
Lemma logged_run d x i s n fuel s' : init e d x i = Some (s, n) -> run e fuel s = Finished s' -> logged (out s') (step_id s') /\ (s0 <= step_id s')%Z.
Proof.
  intros E R. destruct (logged_init _ _ _ _ _ E) as [H [S _]]. unfold run in R. apply logged_loop in R; [exact R| |]; cbn [step_id out]; [lia|]. rewrite <- S. exact H.
Qed.
End Frequency.

Lemma output_schedule {A Q I} (e : env A Q I) d x i s n fuel s' : init e d x i = Some (s, n) -> run e fuel s = Finished s' ->
  let o := out s' in let fr := out_freqs e in
  multiples_between (output_freq fr) (starting_step e) (step_id s') (wrote_at (world o)) /\
  multiples_between (save_state_freq fr) (starting_step e) (step_id s') (saved_at (world o)) /\
  multiples_between (stat_freq fr) (starting_step e) (step_id s') (stats_at (world o)) /\
  num_writes o = Z.of_nat (length (wrote_at (world o))) /\ num_save_states o = Z.of_nat (length (saved_at (world o))) /\
  num_blockstats o = Z.of_nat (length (stats_at (world o))).
Proof.
  intros E R. destruct (logged_run e d x i s n fuel s' E R) as [[H1 [H2 [H3 HN]]] _]. cbv zeta. split; [rewrite H1; apply multiples_filter|]. split; [rewrite H2; apply multiples_filter|].
  split; [rewrite H3; apply multiples_filter|]. exact HN.
Qed.

(** * C21 *)
Section Restart.
Context {A : arith} {Q I : Type}.
Lemma trajectory_step (e : env A Q I) k fr s1 s2 s1' : memoryless e -> (forall x, write_effect e x = x) -> same_trajectory s1 s2 -> step e s1 = Going s1' ->
  exists s2', step (restarted e k fr) s2 = Going s2' /\ same_trajectory s1' s2'.
Proof.
  intros ML WE [E1 [E2 [E3 E4]]] G. destruct (going_inv _ _ _ G) as [-> [T [N F]]].
  assert (ND : next_dt (restarted e k fr) s2 = next_dt e s1) by (unfold next_dt; cbn [t_end restarted]; rewrite E1, E2; reflexivity).
  assert (NT : next_time (restarted e k fr) s2 = next_time e s1) by (unfold next_time; cbn [t_end restarted]; rewrite E1, E2; reflexivity).
  destruct (ML (integ s2) (integ s1) (q s1) (next_dt e s1)) as [M1 M2].
  assert (SQ : stepped_q (restarted e k fr) s2 = stepped_q e s1) by (unfold stepped_q; rewrite ND; cbn [filters integ_step restarted]; rewrite <- E4, M1; reflexivity).
  assert (WQ : windy_q (restarted e k fr) s2 = windy_q e s1) by (unfold windy_q; rewrite NT, SQ; reflexivity).
  exists (next_sim (restarted e k fr) s2). split.
  - rewrite step_eq, SQ. cbn [t_end has_nan failure_flag restarted]. rewrite <- E1, T, N. unfold next_integ. rewrite ND. cbn [integ_step restarted]. rewrite <- E4, M2.
    change (failure_flag e (fst (integ_step e (integ s1) (q s1) (next_dt e s1)))) with (failure_flag e (next_integ e s1)). rewrite F. reflexivity.
  - unfold same_trajectory. cbn [t dt step_id q next_sim]. rewrite NT, ND, E3. repeat split; try reflexivity.
    unfold next_output. rewrite !output_id by exact WE. symmetry. exact WQ.
Qed.
Lemma trajectory_steps (e : env A Q I) k fr : memoryless e -> (forall x, write_effect e x = x) -> forall m s1 s2 s1', same_trajectory s1 s2 -> steps e m s1 s1' ->
  exists s2', steps (restarted e k fr) m s2 s2' /\ same_trajectory s1' s2'.
Proof.
  intros ML WE m. induction m as [|m IH]; intros s1 s2 s1' E H; inversion H; subst.
  - exists s2. split; [constructor|exact E].
  - destruct (trajectory_step e k fr _ _ _ ML WE E H1) as [s3 [G E']]. destruct (IH _ _ _ E' H2) as [s4 [G' E'']]. exists s4. split; [econstructor; eassumption|exact E''].
Qed.
Lemma saved_in (e : env A Q I) fr (o : outstate (num A) Q) x d k : due (save_state_freq fr) k = true ->
  In (Saved k (snd (output_step (times A) fr (write_effect e) o x d k))) (world (fst (output_step (times A) fr (write_effect e) o x d k))).
Proof.
  intros D. unfold output_step. rewrite D. destruct (due (output_freq fr) k), (due (stat_freq fr) k); cbn; rewrite ?in_app_iff; cbn; tauto.
Qed.
Lemma world_grows (e : env A Q I) fr (o : outstate (num A) Q) x d k ev : In ev (world o) -> In ev (world (fst (output_step (times A) fr (write_effect e) o x d k))).
Proof.
  intros H. unfold output_step. destruct (due (output_freq fr) k), (due (save_state_freq fr) k), (due (stat_freq fr) k); cbn; rewrite ?in_app_iff; tauto.
Qed.
Lemma steps_snoc_cases e m (s s' : sim A Q I) : steps e m s s' -> (m = 0%nat /\ s = s') \/ exists s1, s' = next_sim e s1 /\ step_id s' = (step_id s1 + 1)%Z.
Proof.
  induction 1 as [|n s s1 s2 G _ IH]; [left; auto|]. right. destruct IH as [[-> <-]|X]; [|exact X].
  destruct (going_inv _ _ _ G) as [-> _]. exists s. auto.
Qed.
Lemma steps_id e m (s s' : sim A Q I) : steps e m s s' -> step_id s' = (step_id s + Z.of_nat m)%Z.
Proof. induction 1 as [|n s s1 s2 G _ IH]; [lia|]. destruct (going_inv _ _ _ G) as [-> _]. rewrite IH. cbn [step_id next_sim]. lia. Qed.
End Restart.

Lemma steps_time {Q I} (e : env R_arith Q I) d : 0 < d -> forall m s s' j, steps e m s s' -> t s = d * IZR j -> dt s = d -> d * IZR (j + Z.of_nat m) <= t_end e ->
  t s' = d * IZR (j + Z.of_nat m) /\ dt s' = d.
Proof.
  intros D m. induction m as [|m IH]; intros s s' j H T0 D0 B; inversion H; subst.
  - rewrite Z.add_0_r. split; [exact T0|reflexivity].
  - destruct (going_inv _ _ _ H1) as [-> _].
    assert (C : add R_arith (t s) (dt s) = dt s * IZR (j + 1)) by (rewrite T0; cbn [add R_arith num]; rewrite plus_IZR; ring).
    assert (LE : dt s * IZR (j + 1) <= t_end e).
    { apply Rle_trans with (2 := B). apply Rmult_le_compat_l; [lra|]. apply IZR_le. lia. }
    assert (NB : ltb R_arith (t_end e) (add R_arith (t s) (dt s)) = false).
    { rewrite C. cbn. destruct (Rlt_dec (t_end e) (dt s * IZR (j + 1))); [lra|reflexivity]. }
    destruct (IH (next_sim e s) s' (j + 1)%Z H2) as [R1 R2].
    + cbn [t next_sim]. unfold next_time. rewrite NB. exact C.
    + cbn [dt next_sim]. unfold next_dt. rewrite NB. reflexivity.
    + replace (j + 1 + Z.of_nat m)%Z with (j + Z.of_nat (S m))%Z by lia. exact B.
    + replace (j + Z.of_nat (S m))%Z with (j + 1 + Z.of_nat m)%Z by lia. split; assumption.
Qed.

Lemma restart_ok {Q I} (e : env R_arith Q I) d x i s n k s1 fr :
  0 < d -> starting_step e = 0%Z -> memoryless e -> (forall y, write_effect e y = y) ->
  init e d x i = Some (s, n) -> steps e k s s1 -> d * IZR (Z.of_nat k) <= t_end e ->
  (0 < save_state_freq (out_freqs e))%Z -> (exists m, Z.of_nat k = (m * save_state_freq (out_freqs e))%Z) ->
  exists y, In (Saved (Z.of_nat k) y) (world (out s1)) /\
    forall i2, exists s2, init (restarted e (Z.of_nat k) fr) d y i2 = Some (s2, n - Z.of_nat k)%Z /\ same_trajectory s1 s2 /\
      forall m s1', steps e m s1 s1' -> exists s2', steps (restarted e (Z.of_nat k) fr) m s2 s2' /\ same_trajectory s1' s2'.
Proof.
  intros D S0 ML WE E ST B SF MU. destruct (init_eq _ _ _ _ _ _ E) as [EC [Et [Ed [Ei [El [Eg Eq]]]]]].
  assert (DUE : due (save_state_freq (out_freqs e)) (Z.of_nat k) = true) by (apply due_multiple; auto).
  destruct (steps_time e d D k s s1 0 ST) as [Tk Dk]; [rewrite Et, S0; reflexivity | exact Ed | exact B|]. cbn [Z.add] in Tk.
  assert (IDk : step_id s1 = Z.of_nat k) by (rewrite (steps_id _ _ _ _ ST), Ei, S0; reflexivity).
  exists (q s1). split.
  - destruct (steps_snoc_cases _ _ _ _ ST) as [[-> <-]|[s2 [-> ID]]].
    + unfold init in E. destruct (output_step _ _ _ _ _ _ _) as [o q1] eqn:O. destruct (ceil_div _ _ _); [|discriminate]. injection E as <- _. cbn [out q].
      change o with (fst (o, q1)). change q1 with (snd (o, q1)) at 1. rewrite <- O, S0. apply saved_in. exact DUE.
    + cbn [out q next_sim]. unfold next_output. rewrite <- ID, IDk. apply saved_in. exact DUE.
  - intros i2. unfold init. destruct (output_step (times R_arith) _ _ _ (q s1) d _) as [o q1] eqn:O. cbn [t_end restarted starting_step]. rewrite EC.
    assert (Q1 : q1 = q s1). { change q1 with (snd (o, q1)). rewrite <- O. apply output_id. exact WE. }
    eexists. split; [do 2 f_equal; rewrite S0; lia|].
    assert (SAME : same_trajectory s1 {| t := times R_arith d (Z.of_nat k); dt := d; step_id := Z.of_nat k; q := q1; initial_q := q1; integ := i2; out := o; calls := [] |}).
    { unfold same_trajectory. cbn [t dt step_id q]. rewrite Tk, Dk, IDk, Q1. repeat split. }
    split; [exact SAME|]. intros m s1' Hm. eapply trajectory_steps; eassumption.
Qed.

Definition sf_same (x y : spec_float) : bool :=
  match x, y with
  | S754_zero a, S754_zero b => Bool.eqb a b | S754_infinity a, S754_infinity b => Bool.eqb a b | S754_nan, S754_nan => true
  | S754_finite a m e, S754_finite b n f => Bool.eqb a b && Pos.eqb m n && Z.eqb e f | _, _ => false
  end.
Lemma sf_same_eq x y : sf_same x y = true -> x = y.
Proof.
  destruct x, y; cbn; try discriminate; try reflexivity; intros H; try (apply eqb_prop in H; now subst).
  apply andb_prop in H. destruct H as [H H3]. apply andb_prop in H. destruct H as [H1 H2]. apply eqb_prop in H1. apply Pos.eqb_eq in H2. apply Z.eqb_eq in H3. now subst.
Qed.
(** binary64: restart at step 10 of the run above *)
Definition save_every_step : freqs := {| output_freq := 0; save_state_freq := 1; stat_freq := 0 |}.
Definition restart_test : bool :=
  let e := counter_env (f64_of_int 1) 0 save_every_step in let e2 := restarted e 10 no_output in
  match init e f64_tenth 0%Z tt, init e2 f64_tenth 10%Z tt with
  | Some (s, _), Some (s2, _) =>
      match run e 20 s, run e2 20 s2 with
      | Finished s', Finished s2' => existsb (fun ev => match ev with Saved a b => (a =? 10)%Z && (b =? 10)%Z | _ => false end) (world (out s')) &&
          (SFeqb (t s') (t s2') && sf_same (t s') (t s2')) && ((step_id s' =? 11)%Z && (step_id s2' =? 10)%Z) && negb (q s' =? q s2')%Z
      | _, _ => false
      end
  | _, _ => false
  end.
Lemma restart_test_true : restart_test = true.
Proof. vm_compute. reflexivity. Qed.
Lemma float_restart : exists (e : env f64_arith Z unit) d s n s' s2 n2 s2', memoryless e /\ (forall x, write_effect e x = x) /\ never_fails e /\
  starting_step e = 0%Z /\ init e d 0%Z tt = Some (s, n) /\ run e 20 s = Finished s' /\
  In (Saved 10%Z 10%Z) (world (out s')) /\ init (restarted e 10 no_output) d 10%Z tt = Some (s2, n2) /\
  run (restarted e 10 no_output) 20 s2 = Finished s2' /\ t s' = t s2' /\ step_id s' = 11%Z /\ step_id s2' = 10%Z /\ q s' <> q s2'.
Proof.
  exists (counter_env (f64_of_int 1) 0 save_every_step), f64_tenth. pose proof restart_test_true as C. unfold restart_test in C.
  destruct (init (counter_env (f64_of_int 1) 0 save_every_step) f64_tenth 0%Z tt) as [[s n]|]; [|discriminate].
  destruct (init (restarted (counter_env (f64_of_int 1) 0 save_every_step) 10 no_output) f64_tenth 10%Z tt) as [[s2 n2]|]; [|discriminate].
  destruct (run _ 20 s) as [s'| |] eqn:R1; try discriminate. destruct (run _ 20 s2) as [s2'| |] eqn:R2; try discriminate.
  apply andb_prop in C. destruct C as [C CQ]. apply andb_prop in C. destruct C as [C CF]. apply andb_prop in C. destruct C as [CS CT].
  apply andb_prop in CT. destruct CT as [_ CT]. apply sf_same_eq in CT. apply negb_true_iff, Z.eqb_neq in CQ.
  assert (IN : In (Saved 10%Z 10%Z) (world (out s'))).
  { apply existsb_exists in CS. destruct CS as [[a b c|a b|a b] [H X]]; try discriminate. apply andb_prop in X. destruct X as [X1 X2]. apply Z.eqb_eq in X1, X2. subst. exact H. }
  exists s, n, s', s2, n2, s2'. apply andb_prop in CF. destruct CF as [F1 F2]. apply Z.eqb_eq in F1, F2.
  split; [intros i i' x d; split; reflexivity|]. split; [reflexivity|]. split; [split; reflexivity|]. repeat split; assumption.
Qed.

(** A two-step method: the next state uses the previous one *)
Definition two_step_env (s0 : Z) (fr : freqs) : env f64_arith Z (option Z) :=
  Build_env f64_arith Z (option Z) (f64_of_int 4) s0
    (fun prev x _ => (Some x, match prev with None => x + 1 | Some p => 2 * x - p + 2 end)%Z)
    (fun _ => 0%Z) (fun x _ => x) (fun _ => false) (fun _ x => x) fr (fun x => x).
Definition multistep_test : bool :=
  let e := two_step_env 0 save_every_step in let e2 := restarted e 2 no_output in
  match init e (f64_of_int 1) 0%Z None, init e2 (f64_of_int 1) 4%Z None with
  | Some (s, _), Some (s2, _) =>
      match run e 20 s, run e2 20 s2 with
      | Finished s', Finished s2' => existsb (fun ev => match ev with Saved a b => (a =? 2)%Z && (b =? 4)%Z | _ => false end) (world (out s')) &&
          (SFeqb (t s') (t s2') && sf_same (t s') (t s2')) && (step_id s' =? step_id s2')%Z && negb (q s' =? q s2')%Z
      | _, _ => false
      end
  | _, _ => false
  end.
Lemma multistep_test_true : multistep_test = true.
Proof. vm_compute. reflexivity. Qed.
Lemma multistep_restart : exists (e : env f64_arith Z (option Z)) d s n s' s2 n2 s2', (forall x, write_effect e x = x) /\ never_fails e /\
  starting_step e = 0%Z /\ init e d 0%Z None = Some (s, n) /\ run e 20 s = Finished s' /\
  In (Saved 2%Z 4%Z) (world (out s')) /\ init (restarted e 2 no_output) d 4%Z None = Some (s2, n2) /\
  run (restarted e 2 no_output) 20 s2 = Finished s2' /\ t s' = t s2' /\ step_id s' = step_id s2' /\ q s' <> q s2'.
Proof.
  exists (two_step_env 0 save_every_step), (f64_of_int 1). pose proof multistep_test_true as C. unfold multistep_test in C.
  destruct (init (two_step_env 0 save_every_step) (f64_of_int 1) 0%Z None) as [[s n]|]; [|discriminate].
  destruct (init (restarted (two_step_env 0 save_every_step) 2 no_output) (f64_of_int 1) 4%Z None) as [[s2 n2]|]; [|discriminate].
  destruct (run _ 20 s) as [s'| |] eqn:R1; try discriminate. destruct (run _ 20 s2) as [s2'| |] eqn:R2; try discriminate.
  apply andb_prop in C. destruct C as [C CQ]. apply andb_prop in C. destruct C as [C CF]. apply andb_prop in C. destruct C as [CS CT].
  apply andb_prop in CT. destruct CT as [_ CT]. apply sf_same_eq in CT. apply negb_true_iff, Z.eqb_neq in CQ.
  assert (IN : In (Saved 2%Z 4%Z) (world (out s'))).
  { apply existsb_exists in CS. destruct CS as [[a b c|a b|a b] [H X]]; try discriminate. apply andb_prop in X. destruct X as [X1 X2]. apply Z.eqb_eq in X1, X2. subst. exact H. }
  exists s, n, s', s2, n2, s2'. apply Z.eqb_eq in CF. split; [reflexivity|]. split; [split; reflexivity|]. repeat split; assumption.
Qed.

(** * C23 *)
Section Independence.
Context {A : arith} {Q I : Type}.
Variable e : env A Q I.
Variable fr : freqs.
Hypothesis WE : forall x, write_effect e x = x.
Local Notation e2 := (restarted e (starting_step e) fr).
Lemma twin_step s1 s2 : twin s1 s2 ->
  match step e s1, step e2 s2 with Going a, Going b => twin a b | Stopped a, Stopped b => twin a b | Raised a, Raised b => twin a b | _, _ => False end.
Proof.
  intros TW. assert (TW0 := TW). destruct TW as [[[E1 [E2 [E3 E4]]] E5] [E6 E7]]. rewrite !step_eq. cbn [t_end has_nan failure_flag restarted].
  assert (ND : next_dt e2 s2 = next_dt e s1) by (unfold next_dt; cbn [t_end restarted]; rewrite E1, E2; reflexivity).
  assert (NT : next_time e2 s2 = next_time e s1) by (unfold next_time; cbn [t_end restarted]; rewrite E1, E2; reflexivity).
  assert (NI : next_integ e2 s2 = next_integ e s1) by (unfold next_integ; rewrite ND; cbn [integ_step restarted]; rewrite E4, E5; reflexivity).
  assert (SQ : stepped_q e2 s2 = stepped_q e s1) by (unfold stepped_q; rewrite ND; cbn [integ_step filters restarted]; rewrite E4, E5; reflexivity).
  assert (NC : next_call e2 s2 = next_call e s1) by (unfold next_call; rewrite ND, NT, NI, E3; reflexivity).
  assert (NS : twin (next_sim e s1) (next_sim e2 s2)).
  { unfold twin, same_state, same_trajectory. cbn [t dt step_id q integ calls initial_q next_sim]. rewrite ND, NT, NI, NC, E3, E6, E7. repeat split.
    unfold next_output. rewrite !output_id by exact WE. unfold windy_q. rewrite NT, SQ. reflexivity. }
  rewrite <- E1, SQ, NI. destruct (ltb A (t s1) (t_end e)); [|exact TW0]. destruct (has_nan e (stepped_q e s1)).
  - unfold twin, same_state, same_trajectory. cbn [t dt step_id q integ calls initial_q raised_sim]. rewrite ND, NT, NI, NC, SQ, E3, E6, E7. repeat split.
  - destruct (failure_flag e (next_integ e s1) =? 0)%Z; exact NS.
Qed.
Lemma twin_loop : forall m s1 s2, twin s1 s2 -> twins (loop e m s1) (loop e2 m s2).
Proof.
  induction m as [|m IH]; intros s1 s2 H; cbn [loop]; pose proof (twin_step s1 s2 H) as K; destruct (step e s1), (step e2 s2); try contradiction; cbn; auto.
Qed.
Lemma twin_init d x i : match init e d x i, init e2 d x i with Some (s1, n1), Some (s2, n2) => n1 = n2 /\ twin s1 s2 | None, None => True | _, _ => False end.
Proof.
  unfold init. destruct (output_step (times A) (out_freqs e) _ _ _ _ _) as [o1 q1] eqn:O1. destruct (output_step (times A) (out_freqs e2) _ _ _ _ _) as [o2 q2] eqn:O2.
  cbn [t_end restarted starting_step]. destruct (ceil_div A (t_end e) d); [|exact Logic.I]. split; [reflexivity|].
  assert (q1 = x) by (change q1 with (snd (o1, q1)); rewrite <- O1; apply output_id; exact WE).
  assert (q2 = x) by (change q2 with (snd (o2, q2)); rewrite <- O2; apply output_id; exact WE). subst. repeat split.
Qed.
Lemma twin_run fuel s1 s2 : twin s1 s2 -> twins (run e fuel s1) (run e2 fuel s2).
Proof.
  intros [[[E1 [E2 [E3 E4]]] E5] [E6 E7]]. unfold run. apply twin_loop. unfold twin, same_state, same_trajectory. cbn [t dt step_id q integ calls initial_q]. repeat split; assumption.
Qed.
End Independence.

Lemma list_add_fix a : forall b, list_add a b = a <-> (forall i x y, nth_error a i = Some x -> nth_error b i = Some y -> y = 0).
Proof.
  induction a as [|x a IH]; intros [|y b]; cbn; split; intros H; try reflexivity.
  - intros [|i] ? ? X; discriminate.
  - intros [|i] ? ? X; discriminate.
  - intros [|i] ? ? _ X; discriminate.
  - injection H as H1 H2. intros [|i] u v U V; cbn in *.
    + injection U as <-. injection V as <-. lra.
    + exact (proj1 (IH b) H2 i u v U V).
  - f_equal; [rewrite (H 0%nat x y eq_refl eq_refl); lra|]. apply IH. intros i u v U V. exact (H (S i) u v U V).
Qed.
Lemma netcdf_unchanged hs (x : sw_state) : netcdf_write_effect hs x = x <->
  (forall l, hs = Some l -> forall i a b, nth_error (sw_h x) i = Some a -> nth_error l i = Some b -> b = 0).
Proof.
  destruct hs as [l|]; cbn.
  - split.
    + intros H l' [= <-]. apply list_add_fix. exact (f_equal sw_h H).
    + intros H. destruct x as [h u v]. cbn in *. f_equal. apply list_add_fix. exact (H l eq_refl).
  - split; [discriminate|reflexivity].
Qed.
Definition lake_env (fr : freqs) : env f64_arith sw_state unit :=
  Build_env f64_arith sw_state unit (f64_of_int 1) 0 (fun u x _ => (u, x)) (fun _ => 0%Z) (fun x _ => x) (fun _ => false)
    (fun _ x => x) fr (netcdf_write_effect (Some [1])).
Definition lake : sw_state := {| sw_h := [1]; sw_hu1 := [0]; sw_hu2 := [0] |}.
Definition write_every_step : freqs := {| output_freq := 1; save_state_freq := 0; stat_freq := 0 |}.
Definition lake_test : bool :=
  match init (lake_env no_output) (f64_of_int 1) lake tt, init (lake_env write_every_step) (f64_of_int 1) lake tt with
  | Some (s1, _), Some (s2, _) => match run (lake_env no_output) 5 s1, run (lake_env write_every_step) 5 s2 with Finished _, Finished _ => true | _, _ => false end
  | _, _ => false
  end.
Definition lake_h (fr : freqs) : list R :=
  match init (lake_env fr) (f64_of_int 1) lake tt with
  | Some (s1, _) => match run (lake_env fr) 5 s1 with Finished s => sw_h (q s) | _ => [] end
  | _ => []
  end.
Lemma lake_test_true : lake_test = true.
Proof. vm_compute. reflexivity. Qed.
Lemma lake_dry : lake_h no_output = [1].
Proof. vm_compute. reflexivity. Qed.
Lemma lake_wet : lake_h write_every_step = [1 + 1 + 1].
Proof. vm_compute. reflexivity. Qed.
Lemma output_changes_state : exists s1 n1 s2 n2 s1' s2',
  init (lake_env no_output) (f64_of_int 1) lake tt = Some (s1, n1) /\ init (lake_env write_every_step) (f64_of_int 1) lake tt = Some (s2, n2) /\
  run (lake_env no_output) 5 s1 = Finished s1' /\ run (lake_env write_every_step) 5 s2 = Finished s2' /\ q s1' <> q s2'.
Proof.
  pose proof lake_test_true as C. pose proof lake_dry as H1. pose proof lake_wet as H2. unfold lake_test, lake_h in *.
  destruct (init (lake_env no_output) (f64_of_int 1) lake tt) as [[s1 n1]|]; [|discriminate].
  destruct (init (lake_env write_every_step) (f64_of_int 1) lake tt) as [[s2 n2]|]; [|discriminate].
  destruct (run (lake_env no_output) 5 s1) as [s1'| |] eqn:R1; try discriminate. destruct (run (lake_env write_every_step) 5 s2) as [s2'| |] eqn:R2; try discriminate.
  exists s1, n1, s2, n2, s1', s2'. repeat split; try assumption. intros E. rewrite E, H2 in H1. injection H1 as H1. lra.
Qed.

(** * C24 *)
Lemma sqrt_count k : (0 <= k)%Z -> Z.sqrt (k ^ 2 * 6 / 6) = k.
Proof. intros H. rewrite Z.div_mul by lia. replace (k ^ 2)%Z with (k * k)%Z by ring. apply Z.sqrt_square. exact H. Qed.
Lemma allowed_exact n size : (1 <= n)%Z -> (In size (allowed_pe_counts n) <-> exists k, (1 <= k)%Z /\ size = (6 * k * k)%Z /\ Z.divide k n /\ ((k < n)%Z \/ n = 1%Z)).
Proof.
  intros N. unfold allowed_pe_counts. rewrite in_map_iff. split.
  - intros [k [<- H]]. apply filter_In in H. destruct H as [H M]. apply in_zrange in H. apply Z.eqb_eq in M. exists k. split; [lia|]. split; [ring|].
    split; [apply Z.mod_divide; lia|]. destruct (Z.eq_dec n 1); [now right|left]. pose proof (Z.div_mod n 2 ltac:(lia)). pose proof (Z.mod_pos_bound n 2 ltac:(lia)). lia.
  - intros [k [K [-> [DV L]]]]. exists k. split; [ring|]. apply filter_In. split; [|apply Z.eqb_eq, Z.mod_divide; [lia|exact DV]].
    apply in_zrange. destruct DV as [m ->]. split; [lia|]. destruct L as [L|L].
    + assert (2 <= m)%Z by nia. assert (k <= m * k / 2)%Z by (apply Z.div_le_lower_bound; nia). lia.
    + assert (k = 1)%Z by (destruct (Z.eq_dec k 1); [assumption|exfalso; destruct (Z_le_gt_dec m 0); nia]). lia.
Qed.
Lemma allowed_good n size : (1 <= n)%Z -> In size (allowed_pe_counts n) -> bad_size size = false /\
  exists m, adjust_num_elements n size = Some m /\ (1 <= m)%Z /\ n = (num_lines_per_panel size * m)%Z.
Proof.
  intros N H. assert (H0 := H). apply (allowed_exact n size N) in H. destruct H as [k [K [-> [DV L]]]].
  assert (P : num_pe_per_panel (6 * k * k) = (k * k)%Z) by (unfold num_pe_per_panel; replace (6 * k * k)%Z with (k * k * 6)%Z by ring; apply Z.quot_mul; lia).
  assert (S : num_lines_per_panel (6 * k * k) = k) by (unfold num_lines_per_panel; rewrite P; apply Z.sqrt_square; lia).
  split.
  - unfold bad_size. rewrite S, P. replace (k ^ 2)%Z with (k * k)%Z by ring. rewrite Z.eqb_refl.
    replace (k * k * 6 =? 6 * k * k)%Z with true by (symmetry; apply Z.eqb_eq; ring). destruct (Z.ltb_spec (6 * k * k) 6); [nia|reflexivity].
  - exists (n / k)%Z. unfold adjust_num_elements. destruct (existsb (Z.eqb (6 * k * k)) (allowed_pe_counts n)) eqn:EX.
    + rewrite S. split; [do 2 f_equal; replace (6 * k * k)%Z with (k * k * 6)%Z by ring; rewrite Z.div_mul by lia; apply Z.sqrt_square; lia|].
      destruct DV as [m ->]. rewrite Z.div_mul by lia. split; [nia|ring].
    + exfalso. assert (existsb (Z.eqb (6 * k * k)) (allowed_pe_counts n) = true) by (apply existsb_exists; exists (6 * k * k)%Z; split; [exact H0|apply Z.eqb_refl]). congruence.
Qed.
Lemma adjust_refuses n size : ~ In size (allowed_pe_counts n) -> adjust_num_elements n size = None.
Proof.
  intros H. unfold adjust_num_elements. destruct (existsb (Z.eqb size) (allowed_pe_counts n)) eqn:EX; [|reflexivity].
  apply existsb_exists in EX. destruct EX as [y [Y E]]. apply Z.eqb_eq in E. subst. contradiction.
Qed.

(** * C26 *)
Lemma readable_ok x : value_of x <= 1000 -> exists r, readable_time x = Some r /\
  match r with Zero => value_of x = 0 | Short v _ u => v * u = value_of x | Clock _ _ _ => False end.
Proof.
  intros H. unfold readable_time. destruct (Req_EM_T (value_of x) 0) as [E|E]; [exists Zero; auto|].
  destruct (Rlt_dec (value_of x) (/ 1000000)); [eexists; split; [reflexivity|cbn; field]|].
  destruct (Rlt_dec (value_of x) (/ 1000)); [eexists; split; [reflexivity|cbn; field]|].
  destruct (Rlt_dec (value_of x) 1); [eexists; split; [reflexivity|cbn; field]|].
  destruct (Rlt_dec 1000 (value_of x)); [exfalso; lra|].
  eexists. split; [reflexivity|]. cbn. ring.
Qed.
Lemma readable_fails x : 1000 < x -> readable_time (PyFloat x) = None.
Proof.
  intros H. unfold readable_time. cbn [value_of]. destruct (Req_EM_T x 0); [lra|].
  repeat (match goal with |- context [Rlt_dec ?a ?b] => destruct (Rlt_dec a b) end; try lra). reflexivity.
Qed.
Lemma readable_int_wrong n : (1000 < n)%Z -> readable_time (PyInt n) = Some (Clock (n / 3600) 0 0).
Proof.
  intros H. apply IZR_lt in H. unfold readable_time. cbn [value_of]. destruct (Req_EM_T (IZR n) 0); [lra|].
  repeat (match goal with |- context [Rlt_dec ?a ?b] => destruct (Rlt_dec a b) end; try lra). rewrite Z.sub_diag. reflexivity.
Qed.

(** * C53 *)
Section Stamps.
Context {A : arith} {Q I : Type}.
Variable e : env A Q I.
Variable d : num A.
Local Notation s0 := (starting_step e).
Definition stamped (s : sim A Q I) : Prop := forall k st x, In (Wrote k st x) (world (out s)) ->
  (k = s0 /\ st = times A d s0) \/ exists c, In c (calls s) /\ c_step c = k /\ st = times A (c_dt c) k.
Lemma wrote_in fr w (o : outstate (num A) Q) x dd k j st y : In (Wrote j st y) (world (fst (output_step (times A) fr w o x dd k))) ->
  In (Wrote j st y) (world o) \/ (j = k /\ st = times A dd k).
Proof.
  unfold output_step. destruct (due (output_freq fr) k), (due (save_state_freq fr) k), (due (stat_freq fr) k); cbn; rewrite ?in_app_iff; cbn; intuition; try discriminate;
    match goal with H : Wrote _ _ _ = Wrote _ _ _ |- _ => injection H; intros; subst; auto end.
Qed.
Lemma stamped_next s : stamped s -> stamped (next_sim e s).
Proof.
  intros H k st x X. cbn [out next_sim] in X. apply wrote_in in X. cbn [calls next_sim]. destruct X as [X|[-> ->]].
  - destruct (H _ _ _ X) as [K|[c [C1 C2]]]; [now left|]. right. exists c. split; [apply in_or_app; now left|exact C2].
  - right. exists (next_call e s). split; [apply in_or_app; right; now left|]. split; reflexivity.
Qed.
Lemma stamped_loop : forall m s s', stamped s -> loop e m s = Finished s' -> stamped s'.
Proof.
  induction m as [|m IH]; intros s s' H; cbn [loop]; rewrite step_eq; destruct (ltb A (t s) (t_end e)); try destruct (has_nan e (stepped_q e s)); try discriminate;
    try (intros [= <-]; auto; fail); destruct (failure_flag e (next_integ e s) =? 0)%Z; try discriminate; try (intros [= <-]; now apply stamped_next).
  apply IH. now apply stamped_next.
Qed.
Lemma stamped_init x i s n : init e d x i = Some (s, n) -> stamped s.
Proof.
  unfold init. destruct (output_step _ _ _ _ _ _ _) as [o q1] eqn:O. destruct (ceil_div _ _ _); [|discriminate]. intros [= <- <-] k st y H. cbn [out] in H.
  change o with (fst (o, q1)) in H. rewrite <- O in H. apply wrote_in in H. destruct H as [[]|[-> ->]]. left. auto.
Qed.
End Stamps.

Lemma stamps {Q I} (e : env R_arith Q I) d x i s n s' k st y : 0 < d -> init e d x i = Some (s, n) -> run e (Z.to_nat n) s = Finished s' ->
  In (Wrote k st y) (world (out s')) ->
  (k = starting_step e /\ st = d * IZR k) \/
  ((starting_step e < k)%Z /\ (d * IZR k <= t_end e -> st = d * IZR k) /\ (t_end e < d * IZR k -> st = (t_end e - d * IZR (k - 1)) * IZR k /\ t_end e - st = (IZR k - 1) * (d * IZR k - t_end e))).
Proof.
  intros D E R H. destruct (run_ok e d x i s n D E) as [A _]. rewrite R in A. destruct A as [IC [LN _]].
  assert (S : stamped e d s'). { unfold run in R. eapply stamped_loop; [|exact R]. intros a b c X. cbn [out] in X. exact (stamped_init e d x i s n E a b c X). }
  destruct (S _ _ _ H) as [[-> ->]|[c [C1 [C2 ->]]]]; [left; auto|]. right.
  apply In_nth_error in C1. destruct C1 as [j Hj]. destruct (IC _ _ Hj) as [I1 [I2 I3]]. rewrite C2 in I1.
  split; [lia|]. cbn [times R_arith]. rewrite I3, <- I1.
  destruct (init_eq _ _ _ _ _ _ E) as [EC _]. destruct (announced_needed _ _ _ _ D EC) as [N _].
  assert (P : (0 < n)%Z). { assert (j < length (calls s'))%nat by (apply nth_error_Some; congruence). lia. }
  destruct (N ltac:(lia)) as [_ [_ LT]].
  assert (B : d * IZR (k - 1) < t_end e). { apply LT. assert (j < length (calls s'))%nat by (apply nth_error_Some; congruence). lia. }
  assert (EK : IZR (k - 1) = IZR k - 1) by (rewrite minus_IZR; reflexivity). unfold time_at. rewrite (Rmin_right _ (d * IZR (k - 1))) by lra. split.
  - intros G. rewrite Rmin_right by exact G. cbn [num R_arith]. rewrite EK. ring.
  - intros G. rewrite Rmin_left by lra. cbn [num R_arith]. rewrite EK. split; ring.
Qed.
