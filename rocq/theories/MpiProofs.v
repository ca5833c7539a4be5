(** Lemmas for properties C11 to C13. *)
From Coq Require Import ZArith List Bool Lia Floats.SpecFloat.
From Verif Require Import MpiModel MpiSpec.
Import ListNotations.

Lemma all_some_map {A B} (f : A -> B) l : all_some (map (fun x => Some (f x)) l) = Some (map f l).
Proof. induction l as [|x l IH]; [reflexivity|]. unfold all_some in *. cbn. rewrite IH. reflexivity. Qed.
Lemma all_some_none {A} (l : list (option A)) : In None l -> all_some l = None.
Proof.
  induction l as [|o l IH]; cbn; [tauto|]. intros [->|H]; [reflexivity|]. unfold all_some in *. rewrite (IH H). destruct o; reflexivity.
Qed.

Lemma all_some_cons {A} (o : option A) l : all_some (o :: l) = match o with Some a => match all_some l with Some l => Some (a :: l) | None => None end | None => None end.
Proof. reflexivity. Qed.

Lemma exec_rets {A} fuel (a : nat -> A) l : exec fuel (map (fun r => Ret (a r)) l) = Done (map a l).
Proof.
  assert (H : all_some (map as_ret (map (fun r => Ret (a r)) l)) = Some (map a l)).
  { rewrite map_map. cbn. apply all_some_map. }
  destruct fuel; cbn [exec]; rewrite H; reflexivity.
Qed.

Lemma exec_coll {A} fuel (p : nat -> prog A) (c : nat -> call) (k : nat -> reply -> prog A) rep l : l <> [] ->
  (forall r, In r l -> p r = Coll (c r) (k r)) -> respond (map c l) = Some (map rep l) ->
  exec (S fuel) (map p l) = exec fuel (map (fun r => k r (rep r)) l).
Proof.
  intros Hl Hp Hr.
  rewrite (map_ext_in p (fun r => Coll (c r) (k r)) l Hp). cbn [exec].
  rewrite all_some_none.
  2: { destruct l; [congruence|]. cbn. now left. }
  replace (all_some (map as_coll (map (fun r => Coll (c r) (k r)) l))) with (Some (map (fun r => (c r, k r)) l)).
  2: { rewrite map_map. cbn. symmetry. apply all_some_map. }
  rewrite map_map. cbn [fst]. change (map (fun x => c x) l) with (map c l). rewrite Hr. f_equal.
  clear. induction l as [|x l IH]; [reflexivity|]. cbn. now rewrite IH.
Qed.

Lemma seq_nonempty n : 0 < n -> seq 0 n <> [].
Proof. destruct n; [lia|discriminate]. Qed.

Lemma respond_bcast root (x : nat -> pyval) size : root < size ->
  respond (map (fun r => CBcast root (x r)) (seq 0 size)) = Some (map (fun _ => RVal (x root)) (seq 0 size)).
Proof.
  intros H. assert (E : all_some (map (as_bcast root) (map (fun r => CBcast root (x r)) (seq 0 size))) = Some (map x (seq 0 size))).
  { rewrite map_map. cbn. rewrite Nat.eqb_refl. apply all_some_map. }
  assert (N : nth_error (map x (seq 0 size)) root = Some (x root)).
  { rewrite nth_error_map. replace (nth_error (seq 0 size) root) with (Some root); [reflexivity|].
    symmetry. rewrite nth_error_nth' with (d := 0) by (rewrite seq_length; lia). now rewrite seq_nth by lia. }
  destruct size; [lia|]. cbn [seq map respond] in *. rewrite E, N. f_equal. rewrite map_map. reflexivity.
Qed.

Lemma respond_sum (x : nat -> Z) size : 0 < size ->
  respond (map (fun r => CSum (x r)) (seq 0 size)) =
  Some (map (fun _ => RInt (fold_right Z.add 0%Z (map x (seq 0 size)))) (seq 0 size)).
Proof.
  intros H. assert (E : all_some (map as_sum (map (fun r => CSum (x r)) (seq 0 size))) = Some (map x (seq 0 size))).
  { rewrite map_map. cbn. apply all_some_map. }
  destruct size; [lia|]. cbn [seq map respond] in *. rewrite E. f_equal. rewrite map_map. reflexivity.
Qed.

Lemma respond_max (x : nat -> Z) size : 0 < size ->
  respond (map (fun r => CMax (x r)) (seq 0 size)) =
  Some (map (fun _ => RInt (fold_right Z.max (x 0) (map x (seq 0 size)))) (seq 0 size)).
Proof.
  intros H. assert (E : all_some (map as_max (map (fun r => CMax (x r)) (seq 0 size))) = Some (map x (seq 0 size))).
  { rewrite map_map. cbn. apply all_some_map. }
  destruct size; [lia|]. cbn [seq map respond] in *. rewrite E. f_equal. rewrite map_map. reflexivity.
Qed.

(** * SingleProcess *)
Definition single_result root (body : nat -> body_result) r : observed :=
  let v := match b_exn (body root) with None => b_value (body root) | Some _ => PFailure end in
  {| ran := Nat.eqb r root;
     raised := leave (if Nat.eqb r root then b_exn (body root) else Some ESkip) (single_ignore v);
     value := v |}.

Lemma single_run root body size : root < size ->
  exec 1 (map (with_single root body) (seq 0 size)) = Done (map (single_result root body) (seq 0 size)).
Proof.
  intros H.
  set (c := fun r => CBcast root (single_transmit (single_should_skip r root)
     (snd (fst (conditional (single_should_skip r root) PNone (body r)))) (snd (conditional (single_should_skip r root) PNone (body r))))).
  set (k := fun r rep => match rep with
     | RVal v => Ret {| ran := Nat.eqb r root;
          raised := leave (if Nat.eqb r root then b_exn (body r) else Some ESkip) (single_ignore v); value := v |}
     | _ => Ret {| ran := Nat.eqb r root; raised := if Nat.eqb r root then b_exn (body r) else Some ESkip;
                   value := if Nat.eqb r root then b_value (body r) else PNone |} end).
  rewrite (exec_coll 0 _ c k (fun _ => RVal (match b_exn (body root) with None => b_value (body root) | Some _ => PFailure end))).
  - cbn [exec]. unfold k.
    rewrite map_map. cbn [as_ret]. rewrite all_some_map. f_equal. apply map_ext. intros r. unfold single_result.
    destruct (Nat.eqb_spec r root) as [->|]; reflexivity.
  - apply seq_nonempty; lia.
  - intros r _. unfold with_single, c, k, single_should_skip.
    destruct (Nat.eqb_spec r root) as [->|N]; cbn; reflexivity.
  - unfold c. rewrite (respond_bcast root (fun r => single_transmit (single_should_skip r root)
     (snd (fst (conditional (single_should_skip r root) PNone (body r)))) (snd (conditional (single_should_skip r root) PNone (body r)))) size H).
    f_equal. apply map_ext. intros _. f_equal. unfold single_should_skip. rewrite Nat.eqb_refl. cbn.
    unfold single_transmit. destruct (b_exn (body root)); reflexivity.
Qed.

Lemma single_ok root body size v : root < size -> body root = {| b_value := v; b_exn := None |} -> v <> PFailure ->
  all_finish_with size (with_single root body) (fun r => {| ran := Nat.eqb r root; raised := None; value := v |}).
Proof.
  intros H Hb Hv. exists 1. rewrite single_run by exact H. f_equal. apply map_ext. intros r. unfold single_result. rewrite Hb. cbn.
  destruct v; try congruence; cbn; destruct (Nat.eqb r root); reflexivity.
Qed.

Lemma single_fail root body size v e : root < size -> body root = {| b_value := v; b_exn := Some e |} ->
  all_finish_with size (with_single root body)
    (fun r => {| ran := Nat.eqb r root; raised := Some (if Nat.eqb r root then e else ESkip); value := PFailure |}).
Proof.
  intros H Hb. exists 1. rewrite single_run by exact H. f_equal. apply map_ext. intros r. unfold single_result. rewrite Hb. cbn.
  destruct (Nat.eqb r root); reflexivity.
Qed.

Lemma single_calls root body r : calls 1 (with_single root body r).
Proof.
  unfold with_single. destruct (conditional _ _ _) as [[d v] e]. unfold single_exit. constructor. intros []; constructor.
Qed.

(** The one case where the private failure marker is forged by the body itself. *)
Lemma single_forged : exists size root body, root < size /\ b_exn (body root) = None /\
  ~ (exists v, all_finish_with size (with_single root body) (fun r => {| ran := Nat.eqb r root; raised := None; value := v |})).
Proof.
  exists 2, 0, (fun _ => {| b_value := PFailure; b_exn := None |}). split; [lia|]. split; [reflexivity|].
  intros (v & fuel & H). destruct fuel as [|[|f]]; cbn in H; try discriminate.
Qed.

(** * do_once *)
Lemma exec_fmap {A B} (g : A -> B) fuel : forall ps : list (prog A),
  exec fuel (map (fun p => bind p (fun a => Ret (g a))) ps) =
  match exec fuel ps with Done l => Done (map g l) | Stuck => Stuck | OutOfFuel => OutOfFuel end.
Proof.
  assert (R : forall ps : list (prog A), all_some (map as_ret (map (fun p => bind p (fun a => Ret (g a))) ps)) =
     match all_some (map as_ret ps) with Some l => Some (map g l) | None => None end).
  { induction ps as [|p ps IH]; [reflexivity|]. destruct p; cbn [map bind as_ret]; rewrite ?all_some_cons; [|reflexivity]. rewrite IH. destruct (all_some (map as_ret ps)); reflexivity. }
  assert (C : forall ps : list (prog A), all_some (map as_coll (map (fun p => bind p (fun a => Ret (g a))) ps)) =
     match all_some (map as_coll ps) with Some l => Some (map (fun ck => (fst ck, fun r => bind (snd ck r) (fun a => Ret (g a)))) l) | None => None end).
  { induction ps as [|p ps IH]; [reflexivity|]. destruct p; cbn [map bind as_coll]; rewrite ?all_some_cons; [reflexivity|]. rewrite IH. destruct (all_some (map as_coll ps)); reflexivity. }
  induction fuel as [|f IH]; intros ps; cbn [exec]; rewrite R; destruct (all_some (map as_ret ps)) as [l|]; try reflexivity.
  rewrite C. destruct (all_some (map as_coll ps)) as [cks|]; [|reflexivity].
  rewrite map_map. cbn [fst]. destruct (respond (map fst cks)) as [rs|]; [|reflexivity].
  rewrite <- IH. f_equal. clear. revert rs. induction cks as [|[c k] cks IHc]; intros [|r rs]; try reflexivity. cbn. now rewrite IHc.
Qed.

Lemma do_once_shape action r : exists k, do_once action r =
  Coll (CBcast 0 (if Nat.eqb r 0 then match action r with AValue v => v | ARaise _ => PFailure end else PNone)) k /\
  forall v, k (RVal v) = Ret (match leave (if Nat.eqb r 0 then match action r with AValue _ => None | ARaise e => Some e end else Some ESkip)
                                    (single_ignore v) with None => inl v | Some e => inr e end).
Proof.
  unfold do_once, with_single, single_should_skip. destruct (Nat.eqb r 0); cbn.
  - destruct (action r); cbn; eexists; split; reflexivity.
  - eexists; split; reflexivity.
Qed.

Lemma single_ignore_ok v : v <> PFailure -> single_ignore v = true.
Proof. destruct v; cbn; congruence. Qed.

Lemma leave_true e : leave e true = None.
Proof. destruct e; reflexivity. Qed.

Lemma do_once_ok action size v : 0 < size -> action 0 = AValue v -> v <> PFailure ->
  all_finish_with size (do_once action) (fun _ => inl v).
Proof.
  intros H Ha Hv. exists 1.
  change (do_once action) with (fun r => do_once action r).
  unfold do_once. rewrite <- (map_map (with_single 0 (fun r => match action r with
                                | AValue v => {| b_value := v; b_exn := None |}
                                | ARaise e => {| b_value := PNone; b_exn := Some e |}
                                end)) (fun p => bind p (fun o => Ret (match raised o with None => inl (value o) | Some e => inr e end)))).
  rewrite exec_fmap, single_run by exact H. f_equal. rewrite map_map. apply map_ext. intros r. unfold single_result. rewrite Ha. cbn.
  rewrite single_ignore_ok by exact Hv. now rewrite leave_true.
Qed.

Lemma do_once_fail action size e : 0 < size -> action 0 = ARaise e ->
  all_finish_with size (do_once action) (fun r => inr (if Nat.eqb r 0 then e else ESkip)).
Proof.
  intros H Ha. exists 1.
  unfold do_once. rewrite <- (map_map (with_single 0 (fun r => match action r with
                                | AValue v => {| b_value := v; b_exn := None |}
                                | ARaise e => {| b_value := PNone; b_exn := Some e |}
                                end)) (fun p => bind p (fun o => Ret (match raised o with None => inl (value o) | Some e => inr e end)))).
  rewrite exec_fmap, single_run by exact H. f_equal. rewrite map_map. apply map_ext. intros r. unfold single_result. rewrite Ha. cbn.
  destruct r; reflexivity.
Qed.

(** Sequences: the values up to the first failure *)
Fixpoint first_failure (actions : list (nat -> action_result)) : list pyval + exn :=
  match actions with
  | [] => inl []
  | a :: rest => match a 0 with
                 | ARaise e => inr e
                 | AValue v => match first_failure rest with inl vs => inl (v :: vs) | inr e => inr e end
                 end
  end.

Lemma do_all_run actions size : 0 < size -> Forall (fun a => a 0 <> AValue PFailure) actions ->
  exec (length actions) (map (do_all actions) (seq 0 size)) =
  Done (map (fun r => match first_failure actions with inl vs => inl vs | inr e => inr (if Nat.eqb r 0 then e else ESkip) end) (seq 0 size)).
Proof.
  intros H F. induction F as [|a rest Ha F IH].
  - cbn [length do_all first_failure]. apply exec_rets.
  - cbn [length].
    set (vt := match a 0 with AValue v => v | ARaise _ => PFailure end).
    set (mine := fun r => if Nat.eqb r 0 then vt else PNone).
    set (out := fun r v => match leave (if Nat.eqb r 0 then match a r with AValue _ => None | ARaise e => Some e end else Some ESkip)
                                    (single_ignore v) with None => inl v | Some e => inr e end : pyval + exn).
    set (fin := fun r (o : pyval + exn) => match o with
        | inr e => Ret (inr e)
        | inl v => bind (do_all rest r) (fun o' => Ret (match o' with inl vs => inl (v :: vs) | inr e => inr e end))
        end : prog (list pyval + exn)).
    assert (X : exists k, forall r, do_all (a :: rest) r = Coll (CBcast 0 (mine r)) (k r) /\ forall v, k r (RVal v) = fin r (out r v)).
    { exists (fun r rep => bind (match do_once a r with Coll _ kk => kk rep | Ret x => Ret x end) (fin r)). intros r.
      destruct (do_once_shape a r) as (kk & E & K). cbn [do_all]. rewrite E. cbn [bind]. split.
      - unfold mine, vt, fin. f_equal. destruct (Nat.eqb_spec r 0) as [->|]; reflexivity.
      - intros v. rewrite K. reflexivity. }
    destruct X as (k & X).
    rewrite (exec_coll _ _ (fun r => CBcast 0 (mine r)) k (fun _ => RVal vt)).
    + assert (G : map (fun r => k r (RVal vt)) (seq 0 size) = map (fun r => fin r (out r vt)) (seq 0 size)).
      { apply map_ext. intros r. apply (proj2 (X r)). }
      rewrite G. unfold out. cbn [first_failure]. destruct (a 0) as [v|e] eqn:E.
      * subst vt. rewrite single_ignore_ok by congruence.
        assert (G2 : forall r, fin r (match leave (if Nat.eqb r 0 then match a r with AValue _ => None | ARaise e => Some e end else Some ESkip) true
                 with None => inl v | Some e => inr e end) =
                bind (do_all rest r) (fun o' => Ret (match o' with inl vs => inl (v :: vs) | inr e => inr e end))).
        { intros r. rewrite leave_true. reflexivity. }
        rewrite (map_ext _ _ G2).
        rewrite <- (map_map (do_all rest) (fun p => bind p (fun o' => Ret (match o' with inl vs => inl (v :: vs) | inr e => inr e end)))).
        rewrite exec_fmap, IH. f_equal. rewrite map_map. apply map_ext. intros r. destruct (first_failure rest); reflexivity.
      * subst vt. cbn [single_ignore negb].
        assert (G2 : forall r, fin r (match leave (if Nat.eqb r 0 then match a r with AValue _ => None | ARaise e => Some e end else Some ESkip) false
                 with None => inl PFailure | Some e => inr e end) = Ret (inr (if Nat.eqb r 0 then e else ESkip))).
        { intros r. destruct (Nat.eqb_spec r 0) as [->|]; [rewrite E|]; reflexivity. }
        rewrite (map_ext _ _ G2). apply exec_rets.
    + apply seq_nonempty; lia.
    + intros r _. apply X.
    + rewrite (respond_bcast 0 mine size H). reflexivity.
Qed.

Lemma do_all_agree actions size : 0 < size -> Forall (fun a => a 0 <> AValue PFailure) actions ->
  (exists vs, map (fun a => a 0) actions = map AValue vs /\ all_finish_with size (do_all actions) (fun _ => inl vs)) \/
  (exists before a after vs e, actions = before ++ a :: after /\ map (fun b => b 0) before = map AValue vs /\ a 0 = ARaise e /\
     all_finish_with size (do_all actions) (fun r => inr (if Nat.eqb r 0 then e else ESkip))).
Proof.
  intros H F. assert (R := do_all_run actions size H F). 
  assert (Q : match first_failure actions with
    | inl vs => map (fun a => a 0) actions = map AValue vs
    | inr e => exists before a after vs, actions = before ++ a :: after /\ map (fun b => b 0) before = map AValue vs /\ a 0 = ARaise e end).
  { clear. induction actions as [|a rest IH]; [reflexivity|]. cbn [first_failure]. destruct (a 0) as [v|e] eqn:E.
    - destruct (first_failure rest) as [vs|e].
      + cbn. now rewrite E, IH.
      + destruct IH as (b & x & af & vs & -> & M & Hx). exists (a :: b), x, af, (v :: vs). cbn. now rewrite E, M.
    - exists [], a, rest, []. now rewrite E. }
  destruct (first_failure actions) as [vs|e].
  - left. exists vs. split; [exact Q|]. exists (length actions). exact R.
  - right. destruct Q as (b & a & af & vs & E & M & Ha). exists b, a, af, vs, e. repeat split; try assumption. exists (length actions). exact R.
Qed.

(** * MultipleProcesses *)
Definition active (num_procs : Z) (r : nat) : bool := (num_procs <=? 0)%Z || (Z.of_nat r <? num_procs)%Z.
Definition group_of (num_procs : Z) (size r : nat) : option (list nat) :=
  if (num_procs <=? 0)%Z then None
  else Some (filter (fun r' => Bool.eqb (active num_procs r') (active num_procs r)) (seq 0 size)).

Definition multi_in_flight n size body r : option exn :=
  if active n r then body r (group_of n size r) else Some ESkip.
Definition multi_err n size body r : Z := match multi_in_flight n size body r with Some (EOther _) => 1%Z | _ => 0%Z end.

Lemma sum_nonneg (f : nat -> Z) l : (forall r, 0 <= f r)%Z ->
  (0 <= fold_right Z.add 0 (map f l))%Z /\ ((fold_right Z.add 0 (map f l) = 0)%Z <-> forall r, In r l -> f r = 0%Z).
Proof.
  intros P. induction l as [|x l [IH1 IH2]]; cbn; [split; [lia|tauto]|].
  specialize (P x) as Px. split; [lia|]. split.
  - intros E r [->|Hr]; [lia|]. apply IH2; [lia|exact Hr].
  - intros A. rewrite (A x) by now left. rewrite (proj2 IH2); [lia|]. intros r Hr. apply A. now right.
Qed.

Lemma combine_seq_keys (f : nat -> nat) n :
  forallb (fun p => Nat.eqb (fst p) (snd (snd p))) (combine (seq 0 n) (map (fun r => (f r, r)) (seq 0 n))) = true.
Proof.
  apply forallb_forall. intros [a [b c]] H. cbn.
  assert (forall l, In (a, (b, c)) (combine l (map (fun r => (f r, r)) l)) -> a = c).
  { induction l as [|x l IH]; cbn; [tauto|]. intros [E|E]; [congruence|auto]. }
  apply Nat.eqb_eq. eapply H0, H.
Qed.

Lemma respond_split (color : nat -> nat) size : 0 < size ->
  respond (map (fun r => CSplit (color r) r) (seq 0 size)) =
  Some (map (fun r => RGroup (filter (fun r' => Nat.eqb (color r') (color r)) (seq 0 size))) (seq 0 size)).
Proof.
  intros H. assert (E : all_some (map as_split (map (fun r => CSplit (color r) r) (seq 0 size))) = Some (map (fun r => (color r, r)) (seq 0 size))).
  { rewrite map_map. cbn. apply (all_some_map (fun r => (color r, r))). }
  assert (S : split_groups (map (fun r => (color r, r)) (seq 0 size)) =
     Some (map (fun r => filter (fun r' => Nat.eqb (color r') (color r)) (seq 0 size)) (seq 0 size))).
  { unfold split_groups. rewrite map_length, seq_length, combine_seq_keys. f_equal. rewrite map_map. apply map_ext_in. intros r Hr. cbn [fst].
    apply filter_ext_in. intros r' Hr'. apply in_seq in Hr'. rewrite map_map. cbn [fst].
    f_equal. rewrite nth_indep with (d' := color 0) by (rewrite map_length, seq_length; lia). rewrite map_nth. f_equal. apply seq_nth. lia. }
  destruct size; [lia|]. cbn [seq map respond] in *. rewrite E, S. f_equal. cbn [map]. f_equal. now rewrite map_map.
Qed.

Lemma multi_run n body size : 0 < size ->
  exec 2 (map (with_multi n body) (seq 0 size)) =
  Done (map (fun r => {| m_ran := active n r; m_comm := group_of n size r;
                         m_raised := leave (multi_in_flight n size body r)
                           (Z.eqb (fold_right Z.add 0%Z (map (multi_err n size body) (seq 0 size))) 0) |}) (seq 0 size)).
Proof.
  intros H.
  assert (TAIL : forall fuel, exec (S fuel) (map (fun r => multi_exit (active n r) (group_of n size r) (multi_in_flight n size body r)) (seq 0 size)) =
    Done (map (fun r => {| m_ran := active n r; m_comm := group_of n size r;
                         m_raised := leave (multi_in_flight n size body r)
                           (Z.eqb (fold_right Z.add 0%Z (map (multi_err n size body) (seq 0 size))) 0) |}) (seq 0 size))).
  { intros fuel. rewrite (exec_coll fuel _ (fun r => CSum (multi_err n size body r))
      (fun r rep => match rep with
              | RInt total => Ret {| m_ran := active n r; m_comm := group_of n size r; m_raised := leave (multi_in_flight n size body r) (Z.eqb total 0) |}
              | _ => Ret {| m_ran := active n r; m_comm := group_of n size r; m_raised := multi_in_flight n size body r |} end)
      (fun _ => RInt (fold_right Z.add 0%Z (map (multi_err n size body) (seq 0 size))))).
    - apply exec_rets.
    - apply seq_nonempty; lia.
    - intros r _. unfold multi_exit, multi_err. destruct (multi_in_flight n size body r) as [[|]|]; reflexivity.
    - apply (respond_sum (multi_err n size body) size H). }
  unfold with_multi. destruct (Z.ltb_spec 0 n) as [P|P].
  - rewrite (exec_coll 1 _ (fun r => CSplit (if (n <=? Z.of_nat r)%Z then 0 else 1) r)
      (fun r rep => match rep with
                | RGroup g =>
                    match conditional (n <=? Z.of_nat r)%Z PNone {| b_value := PNone; b_exn := body r (Some g) |} with
                    | (did, _, e) => multi_exit did (Some g) e
                    end
                | _ => Ret {| m_ran := false; m_comm := None; m_raised := None |} end)
      (fun r => RGroup (filter (fun r' => Nat.eqb (if (n <=? Z.of_nat r')%Z then 0 else 1) (if (n <=? Z.of_nat r)%Z then 0 else 1)) (seq 0 size)))).
    + rewrite <- TAIL with (fuel := 0). f_equal. apply map_ext. intros r.
      assert (A : forall x, active n x = negb (n <=? Z.of_nat x)%Z).
      { intros x. unfold active. destruct (Z.leb_spec n 0); [lia|]. cbn. rewrite Z.ltb_antisym. reflexivity. }
      assert (G : group_of n size r = Some (filter (fun r' => Nat.eqb (if (n <=? Z.of_nat r')%Z then 0 else 1) (if (n <=? Z.of_nat r)%Z then 0 else 1)) (seq 0 size))).
      { unfold group_of. destruct (Z.leb_spec n 0); [lia|]. f_equal. apply filter_ext. intros r'. rewrite !A.
        destruct (n <=? Z.of_nat r')%Z, (n <=? Z.of_nat r)%Z; reflexivity. }
      unfold multi_in_flight. rewrite G, A. destruct (n <=? Z.of_nat r)%Z; reflexivity.
    + apply seq_nonempty; lia.
    + intros r _. reflexivity.
    + apply respond_split. exact H.
  - rewrite <- TAIL with (fuel := 1). f_equal. apply map_ext. intros r. unfold multi_in_flight, group_of, active.
    destruct (Z.leb_spec n 0); [|lia]. reflexivity.
Qed.

Lemma active_group n size r : (0 < n)%Z -> active n r = true ->
  group_of n size r = Some (seq 0 (Nat.min (Z.to_nat n) size)).
Proof.
  intros P A. unfold group_of. destruct (Z.leb_spec n 0); [lia|]. f_equal. rewrite A.
  assert (forall m s, filter (fun r' => Bool.eqb (active n r') true) (seq s m) = seq s (Nat.min (Z.to_nat n - s) m)).
  { induction m as [|m IH]; intros s; [rewrite Nat.min_0_r; reflexivity|]. cbn [seq filter]. rewrite IH. unfold active.
    destruct (Z.leb_spec n 0); [lia|]. cbn [orb]. destruct (Z.ltb_spec (Z.of_nat s) n); cbn.
    - replace (Nat.min (Z.to_nat n - s) (S m)) with (S (Nat.min (Z.to_nat n - S s) m)) by lia. reflexivity.
    - replace (Nat.min (Z.to_nat n - s) (S m)) with 0 by lia. replace (Nat.min (Z.to_nat n - S s) m) with 0 by lia. reflexivity. }
  rewrite H0. f_equal. lia.
Qed.

Lemma multi_vote n size (body : nat -> option (list nat) -> option exn) :
  Z.eqb (fold_right Z.add 0%Z (map (multi_err n size body) (seq 0 size))) 0 = true <->
  forall r x, r < size -> active n r = true -> body r (group_of n size r) <> Some (EOther x).
Proof.
  rewrite Z.eqb_eq. rewrite (proj2 (sum_nonneg (multi_err n size body) (seq 0 size) ltac:(intros r; unfold multi_err; destruct (multi_in_flight _ _ _ _) as [[|]|]; lia))).
  unfold multi_err, multi_in_flight. split.
  - intros A r x Hr Ha E. specialize (A r ltac:(apply in_seq; lia)). rewrite Ha, E in A. discriminate.
  - intros A r Hr. apply in_seq in Hr. destruct (active n r) eqn:Ha; [|reflexivity].
    destruct (body r (group_of n size r)) as [[|x]|] eqn:E; try reflexivity. exfalso. eapply A; eauto. lia.
Qed.

Lemma multi_spec n body size : 0 < size ->
  let run r := (n <= 0)%Z \/ (Z.of_nat r < n)%Z in
  let group := if (0 <? n)%Z then Some (seq 0 (Nat.min (Z.to_nat n) size)) else None in
  exists result, all_finish_with size (with_multi n body) result /\
  (forall r, r < size -> m_ran (result r) = true <-> run r) /\
  (forall r, r < size -> run r -> m_comm (result r) = group) /\
  ((forall r x, r < size -> run r -> body r group <> Some (EOther x)) -> forall r, r < size -> m_raised (result r) = None) /\
  ((exists r x, r < size /\ run r /\ body r group = Some (EOther x)) ->
     forall r, r < size -> (run r -> m_raised (result r) = body r group) /\ (~ run r -> m_raised (result r) = Some ESkip)).
Proof.
  intros H run group.
  assert (A : forall r, active n r = true <-> run r).
  { intros r. unfold active, run. rewrite orb_true_iff, Z.leb_le, Z.ltb_lt. tauto. }
  assert (G : forall r, active n r = true -> group_of n size r = group).
  { intros r Ha. unfold group. destruct (Z.ltb_spec 0 n).
    - now apply active_group.
    - unfold group_of. destruct (Z.leb_spec n 0); [reflexivity|lia]. }
  eexists. split; [exists 2; apply (multi_run n body size H)|]. cbn [m_ran m_comm m_raised]. split; [|split; [|split]].
  - intros r _. apply A.
  - intros r _ Hr. apply G, A, Hr.
  - intros NF r Hr. rewrite (proj2 (multi_vote n size body)).
    + apply leave_true.
    + intros r' x Hr' Ha E. rewrite (G r' Ha) in E. apply (NF r' x Hr'); [apply A, Ha|exact E].
  - intros (r0 & x0 & Hr0 & Ar0 & E0) r Hr.
    assert (V : Z.eqb (fold_right Z.add 0%Z (map (multi_err n size body) (seq 0 size))) 0 = false).
    { apply not_true_iff_false. rewrite multi_vote. intros W. apply (W r0 x0 Hr0); [apply A, Ar0|]. rewrite G; [exact E0|apply A, Ar0]. }
    rewrite V. unfold multi_in_flight. split; intros Hrun.
    + rewrite (proj2 (A r) Hrun). rewrite G by (apply A, Hrun). destruct (body r group); reflexivity.
    + destruct (active n r) eqn:Ha; [exfalso; apply Hrun, A, Ha|]. reflexivity.
Qed.

Lemma multi_partial_failure : exists size n body result, 0 < size /\
  all_finish_with size (with_multi n body) result /\
  (exists r, r < size /\ m_raised (result r) = Some (EOther 7)) /\ (exists r, r < size /\ m_raised (result r) = None).
Proof.
  exists 2, 0%Z, (fun r _ => if Nat.eqb r 1 then Some (EOther 7) else None),
    (fun r => {| m_ran := true; m_comm := None; m_raised := if Nat.eqb r 1 then Some (EOther 7) else None |}).
  split; [lia|]. split; [exists 2; reflexivity|]. split; [exists 1|exists 0]; (split; [lia|reflexivity]).
Qed.

(** * NaN *)
Lemma max_pos (f : nat -> Z) m l : (0 <= m)%Z ->
  (0 < fold_right Z.max m (map f l))%Z <-> (0 < m)%Z \/ exists r, In r l /\ (0 < f r)%Z.
Proof.
  intros M. induction l as [|x l IH]; cbn.
  - split; [now left|]. intros [?|(r & [] & _)]; assumption.
  - rewrite Z.max_lt_iff, IH. split.
    + intros [?|[?|(r & ? & ?)]]; [right; exists x; auto | now left | right; exists r; auto].
    + intros [?|(r & [->|?] & ?)]; [auto | now left | right; right; exists r; auto].
Qed.

Lemma nan_run size (Q : nat -> list spec_float) : 0 < size ->
  exists flag, all_finish_with size (fun r => check_for_nan (Q r)) (fun _ => flag) /\
  (flag = true <-> exists r, r < size /\ In S754_nan (Q r)).
Proof.
  intros H. set (f := fun r => if existsb isnan (Q r) then 1%Z else 0%Z).
  set (M := fold_right Z.max (f 0) (map f (seq 0 size))).
  exists (Z.ltb 0 M). split.
  - exists 1. rewrite (exec_coll 0 _ (fun r => CMax (f r)) (fun r rep => match rep with RInt out => Ret (0 <? out)%Z | _ => Ret true end)
      (fun _ => RInt M)).
    + apply (exec_rets 0 (fun _ => Z.ltb 0 M)).
    + apply seq_nonempty; lia.
    + intros r _. reflexivity.
    + now apply respond_max.
  - rewrite Z.ltb_lt; unfold M; rewrite max_pos by (unfold f; destruct (existsb _ _); lia).
    assert (P : forall r, (0 < f r)%Z <-> In S754_nan (Q r)).
    { intros r. unfold f. destruct (existsb isnan (Q r)) eqn:E.
      - apply existsb_exists in E as (x & Hx & Nx). destruct x; try discriminate. split; [intros _; exact Hx|lia].
      - split; [lia|]. intros I. exfalso. rewrite <- not_true_iff_false in E. apply E. apply existsb_exists. now exists S754_nan. }
    split.
    + intros [H0|(r & Hr & Hp)]; [exists 0|exists r]; (split; [|now apply P]); [exact H|]. apply in_seq in Hr. lia.
    + intros (r & Hr & I). right. exists r. split; [apply in_seq; lia|now apply P].
Qed.

(** The reply of a terminated execution does not depend on the fuel *)
Lemma exec_mono {A} fuel : forall (ps : list (prog A)) l, exec fuel ps = Done l -> forall fuel', fuel <= fuel' -> exec fuel' ps = Done l.
Proof.
  induction fuel as [|f IH]; intros ps l E fuel' L.
  - cbn [exec] in E. destruct (all_some (map as_ret ps)) eqn:R; [|discriminate]. destruct fuel'; cbn [exec]; rewrite R; exact E.
  - destruct fuel' as [|f']; [lia|]. cbn [exec] in *. destruct (all_some (map as_ret ps)); [exact E|].
    destruct (all_some (map as_coll ps)); [|exact E]. destruct (respond _); [|exact E]. apply IH; [exact E|lia].
Qed.
Lemma finish_deterministic {A} size (p : nat -> prog A) res1 res2 :
  all_finish_with size p res1 -> all_finish_with size p res2 -> forall r, r < size -> res1 r = res2 r.
Proof.
  intros [f1 E1] [f2 E2] r Hr. apply (exec_mono _ _ _) with (fuel' := f1 + f2) in E1; [|lia]. apply (exec_mono _ _ _) with (fuel' := f1 + f2) in E2; [|lia].
  rewrite E1 in E2. injection E2 as E2. apply (f_equal (fun l => nth_error l r)) in E2. rewrite !nth_error_map in E2.
  replace (nth_error (seq 0 size) r) with (Some r) in E2. { cbn in E2. congruence. }
  symmetry. rewrite nth_error_nth' with (d := 0) by (rewrite seq_length; lia). now rewrite seq_nth by lia.
Qed.
