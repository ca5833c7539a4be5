(** Proofs on the levels and the passes of the multigrid preconditioner *)
From Coq Require Import Reals List Bool Arith Lia Lra.
From Coquelicot Require Import Hierarchy.
From Verif Require Import InnerSpec InnerFacts VecTac MgModel MgSpec.
Import ListNotations.
Local Open Scope nat_scope.

(** * Levels *)
Lemma pow2_div : forall k i, i <= k -> 2 ^ k / 2 ^ i = 2 ^ (k - i).
Proof. intros k i H. replace k with ((k - i) + i) at 1 by lia. rewrite Nat.pow_add_r. apply Nat.div_mul. apply Nat.pow_nonzero. lia. Qed.
Lemma pow2_div_0 : forall k, 2 ^ k / 2 ^ (k + 1) = 0.
Proof. intros. apply Nat.div_small. apply Nat.pow_lt_mono_r; lia. Qed.
Lemma nth_map_seq : forall {T} (f : nat -> T) n i d, i < n -> nth i (map f (seq 0 n)) d = f i.
Proof. intros. rewrite (nth_indep _ d (f 0)) by (rewrite map_length, seq_length; lia). rewrite map_nth, seq_nth by lia. reflexivity. Qed.
Lemma order_fv : forall s i, i <= Nat.log2 s -> nth i (orders Fv false s) 0 = 2 ^ (Nat.log2 s - i).
Proof. intros s i H. unfold orders, max_num_levels. cbn [app]. rewrite nth_map_seq by lia. replace (Nat.log2 s + 1 - 1) with (Nat.log2 s) by lia. now apply pow2_div. Qed.
Lemma order_fv_end : forall s, nth (Nat.log2 s + 1) (orders Fv false s) 0 = 0.
Proof. intros s. unfold orders, max_num_levels. cbn [app]. rewrite nth_map_seq by lia. replace (Nat.log2 s + 1 - 1) with (Nat.log2 s) by lia. apply pow2_div_0. Qed.
Lemma order_dg : forall s i, i <= s -> nth i (orders Dg false s) 0 = s - i.
Proof. intros s i H. unfold orders, max_num_levels. now rewrite nth_map_seq by lia. Qed.
Lemma nth_map0 : forall (f : nat -> nat) l i, i < length l -> nth i (map f l) 0 = f (nth i l 0).
Proof. intros f l i H. rewrite (nth_indep _ 0 (f 0)) by now rewrite map_length. apply map_nth. Qed.
Lemma orders_length : forall d s, length (orders d false s) = max_num_levels d s + 1.
Proof. intros [] s; unfold orders; cbn [app]; now rewrite map_length, seq_length. Qed.
Lemma hori_count : forall d n s i, 1 <= s -> i <= max_num_levels d s -> nth i (elem_counts_hori d false n s) 0 = match d with Fv => n * nth i (orders Fv false s) 0 | Dg => n end.
Proof.
  intros [] n s i Hs Hi; unfold elem_counts_hori; rewrite nth_map0 by (rewrite orders_length; lia); [reflexivity|].
  replace (n * s * nth i (orders Fv false s) 0) with (n * nth i (orders Fv false s) 0 * s) by ring. apply Nat.div_mul. lia.
Qed.
Lemma vert_count : forall d n s i, i <= max_num_levels d s -> nth i (elem_counts_vert d false n s) 0 = match d with Fv => n * nth i (orders Fv false s) 0 | Dg => n end.
Proof. intros [] n s i Hi; unfold elem_counts_vert; rewrite nth_map0 by (rewrite orders_length; lia); reflexivity. Qed.
Lemma extended_ok : forall {T} (l l' : list T) n, extended_list l n = Some l' -> length l' = n /\ forall i d, i < n -> nth i l' d = nth (Nat.min i (length l - 1)) l d.
Proof.
  intros T l l' n. unfold extended_list. destruct (Nat.ltb_spec (length l) n) as [H|H].
  - destruct (rev l) as [|z r] eqn:E; [discriminate|]. intros [= <-]. assert (L : l = rev r ++ [z]) by (rewrite <- (rev_involutive l), E; reflexivity).
    assert (Ll : length l = length r + 1) by (rewrite L, app_length, rev_length; cbn; lia). split; [rewrite app_length, repeat_length; lia|].
    intros i d Hi. destruct (Nat.lt_ge_cases i (length l)) as [G|G].
    + rewrite app_nth1 by assumption. f_equal. lia.
    + rewrite app_nth2 by assumption. replace (Nat.min i (length l - 1)) with (length r) by lia. replace (nth (length r) l d) with z by (rewrite L, app_nth2 by (rewrite rev_length; lia); rewrite rev_length, Nat.sub_diag; reflexivity).
      assert (R : forall k m, m < k -> nth m (repeat z k) d = z) by (induction k as [|k IH]; intros [|m] Hm; [lia|lia|reflexivity|cbn; apply IH; lia]). apply R. lia.
  - intros [= <-]. split; [rewrite firstn_length; lia|]. intros i d Hi. replace (Nat.min i (length l - 1)) with i by lia.
    clear H. revert n i Hi. induction l as [|a l IH]; intros [|n] [|i] Hi; try lia; cbn; try reflexivity. apply IH. lia.
Qed.
Lemma extended_none : forall {T} (l : list T) n, extended_list l n = None <-> l = [] /\ 1 <= n.
Proof.
  intros T l n. unfold extended_list. destruct (Nat.ltb_spec (length l) n) as [H|H].
  - destruct (rev l) as [|z r] eqn:E.
    + assert (l = []) by (rewrite <- (rev_involutive l), E; reflexivity). subst l. cbn in H. split; [split; [reflexivity|lia]|reflexivity].
    + split; [discriminate|]. intros [-> _]. discriminate.
  - split; [discriminate|]. intros [-> G]. cbn in H. lia.
Qed.

Local Opaque event_eq.
(** * Traces *)
Section Trace.
Context {V : nat -> ModuleSpace R_Ring}.
Variable A : forall l, V l -> V l.
Variable smooth_pre smooth_post : forall l, V l -> option (V l) -> option (V l).
Variable restrict : forall l, V l -> V (S l).
Variable prolong : forall l, V (S l) -> V l.
Variable num_pre num_post : nat.
Variable use_solver : bool.
Variable solver : forall l, V l -> V l -> option (V l).
Variable gamma : nat.
Let it := iterate V A smooth_pre smooth_post restrict prolong num_pre num_post use_solver solver gamma.

Definition coarse_of {W : Type} (f : option W -> option (W * list event)) : nat -> option W -> option (option W * list event) :=
  fix coarse n correction := match n with O => Some (correction, []) | S n => match f correction with None => None | Some (c, t) => match coarse n (Some c) with None => None | Some (c, t') => Some (c, t ++ t') end end end.
Lemma coarse_trace : forall {W} (f : option W -> option (W * list event)) (P : list event -> Prop), (forall c c' t, f c = Some (c', t) -> P t) ->
  forall n c c' t, coarse_of f n c = Some (c', t) -> exists ts, length ts = n /\ Forall P ts /\ t = concat ts.
Proof.
  intros W f P HP. induction n as [|n IH]; intros c c' t H; cbn in H.
  - injection H as <- <-. now exists [].
  - destruct (f c) as [[c1 t1]|] eqn:E; [|discriminate]. destruct (coarse_of f n (Some c1)) as [[c2 t2]|] eqn:E2; [|discriminate]. injection H as <- <-.
    destruct (IH _ _ _ E2) as (ts & L & F & ->). exists (t1 :: ts). split; [cbn; lia|]. split; [constructor; [exact (HP _ _ _ E)|assumption]|reflexivity].
Qed.
(** the trace does not depend on the values *)
Fixpoint shape (rest level : nat) : list event :=
  repeat (Pre level) num_pre ++
  match rest with
  | O => if use_solver then [Solve level] else []
  | S rest => [Restrict level] ++ concat (repeat (shape rest (S level)) gamma) ++ [Prolong level]
  end ++ repeat (Post level) num_post.
Lemma concat_same : forall (ts : list (list event)) u n, length ts = n -> Forall (eq u) ts -> concat ts = concat (repeat u n).
Proof. induction ts as [|t ts IH]; intros u [|n] L F; try discriminate; [reflexivity|]. inversion F; subst. cbn. f_equal. apply IH; [now injection L|assumption]. Qed.
Lemma iterate_shape : forall rest level b x0 x t, it rest level b x0 = Some (x, t) -> t = shape rest level.
Proof.
  induction rest as [|rest IH]; intros level b x0 x t H; unfold it in H; cbn [iterate] in H.
  - cbn [shape]. destruct use_solver.
    + destruct (solver level b _) as [x2|]; [|discriminate]. destruct (smoothing _ num_post _); [|discriminate]. injection H as <- <-. now rewrite <- !app_assoc.
    + destruct (smoothing _ num_post _); [|discriminate]. injection H as <- <-. reflexivity.
  - set (x1 := match smoothing (smooth_pre level b) num_pre x0 with None => zero | Some x => x end) in *. fold (it rest (S level)) in H.
    change (match coarse_of (it rest (S level) (restrict level (plus b (opp (A level x1))))) gamma None with
      | None | Some (None, _) => None
      | Some (Some c, t2) => match smoothing (smooth_post level b) num_post (Some (plus x1 (prolong level c))) with None => None | Some x => Some (x, (repeat (Pre level) num_pre ++ [Restrict level] ++ t2 ++ [Prolong level]) ++ repeat (Post level) num_post) end end = Some (x, t)) in H.
    destruct (coarse_of _ gamma None) as [[[c|] t2]|] eqn:E; [|discriminate|discriminate].
    destruct (coarse_trace _ (eq (shape rest (S level))) (fun c c' t E => eq_sym (IH _ _ _ _ _ E)) _ _ _ _ E) as (ts & L & F & ->).
    destruct (smoothing _ num_post _); [|discriminate]. injection H as <- <-. cbn [shape]. rewrite (concat_same _ _ _ L F), <- !app_assoc. cbn [app]. rewrite <- !app_assoc. reflexivity.
Qed.
Lemma times_app : forall e t u, times e (t ++ u) = times e t + times e u. Proof. intros. apply count_occ_app. Qed.
Lemma times_concat : forall e u n, times e (concat (repeat u n)) = n * times e u.
Proof. induction n as [|n IH]; [reflexivity|]. cbn [repeat concat]. rewrite times_app, IH. reflexivity. Qed.
Lemma times_repeat : forall e u n, times e (repeat u n) = if event_eq u e then n else 0.
Proof. induction n as [|n IH]; [destruct (event_eq u e); reflexivity|]. unfold times in *. cbn [repeat count_occ]. destruct (event_eq u e); [now rewrite IH|exact IH]. Qed.
Definition expected (rest : nat) (e : event) : nat :=
  match e with
  | Pre l => if Nat.leb l rest then num_pre * gamma ^ l else 0
  | Post l => if Nat.leb l rest then num_post * gamma ^ l else 0
  | Restrict l | Prolong l => if Nat.ltb l rest then gamma ^ l else 0
  | Solve l => if use_solver && Nat.eqb l rest then gamma ^ l else 0
  end.
Definition lift (n : nat) (e : event) : event := match e with Pre l => Pre (n + l) | Post l => Post (n + l) | Restrict l => Restrict (n + l) | Prolong l => Prolong (n + l) | Solve l => Solve (n + l) end.
Definition level_of (e : event) : nat := match e with Pre l | Post l | Restrict l | Prolong l | Solve l => l end.
Lemma below_none : forall rest level e, level_of e < level -> times e (shape rest level) = 0.
Proof.
  clear it.
  induction rest as [|rest IH]; intros level e H; cbn [shape]; rewrite !times_app, !times_repeat.
  - destruct (event_eq (Pre level) e) as [<-|_]; [cbn in H; lia|]. destruct (event_eq (Post level) e) as [<-|_]; [cbn in H; lia|].
    destruct use_solver; [|reflexivity]. unfold times. cbn. destruct (event_eq (Solve level) e) as [<-|_]; [cbn in H; lia|reflexivity].
  - rewrite times_concat, IH by lia. destruct (event_eq (Pre level) e) as [<-|_]; [cbn in H; lia|]. destruct (event_eq (Post level) e) as [<-|_]; [cbn in H; lia|].
    unfold times. cbn. destruct (event_eq (Restrict level) e) as [<-|_]; [cbn in H; lia|]. destruct (event_eq (Prolong level) e) as [<-|_]; [cbn in H; lia|]. lia.
Qed.
Ltac ev := repeat match goal with |- context [event_eq ?a ?b] => let E := fresh "E" in destruct (event_eq a b) as [E|E]; [try discriminate E; try (injection E; lia)|try (exfalso; apply E; f_equal; lia)] end.
Lemma shape_times : forall rest level e, times (lift level e) (shape rest level) = expected rest e.
Proof.
  clear it.
  induction rest as [|rest IH]; intros level e; cbn [shape]; rewrite !times_app, !times_repeat.
  - destruct e as [[|l]|[|l]|[|l]|[|l]|[|l]]; cbn [lift expected]; destruct use_solver; unfold times; cbn [count_occ]; ev; cbn [Nat.leb Nat.ltb Nat.eqb andb Nat.pow]; rewrite ?andb_false_r; lia.
  - rewrite times_concat. assert (Z : level_of e = 0 \/ exists e', e = lift 1 e') by (destruct e as [[|l]|[|l]|[|l]|[|l]|[|l]]; [now left|right; now exists (Pre l)|now left|right; now exists (Restrict l)|now left|right; now exists (Prolong l)|now left|right; now exists (Solve l)|now left|right; now exists (Post l)]).
    destruct Z as [Z|[e' ->]].
    + rewrite below_none by (destruct e; cbn in *; lia). destruct e as [l|l|l|l|l]; cbn in Z; subst l; cbn [lift expected]; rewrite ?Nat.add_0_r;
        unfold times; cbn [count_occ]; ev;
        cbn [Nat.leb Nat.ltb Nat.eqb andb Nat.pow]; rewrite ?andb_false_r; lia.
    + replace (lift level (lift 1 e')) with (lift (S level) e') by (destruct e'; cbn; f_equal; lia). rewrite IH.
      destruct e' as [l|l|l|l|l]; cbn [lift expected Nat.add]; unfold times; cbn [count_occ];
        ev; cbn [Nat.leb Nat.eqb Nat.pow Nat.add];
        rewrite ?Nat.add_0_r.
      * destruct (Nat.leb l rest); lia.
      * change (S l <? S rest) with (l <? rest). destruct (Nat.ltb l rest); lia.
      * change (S l <? S rest) with (l <? rest). destruct (Nat.ltb l rest); lia.
      * destruct (use_solver && Nat.eqb l rest); lia.
      * destruct (Nat.leb l rest); lia.
Qed.
Lemma walk_app : forall t u a b c, walk a t b -> walk b u c -> walk a (t ++ u) c.
Proof. induction t as [|e t IH]; intros u a b c H1 H2; cbn in *; [now subst|]. destruct H1 as [E H1]. split; [assumption|now apply (IH _ _ b)]. Qed.
Lemma walk_repeat : forall e n, before e = after e -> walk (before e) (repeat e n) (before e).
Proof. induction n as [|n IH]; intros H; cbn; [reflexivity|]. split; [reflexivity|]. rewrite <- H. now apply IH. Qed.
Lemma shape_walk : forall rest level, walk level (shape rest level) level.
Proof.
  clear it.
  induction rest as [|rest IH]; intros level; cbn [shape]; (eapply walk_app; [exact (walk_repeat (Pre level) num_pre eq_refl)|]); (eapply walk_app; [|exact (walk_repeat (Post level) num_post eq_refl)]).
  - destruct use_solver; cbn; auto.
  - cbn [app walk before after]. split; [reflexivity|]. apply walk_app with (b := S level); [|cbn; auto].
    induction gamma as [|n IHn]; [reflexivity|]. cbn [repeat concat]. eapply walk_app; [apply IH|exact IHn].
Qed.
Lemma seq_shift_map : forall {T} (f : nat -> T) n, map f (seq 1 n) = map (fun l => f (S l)) (seq 0 n).
Proof. intros. rewrite <- seq_shift, map_map. reflexivity. Qed.
End Trace.

Lemma shape_v : forall np nq u rest level, shape np nq u 1 rest level =
  concat (map (fun l => repeat (Pre l) np ++ [Restrict l]) (seq level rest)) ++ repeat (Pre (level + rest)) np ++ (if u then [Solve (level + rest)] else []) ++ repeat (Post (level + rest)) nq
  ++ concat (map (fun l => [Prolong l] ++ repeat (Post l) nq) (rev (seq level rest))).
Proof.
  intros np nq u. induction rest as [|rest IH]; intros level; cbn [shape].
  - cbn [seq map concat rev app]. rewrite Nat.add_0_r, app_nil_r. reflexivity.
  - cbn [repeat concat]. rewrite app_nil_r, IH. cbn [seq map concat rev]. rewrite map_app, concat_app. cbn [map concat]. rewrite app_nil_r.
    replace (S level + rest) with (level + S rest) by lia. rewrite <- ?app_assoc. cbn [app]. rewrite <- ?app_assoc. cbn [app]. rewrite <- ?app_assoc. reflexivity.
Qed.
