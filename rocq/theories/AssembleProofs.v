(** Proofs about the assembled matrices. *)
From Coq Require Import Reals ZArith String DecimalString DecimalNat List Arith Bool Lia Lra.
From Verif Require Import AssembleModel AssembleSpec.
Import ListNotations.
Local Open Scope R_scope.
Local Open Scope list_scope.

(** ** lists *)
Lemma nth_map_seq {X} (f : nat -> X) n a i d : (i < n)%nat -> nth i (map f (seq a n)) d = f (a + i)%nat.
Proof. intros H. rewrite nth_indep with (d' := f 0%nat) by (rewrite map_length, seq_length; exact H). rewrite map_nth, seq_nth by exact H. reflexivity. Qed.
Lemma map_seq_eq {X} (f g : nat -> X) n a : (forall i, (i < n)%nat -> f (a + i)%nat = g (a + i)%nat) -> map f (seq a n) = map g (seq a n).
Proof. intros H. apply map_ext_in. intros x Hx. apply in_seq in Hx. replace x with (a + (x - a))%nat by lia. apply H. lia. Qed.
Lemma list_nth_eq {X} (l l' : list X) d : length l = length l' -> (forall i, (i < length l)%nat -> nth i l d = nth i l' d) -> l = l'.
Proof. intros H1 H2. apply nth_ext with (d := d) (d' := d); assumption. Qed.
Lemma list_as_map {X} (l : list X) d : l = map (fun i => nth i l d) (seq 0 (length l)).
Proof. apply list_nth_eq with d; [rewrite map_length, seq_length; reflexivity|]. intros i Hi. rewrite nth_map_seq by exact Hi. reflexivity. Qed.
Lemma repeat_as_map (a : R) n : repeat a n = map (fun _ => a) (seq 0 n).
Proof. apply list_nth_eq with 0; [rewrite repeat_length, map_length, seq_length; reflexivity|]. rewrite repeat_length. intros i Hi. rewrite nth_map_seq by exact Hi. apply nth_error_nth, nth_error_repeat, Hi. Qed.
Lemma repeat_v_as_map (a : list R) n : repeat a n = map (fun _ => a) (seq 0 n).
Proof. apply list_nth_eq with []; [rewrite repeat_length, map_length, seq_length; reflexivity|]. rewrite repeat_length. intros i Hi. rewrite nth_map_seq by exact Hi. apply nth_error_nth, nth_error_repeat, Hi. Qed.
Lemma nth_firstn_lt {X} (l : list X) i k d : (k < i)%nat -> nth k (firstn i l) d = nth k l d.
Proof. revert i k. induction l as [|a l IH]; intros i k H; [rewrite firstn_nil; reflexivity|]. destruct i as [|i]; [lia|]. destruct k as [|k]; [reflexivity|]. cbn. apply IH. lia. Qed.
Lemma nth_skipn_add {X} (l : list X) i k d : nth k (skipn i l) d = nth (i + k) l d.
Proof. revert i. induction l as [|a l IH]; intros i; [rewrite skipn_nil; destruct k, (i + _)%nat; reflexivity|]. destruct i as [|i]; [reflexivity|]. cbn. apply IH. Qed.
Lemma set_nth_map i a (f : nat -> R) n : (i < n)%nat -> set_nth i a (map f (seq 0 n)) = map (fun l => if (l =? i)%nat then a else f l) (seq 0 n).
Proof.
  intros H. unfold set_nth. rewrite map_length, seq_length. replace (i <? n)%nat with true by (symmetry; apply Nat.ltb_lt; exact H).
  assert (LF : length (firstn i (map f (seq 0 n))) = i) by (rewrite firstn_length, map_length, seq_length; lia).
  apply list_nth_eq with 0; [rewrite app_length, LF; cbn [length]; rewrite skipn_length, !map_length, !seq_length; lia|].
  rewrite app_length, LF. cbn [length]. rewrite skipn_length, map_length, seq_length. intros k Hk. rewrite nth_map_seq by lia. cbn [Nat.add].
  destruct (lt_eq_lt_dec k i) as [[L|E]|L].
  - rewrite app_nth1 by lia. replace (k =? i)%nat with false by (symmetry; apply Nat.eqb_neq; lia). rewrite nth_firstn_lt by exact L. rewrite nth_map_seq by lia. reflexivity.
  - subst k. rewrite app_nth2 by lia. rewrite LF, Nat.sub_diag, Nat.eqb_refl. reflexivity.
  - rewrite app_nth2 by lia. rewrite LF. replace (k - i)%nat with (S (k - i - 1))%nat by lia. cbn [nth]. replace (k =? i)%nat with false by (symmetry; apply Nat.eqb_neq; lia).
    rewrite nth_skipn_add. rewrite nth_map_seq by lia. f_equal. lia.
Qed.
Lemma concat_length (x : list (list R)) n : Forall (fun v => length v = n) x -> length (concat x) = (length x * n)%nat.
Proof. induction 1 as [|v x Hv Hx IH]; [reflexivity|]. cbn [concat length]. rewrite app_length, IH, Hv. lia. Qed.
Lemma nth_concat (x : list (list R)) n r i : Forall (fun v => length v = n) x -> (r < length x)%nat -> (i < n)%nat -> nth (r * n + i) (concat x) 0 = nth i (nth r x []) 0.
Proof.
  intros H. revert r. induction H as [|v x Hv Hx IH]; intros r Hr Hi; [cbn in Hr; lia|]. cbn [concat]. destruct r as [|r].
  - cbn [Nat.mul Nat.add nth]. apply app_nth1. lia.
  - rewrite app_nth2 by (rewrite Hv; cbn; lia). rewrite Hv. replace (S r * n + i - n)%nat with (r * n + i)%nat by (cbn; lia). cbn [nth]. apply IH; [cbn in Hr; lia|exact Hi].
Qed.

(** ** vectors given by functions *)
Definition build (P n : nat) (f : nat -> nat -> R) : list (list R) := map (fun k => map (f k) (seq 0 n)) (seq 0 P).
Lemma build_shaped P n f : shaped P n (build P n f).
Proof.
  split; [unfold build; rewrite map_length, seq_length; reflexivity|]. apply Forall_forall. intros v Hv. apply in_map_iff in Hv.
  destruct Hv as [k [<- _]]. rewrite map_length, seq_length. reflexivity.
Qed.
Lemma shaped_build P n x : shaped P n x -> x = build P n (fun k i => nth i (nth k x []) 0).
Proof.
  intros [H1 H2]. unfold build. rewrite (list_as_map x []) at 1. rewrite H1. apply map_seq_eq. intros k Hk. cbn [Nat.add].
  rewrite Forall_forall in H2. rewrite <- (H2 (nth k x [])) by (apply nth_In; lia). apply list_as_map.
Qed.
Lemma build_ext P n f g : (forall k i, (k < P)%nat -> (i < n)%nat -> f k i = g k i) -> build P n f = build P n g.
Proof. intros H. apply map_seq_eq. intros k Hk. apply map_seq_eq. intros i Hi. apply H; assumption. Qed.
Lemma build_nth P n f k i : (k < P)%nat -> (i < n)%nat -> nth i (nth k (build P n f) []) 0 = f k i.
Proof. intros Hk Hi. unfold build. rewrite nth_map_seq by exact Hk. apply nth_map_seq. exact Hi. Qed.
Lemma combine_map_seq {K X Y} (f : K -> X) (g : K -> Y) l : combine (map f l) (map g l) = map (fun i => (f i, g i)) l.
Proof. induction l as [|a l IH]; [reflexivity|]. cbn. rewrite IH. reflexivity. Qed.
Lemma build_sum P n f g : sum_vectors (build P n f) (build P n g) = build P n (fun k i => f k i + g k i).
Proof. unfold sum_vectors, build. rewrite combine_map_seq, map_map. apply map_ext. intros k. cbn [fst snd]. rewrite combine_map_seq, map_map. reflexivity. Qed.
Lemma build_multiple P n a f : multiple a (build P n f) = build P n (fun k i => a * f k i).
Proof. unfold multiple, build. rewrite map_map. apply map_ext. intros k. rewrite map_map. reflexivity. Qed.
Lemma unit_build P n r i : unit_vector P n r i = build P n (fun k l => if andb (k =? r)%nat (l =? i)%nat then 1 else 0).
Proof. reflexivity. Qed.
Lemma zero_build P n : repeat (repeat 0 n) P = build P n (fun _ _ => 0).
Proof. rewrite repeat_v_as_map. apply map_ext. intros k. apply repeat_as_map. Qed.

(** ** the two loops *)
Lemma one_column_spec A P n r i cols : (r < P)%nat -> (i < n)%nat ->
  one_column A P (build P n (fun _ _ => 0), cols) (r, i) = (build P n (fun _ _ => 0), cols ++ [A (unit_vector P n r i)]).
Proof.
  intros Hr Hi. unfold one_column. cbv beta iota zeta.
  set (q1 := map (fun k => if (k =? r)%nat then set_nth i 1 (nth k (build P n (fun _ _ => 0)) []) else nth k (build P n (fun _ _ => 0)) []) (seq 0 P)).
  assert (E : q1 = unit_vector P n r i).
  { unfold q1. rewrite unit_build. apply map_seq_eq. intros k Hk. cbn [Nat.add]. unfold build at 1 2. rewrite !nth_map_seq by exact Hk. cbn [Nat.add].
    destruct (k =? r)%nat eqn:E; cbn [andb]; [|reflexivity]. rewrite set_nth_map by exact Hi. reflexivity. }
  rewrite E. f_equal. rewrite unit_build. unfold build. rewrite map_map. apply map_seq_eq. intros k Hk. rewrite set_nth_map by exact Hi.
  apply map_seq_eq. intros l Hl. cbn [Nat.add]. destruct (l =? i)%nat; [reflexivity|]. rewrite andb_false_r. reflexivity.
Qed.
Lemma fold_columns A P n l cols : (forall ri, In ri l -> (fst ri < P)%nat /\ (snd ri < n)%nat) ->
  fold_left (one_column A P) l (build P n (fun _ _ => 0), cols) = (build P n (fun _ _ => 0), cols ++ map (fun ri => A (unit_vector P n (fst ri) (snd ri))) l).
Proof.
  revert cols. induction l as [|[r i] l IH]; intros cols H; [cbn; rewrite app_nil_r; reflexivity|]. cbn [fold_left].
  destruct (H (r, i) (or_introl eq_refl)) as [Hr Hi]. rewrite one_column_spec by assumption. rewrite IH.
  - cbn [map fst snd]. rewrite <- app_assoc. reflexivity.
  - intros ri Hri. apply H. right. exact Hri.
Qed.
Lemma generate_spec A P n : generate A P n = (build P n (fun _ _ => 0), map (fun ri => A (unit_vector P n (fst ri) (snd ri))) (list_prod (seq 0 P) (seq 0 n))).
Proof.
  unfold generate. rewrite zero_build. rewrite fold_columns; [reflexivity|]. intros [r i] H. apply in_prod_iff in H. destruct H as [H1 H2].
  apply in_seq in H1, H2. cbn. lia.
Qed.
Lemma list_prod_seq a m n : list_prod (seq a m) (seq 0 n) = concat (map (fun r => map (fun i => (r, i)) (seq 0 n)) (seq a m)).
Proof. revert a. induction m as [|m IH]; intros a; [reflexivity|]. cbn [seq list_prod map concat]. rewrite IH. reflexivity. Qed.
Lemma nth_pairs a m n r i : (r < m)%nat -> (i < n)%nat -> nth_error (list_prod (seq a m) (seq 0 n)) (r * n + i) = Some ((a + r)%nat, i).
Proof.
  revert a r. induction m as [|m IH]; intros a r Hr Hi; [lia|]. cbn [seq list_prod]. destruct r as [|r].
  - rewrite nth_error_app1 by (rewrite map_length, seq_length; cbn; lia). cbn [Nat.mul Nat.add]. rewrite nth_error_map.
    rewrite (nth_error_nth' _ 0%nat) by (rewrite seq_length; exact Hi). rewrite seq_nth by exact Hi. cbn. rewrite Nat.add_0_r. reflexivity.
  - rewrite nth_error_app2 by (rewrite map_length, seq_length; cbn; lia). rewrite map_length, seq_length.
    replace (S r * n + i - n)%nat with (r * n + i)%nat by (cbn; lia). rewrite IH by lia. replace (S a + r)%nat with (a + S r)%nat by lia. reflexivity.
Qed.

(** columns of the parts *)
Definition col (A : list (list R) -> list (list R)) (P n j : nat) : list (list R) := A (unit_vector P n (j / n) (j mod n)).
Lemma columns_spec A P n : snd (generate A P n) = map (col A P n) (seq 0 (P * n)).
Proof.
  rewrite generate_spec. cbn [snd]. destruct n as [|n].
  { rewrite Nat.mul_0_r. cbn [seq map]. replace (list_prod (seq 0 P) []) with (@nil (nat * nat)); [reflexivity|]. generalize (seq 0 P). intros l. induction l as [|a l IH]; [reflexivity|]. exact IH. }
  set (m := S n). assert (Hm : (0 < m)%nat) by (unfold m; lia). clearbody m.
  apply list_nth_eq with ([] : list (list R)); [rewrite !map_length, prod_length, !seq_length; reflexivity|].
  rewrite map_length, prod_length, !seq_length. intros j Hj. rewrite nth_map_seq by exact Hj. cbn [Nat.add]. unfold col.
  apply nth_error_nth. rewrite nth_error_map.
  assert (D : j = (j / m * m + j mod m)%nat) by (rewrite (Nat.div_mod j m) at 1 by lia; lia).
  rewrite D at 1. rewrite nth_pairs; [reflexivity| |apply Nat.mod_upper_bound; lia]. apply Nat.div_lt_upper_bound; lia.
Qed.
Lemma tile_spec A P n k : tile A P n k = map (fun j => nth k (col A P n j) []) (seq 0 (P * n)).
Proof. unfold tile. rewrite columns_spec, map_map. reflexivity. Qed.
Lemma vstack_spec {J} (l : list nat) (g : nat -> J -> list R) (js : list J) : l <> [] -> vstack (map (fun k => map (g k) js) l) = map (fun j => concat (map (fun k => g k j) l)) js.
Proof.
  intros H. induction l as [|a l IH]; [contradiction|]. destruct l as [|b l].
  - cbn. apply map_ext. intros j. rewrite app_nil_r. reflexivity.
  - transitivity (map (fun p => fst p ++ snd p) (combine (map (g a) js) (vstack (map (fun k => map (g k) js) (b :: l))))); [reflexivity|].
    rewrite IH by discriminate. rewrite combine_map_seq, map_map. reflexivity.
Qed.
Lemma all_parts (x : list (list R)) P : length x = P -> map (fun k => nth k x []) (seq 0 P) = x.
Proof. intros <-. symmetry. apply list_as_map. Qed.
Lemma global_spec A P n : keeps_shape P n A -> (0 < P)%nat -> gen_matrix A P n false 0 = Some (map (fun j => concat (col A P n j)) (seq 0 (P * n))).
Proof.
  intros K HP. unfold gen_matrix. cbn [Nat.eqb]. f_equal.
  transitivity (vstack (map (fun k => map (fun j => nth k (col A P n j) []) (seq 0 (P * n))) (seq 0 P))).
  { f_equal. apply map_ext. intros k. apply tile_spec. }
  rewrite vstack_spec by (destruct P; [lia|discriminate]). apply map_ext. intros j. rewrite all_parts; [reflexivity|]. unfold col. apply K. apply build_shaped.
Qed.
Lemma slice_map_seq {X} (f : nat -> X) N a b : (a <= b)%nat -> (b <= N)%nat -> slice (map f (seq 0 N)) a b = map (fun i => f (a + i)%nat) (seq 0 (b - a)).
Proof.
  intros H1 H2. unfold slice. rewrite skipn_map, firstn_map.
  assert (E : firstn (b - a) (skipn a (seq 0 N)) = seq a (b - a)).
  { replace N with (a + ((b - a) + (N - b)))%nat by lia. rewrite seq_app. rewrite skipn_app, seq_length, Nat.sub_diag. cbn [skipn Nat.add].
    rewrite skipn_all2 by (rewrite seq_length; lia). cbn [app]. rewrite seq_app, firstn_app, seq_length, Nat.sub_diag. cbn [firstn]. rewrite app_nil_r. apply firstn_all2. rewrite seq_length. lia. }
  rewrite E. apply list_nth_eq with (f 0%nat); [rewrite !map_length, !seq_length; reflexivity|]. rewrite map_length, seq_length. intros i Hi. rewrite !nth_map_seq by exact Hi. reflexivity.
Qed.
Lemma local_spec A P n r : (r < P)%nat -> gen_matrix A P n true r = Some (map (fun i => nth r (A (unit_vector P n r i)) []) (seq 0 n)).
Proof.
  intros Hr. unfold gen_matrix. f_equal. rewrite tile_spec. rewrite slice_map_seq; [|nia|].
  2: { apply Nat.le_trans with (n * P)%nat; [apply Nat.mul_le_mono_l; lia|lia]. }
  replace (n * (r + 1) - n * r)%nat with n by nia. apply map_seq_eq. intros i Hi. cbn [Nat.add]. unfold col.
  replace (n * r + i)%nat with (i + r * n)%nat by lia. rewrite Nat.div_add, Nat.mod_add by lia. rewrite Nat.div_small, Nat.mod_small by exact Hi. reflexivity.
Qed.

(** ** linear operators *)
Lemma total_ext f g n : (forall i, (i < n)%nat -> f i = g i) -> total f n = total g n.
Proof. induction n as [|n IH]; intros H; [reflexivity|]. cbn. rewrite IH by (intros; apply H; lia). rewrite H by lia. reflexivity. Qed.
(** the first m entries of x, in the order of the parts *)
Lemma linear_sum P n A (c : nat -> R) m : linear P n A -> (m <= P * n)%nat ->
  forall k l, (k < P)%nat -> (l < n)%nat ->
  nth l (nth k (A (build P n (fun k l => if (k * n + l <? m)%nat then c (k * n + l)%nat else 0))) []) 0 = total (fun j => nth l (nth k (col A P n j) []) 0 * c j) m.
Proof.
  intros [K [Hp Hm]]. induction m as [|m IH]; intros Hle k l Hk Hl.
  - cbn [total]. replace (build P n (fun k l => if (k * n + l <? 0)%nat then c (k * n + l)%nat else 0)) with (multiple 0 (build P n (fun _ _ => 0))).
    2: { rewrite build_multiple. apply build_ext. intros. cbn. ring. }
    rewrite Hm by apply build_shaped. destruct (K _ (build_shaped P n (fun _ _ => 0))) as [L1 L2]. unfold multiple.
    rewrite (nth_indep _ [] (map (Rmult 0) [])) by (rewrite map_length; lia). rewrite map_nth.
    rewrite (nth_indep _ 0 (0 * 0)). 2: { rewrite map_length. rewrite Forall_forall in L2. rewrite L2 by (apply nth_In; lia). exact Hl. }
    rewrite map_nth. ring.
  - assert (Hn : (0 < n)%nat) by lia. cbn [total]. set (r := (m / n)%nat). set (i := (m mod n)%nat).
    assert (Hr : (r < P)%nat) by (unfold r; apply Nat.div_lt_upper_bound; lia). assert (Hi : (i < n)%nat) by (apply Nat.mod_upper_bound; lia).
    assert (Dm : m = (r * n + i)%nat) by (unfold r, i; rewrite (Nat.div_mod m n) at 1 by lia; lia).
    replace (build P n (fun k l => if (k * n + l <? S m)%nat then c (k * n + l)%nat else 0))
      with (sum_vectors (build P n (fun k l => if (k * n + l <? m)%nat then c (k * n + l)%nat else 0)) (multiple (c m) (unit_vector P n r i))).
    2: { rewrite unit_build, build_multiple, build_sum. apply build_ext. intros k' l' Hk' Hl'.
         destruct (lt_eq_lt_dec (k' * n + l') m) as [[L|E]|L].
         - replace (k' * n + l' <? m)%nat with true by (symmetry; apply Nat.ltb_lt; lia). replace (k' * n + l' <? S m)%nat with true by (symmetry; apply Nat.ltb_lt; lia).
           replace ((k' =? r)%nat && (l' =? i)%nat)%bool with false; [ring|]. symmetry. apply andb_false_iff.
           destruct (Nat.eq_dec k' r) as [->|Hne]; [right; apply Nat.eqb_neq; lia|left; apply Nat.eqb_neq; exact Hne].
         - assert (k' = r /\ l' = i) as [-> ->].
           { split; [unfold r|unfold i]; rewrite <- E, Nat.add_comm; [rewrite Nat.div_add, Nat.div_small by lia|rewrite Nat.mod_add, Nat.mod_small by lia]; reflexivity. }
           rewrite !Nat.eqb_refl. cbn [andb]. rewrite <- Dm. rewrite Nat.ltb_irrefl. replace (m <? S m)%nat with true by (symmetry; apply Nat.ltb_lt; lia). ring.
         - replace (k' * n + l' <? m)%nat with false by (symmetry; apply Nat.ltb_ge; lia). replace (k' * n + l' <? S m)%nat with false by (symmetry; apply Nat.ltb_ge; lia).
           replace ((k' =? r)%nat && (l' =? i)%nat)%bool with false; [ring|]. symmetry. apply andb_false_iff.
           destruct (Nat.eq_dec k' r) as [->|Hne]; [right; apply Nat.eqb_neq; lia|left; apply Nat.eqb_neq; exact Hne]. }
    assert (U : shaped P n (unit_vector P n r i)) by apply build_shaped.
    rewrite Hp; [|apply build_shaped|rewrite unit_build, build_multiple; apply build_shaped]. rewrite Hm by exact U.
    rewrite (shaped_build P n (A (unit_vector P n r i)) (K _ U)). rewrite (shaped_build P n (A (build P n (fun k l => if (k * n + l <? m)%nat then c (k * n + l)%nat else 0))) (K _ (build_shaped _ _ _))).
    rewrite build_multiple, build_sum. rewrite build_nth by assumption. rewrite IH by (assumption || lia). unfold col. fold r. fold i. ring.
Qed.
Lemma linear_value P n A x : linear P n A -> shaped P n x -> forall k l, (k < P)%nat -> (l < n)%nat ->
  nth l (nth k (A x) []) 0 = total (fun j => nth l (nth k (col A P n j) []) 0 * nth j (concat x) 0) (P * n).
Proof.
  intros HA Hx k l Hk Hl. rewrite <- (linear_sum P n A (fun j => nth j (concat x) 0) (P * n) HA (le_n _) k l Hk Hl). do 3 f_equal.
  rewrite (shaped_build P n x Hx) at 1. apply build_ext. intros k' l' Hk' Hl'.
  replace (k' * n + l' <? P * n)%nat with true by (symmetry; apply Nat.ltb_lt; nia). symmetry. destruct Hx as [L F]. apply nth_concat; [exact F|lia|exact Hl'].
Qed.
Lemma col_shaped A P n j : keeps_shape P n A -> shaped P n (col A P n j).
Proof. intros K. apply K. apply build_shaped. Qed.
Lemma global_matrix P n A : linear P n A -> (0 < P)%nat ->
  exists M, gen_matrix A P n false 0 = Some M /\ size_of (P * n) (P * n) M /\ forall x, shaped P n x -> product (P * n) M (concat x) = concat (A x).
Proof.
  intros HA HP. exists (map (fun j => concat (col A P n j)) (seq 0 (P * n))). destruct HA as [K HA']. assert (HA : linear P n A) by (split; assumption).
  split; [apply global_spec; assumption|]. split.
  - split; [rewrite map_length, seq_length; reflexivity|]. apply Forall_forall. intros v Hv. apply in_map_iff in Hv. destruct Hv as [j [<- _]].
    destruct (col_shaped A P n j K) as [L F]. rewrite (concat_length _ n F), L. reflexivity.
  - intros x Hx. destruct (K x Hx) as [L F]. apply list_nth_eq with 0.
    { unfold product. rewrite map_length, seq_length, (concat_length _ n F), L. reflexivity. }
    unfold product. rewrite !map_length, !seq_length. intros i Hi. rewrite nth_map_seq by exact Hi. cbn [Nat.add].
    assert (Hn : (0 < n)%nat) by (destruct n; lia). set (k := (i / n)%nat). set (l := (i mod n)%nat).
    assert (Hk : (k < P)%nat) by (unfold k; apply Nat.div_lt_upper_bound; lia). assert (Hl : (l < n)%nat) by (apply Nat.mod_upper_bound; lia).
    assert (Di : i = (k * n + l)%nat) by (unfold k, l; rewrite (Nat.div_mod i n) at 1 by lia; lia).
    rewrite Di. rewrite nth_concat by (assumption || lia). rewrite (linear_value P n A x HA Hx k l Hk Hl). apply total_ext. intros j Hj. rewrite nth_map_seq by exact Hj. cbn [Nat.add]. f_equal.
    destruct (col_shaped A P n j K) as [L' F']. apply nth_concat; [exact F'|lia|exact Hl].
Qed.
Lemma unit_columns P n A r i M : keeps_shape P n A -> (r < P)%nat -> (i < n)%nat -> gen_matrix A P n false 0 = Some M -> nth (r * n + i) M [] = concat (A (unit_vector P n r i)).
Proof.
  intros K Hr Hi. rewrite global_spec by (assumption || lia). intros E. injection E as <-. rewrite nth_map_seq by nia. cbn [Nat.add]. unfold col.
  rewrite Nat.add_comm, Nat.div_add, Nat.mod_add, Nat.div_small, Nat.mod_small by lia. reflexivity.
Qed.
Lemma concat_unit P n r i : (r < P)%nat -> (i < n)%nat -> concat (unit_vector P n r i) = map (fun j => if (j =? r * n + i)%nat then 1 else 0) (seq 0 (P * n)).
Proof.
  intros Hr Hi. destruct (build_shaped P n (fun k l => if andb (k =? r)%nat (l =? i)%nat then 1 else 0)) as [L F]. rewrite <- unit_build in L, F.
  apply list_nth_eq with 0; [rewrite (concat_length _ n F), L, map_length, seq_length; reflexivity|]. rewrite (concat_length _ n F), L. intros j Hj.
  rewrite nth_map_seq by exact Hj. cbn [Nat.add]. assert (Dj : j = (j / n * n + j mod n)%nat) by (rewrite (Nat.div_mod j n) at 1 by lia; lia).
  assert (Hq : (j / n < P)%nat) by (apply Nat.div_lt_upper_bound; lia). assert (Hm : (j mod n < n)%nat) by (apply Nat.mod_upper_bound; lia).
  rewrite Dj at 1. rewrite nth_concat by (assumption || lia). rewrite unit_build, build_nth by assumption.
  destruct (j / n =? r)%nat eqn:E1; destruct (j mod n =? i)%nat eqn:E2; cbn [andb]; destruct (j =? r * n + i)%nat eqn:E3; try reflexivity; exfalso;
  rewrite ?Nat.eqb_eq, ?Nat.eqb_neq in *; try (apply E3; rewrite Dj, E1, E2; reflexivity).
  - apply E2. rewrite E3, Nat.add_comm, Nat.mod_add, Nat.mod_small by lia. reflexivity.
  - apply E1. rewrite E3, Nat.add_comm, Nat.div_add, Nat.div_small by lia. reflexivity.
  - apply E2. rewrite E3, Nat.add_comm, Nat.mod_add, Nat.mod_small by lia. reflexivity.
Qed.
Lemma same_matrix P n P' n' A A' : keeps_shape P n A -> keeps_shape P' n' A' -> (0 < P)%nat -> (0 < P')%nat -> (P * n = P' * n')%nat ->
  (forall x x', shaped P n x -> shaped P' n' x' -> concat x = concat x' -> concat (A x) = concat (A' x')) -> gen_matrix A P n false 0 = gen_matrix A' P' n' false 0.
Proof.
  intros K K' HP HP' E H. rewrite !global_spec by assumption. f_equal. rewrite <- E. apply map_seq_eq. intros j Hj. cbn [Nat.add]. unfold col.
  assert (Hn : (0 < n)%nat) by (destruct n; lia). assert (Hn' : (0 < n')%nat) by (destruct n'; lia).
  apply H; [apply build_shaped|apply build_shaped|]. rewrite !concat_unit; try (apply Nat.mod_upper_bound; lia); try (apply Nat.div_lt_upper_bound; lia).
  rewrite <- E. apply map_ext. intros k. f_equal. f_equal.
  rewrite (Nat.mul_comm (j / n)), (Nat.mul_comm (j / n')), <- !Nat.div_mod by lia. reflexivity.
Qed.
Lemma local_matrix P n A r : linear P n A -> (r < P)%nat ->
  exists M, gen_matrix A P n true r = Some M /\ size_of n n M /\ forall v, length v = n -> product n M v = nth r (A (only P n r v)) [].
Proof.
  intros HA Hr. destruct HA as [K HA']. assert (HA : linear P n A) by (split; assumption).
  exists (map (fun i => nth r (A (unit_vector P n r i)) []) (seq 0 n)). split; [apply local_spec; exact Hr|].
  assert (LC : forall x, shaped P n x -> length (nth r (A x) []) = n).
  { intros x Hx. destruct (K x Hx) as [L F]. rewrite Forall_forall in F. apply F. apply nth_In. lia. }
  split.
  - split; [rewrite map_length, seq_length; reflexivity|]. apply Forall_forall. intros v Hv. apply in_map_iff in Hv. destruct Hv as [i [<- _]]. apply LC. apply build_shaped.
  - intros v Hv. assert (S : shaped P n (only P n r v)).
    { split; [unfold only; rewrite map_length, seq_length; reflexivity|]. apply Forall_forall. intros w Hw. apply in_map_iff in Hw. destruct Hw as [k [<- _]]. destruct (k =? r)%nat; [exact Hv|apply repeat_length]. }
    apply list_nth_eq with 0; [unfold product; rewrite map_length, seq_length, LC by exact S; reflexivity|].
    unfold product. rewrite !map_length, !seq_length. intros l Hl. rewrite nth_map_seq by exact Hl. cbn [Nat.add].
    rewrite (linear_value P n A _ HA S r l Hr Hl).
    (* only the columns of part r count *)
    assert (T : forall m, (m <= P)%nat -> total (fun j => nth l (nth r (col A P n j) []) 0 * nth j (concat (only P n r v)) 0) (m * n) =
      if (r <? m)%nat then total (fun j => nth l (nth j (map (fun i => nth r (A (unit_vector P n r i)) []) (seq 0 n)) []) 0 * nth j v 0) n else 0).
    { assert (TA : forall f a b, total f (a + b) = total f a + total (fun j => f (a + j)%nat) b).
      { intros f a b. induction b as [|b IHb]; [cbn; rewrite Nat.add_0_r; ring|]. rewrite Nat.add_succ_r. cbn [total]. rewrite IHb. ring. }
      assert (TZ : forall f b, (forall j, (j < b)%nat -> f j = 0) -> total f b = 0).
      { intros f b Hf. induction b as [|b IHb]; [reflexivity|]. cbn. rewrite IHb by (intros; apply Hf; lia). rewrite Hf by lia. ring. }
      induction m as [|m IHm]; intros Hm; [reflexivity|]. replace (Datatypes.S m * n)%nat with (m * n + n)%nat by (cbn; lia). rewrite TA, IHm by lia.
      destruct S as [SL SF]. destruct (lt_eq_lt_dec r m) as [[L|E]|L].
      - replace (r <? m)%nat with true by (symmetry; apply Nat.ltb_lt; lia). replace (r <? Datatypes.S m)%nat with true by (symmetry; apply Nat.ltb_lt; lia).
        match goal with |- _ + ?t = _ => assert (Z : t = 0); [apply TZ|rewrite Z; ring] end. intros j Hj. rewrite nth_concat by (assumption || lia). unfold only. rewrite nth_map_seq by lia. cbn [Nat.add].
        replace (m =? r)%nat with false by (symmetry; apply Nat.eqb_neq; lia). rewrite nth_repeat. ring.
      - subst m. rewrite Nat.ltb_irrefl. replace (r <? Datatypes.S r)%nat with true by (symmetry; apply Nat.ltb_lt; lia). rewrite Rplus_0_l. apply total_ext. intros j Hj.
        rewrite nth_concat by (assumption || lia). unfold only at 1. rewrite nth_map_seq by lia. cbn [Nat.add]. rewrite Nat.eqb_refl. rewrite nth_map_seq by exact Hj. cbn [Nat.add]. unfold col.
        rewrite Nat.add_comm, Nat.div_add, Nat.mod_add, Nat.div_small, Nat.mod_small by lia. reflexivity.
      - replace (r <? m)%nat with false by (symmetry; apply Nat.ltb_ge; lia). replace (r <? Datatypes.S m)%nat with false by (symmetry; apply Nat.ltb_ge; lia).
        match goal with |- _ + ?t = _ => assert (Z : t = 0); [apply TZ|rewrite Z; ring] end. intros j Hj. rewrite nth_concat by (assumption || lia). unfold only. rewrite nth_map_seq by lia. cbn [Nat.add].
        replace (m =? r)%nat with false by (symmetry; apply Nat.eqb_neq; lia). rewrite nth_repeat. ring. }
    rewrite (T P (le_n _)). replace (r <? P)%nat with true by (symmetry; apply Nat.ltb_lt; exact Hr). reflexivity.
Qed.

(** ** the preconditioner *)
Lemma forallb_repeat {X} (f : X -> bool) a n : (0 < n)%nat -> forallb f (repeat a n) = f a.
Proof. induction n as [|n IH]; intros H; [lia|]. cbn. destruct n as [|n]; [cbn; apply andb_true_r|]. rewrite IH by lia. destruct (f a); reflexivity. Qed.
Lemma fresh_blocks A P n : (0 < P)%nat -> prepare A P n (repeat None P) =
  let blocks := map (fun k => match gen_matrix A P n true k with Some m => m | None => [] end) (seq 0 P) in Prepared blocks (map Some blocks).
Proof. intros H. unfold prepare. rewrite !forallb_repeat by exact H. reflexivity. Qed.
Lemma lu_blocks P n A solve blocks files : linear P n A -> (0 < P)%nat -> prepare A P n (repeat None P) = Prepared blocks files ->
  (forall M v, In M blocks -> length v = n -> length (solve M v) = n /\ product n M (solve M v) = v) ->
  forall x, shaped P n x -> shaped P n (apply_lu solve blocks x) /\ forall r, (r < P)%nat -> nth r (A (only P n r (nth r (apply_lu solve blocks x) []))) [] = nth r x [].
Proof.
  intros HA HP E HS x [Lx Fx]. rewrite fresh_blocks in E by exact HP. cbv zeta in E. injection E as E _.
  assert (LB : length blocks = P) by (rewrite <- E, map_length, seq_length; reflexivity).
  rewrite Forall_forall in Fx.
  assert (N : forall r, (r < P)%nat -> nth r (apply_lu solve blocks x) [] = solve (nth r blocks []) (nth r x [])).
  { intros r Hr. unfold apply_lu. rewrite (nth_indep _ [] ((fun p => solve (fst p) (snd p)) ([], []))) by (rewrite map_length, combine_length, LB, Lx; lia).
    etransitivity; [apply (map_nth (fun p => solve (fst p) (snd p)) (combine blocks x) ([], []) r)|]. rewrite combine_nth by lia. reflexivity. }
  assert (LA : length (apply_lu solve blocks x) = P) by (unfold apply_lu; rewrite map_length, combine_length, LB, Lx; lia).
  split.
  - split; [exact LA|]. apply Forall_forall. intros v Hv. apply In_nth with (d := []) in Hv. destruct Hv as [r [Hr <-]]. rewrite LA in Hr. rewrite N by exact Hr.
    apply HS; [apply nth_In; lia|]. apply Fx, nth_In. lia.
  - intros r Hr. rewrite N by exact Hr. destruct (local_matrix P n A r HA Hr) as [M [G [S Q]]].
    assert (B : nth r blocks [] = M) by (rewrite <- E, nth_map_seq by exact Hr; cbn [Nat.add]; unfold gen_matrix in G; injection G as G; exact G).
    assert (LX : length (nth r x []) = n) by (apply Fx, nth_In; lia).
    destruct (HS (nth r blocks []) (nth r x [])) as [L V]; [apply nth_In; lia|exact LX|].
    rewrite <- Q by exact L. rewrite <- B. exact V.
Qed.
Lemma lu_one n A solve blocks files : linear 1 n A -> prepare A 1 n [None] = Prepared blocks files ->
  (forall M v, In M blocks -> length v = n -> length (solve M v) = n /\ product n M (solve M v) = v) ->
  forall x, shaped 1 n x -> A (apply_lu solve blocks x) = x.
Proof.
  intros HA E HS x Hx. destruct (lu_blocks 1 n A solve blocks files HA (le_n _) E HS x Hx) as [Sh V]. specialize (V 0%nat (le_n _)).
  destruct HA as [K _]. assert (Hy := K _ Sh). destruct Sh as [L _]. destruct (apply_lu solve blocks x) as [|a [|b l]]; try (cbn in L; lia).
  change (only 1 n 0 (nth 0 [a] [])) with [a] in V. destruct Hy as [LA _]. destruct Hx as [Lx _].
  destruct (A [a]) as [|c [|d l]]; try (cbn in LA; lia). destruct x as [|u [|w l]]; try (cbn in Lx; lia). cbn in V. rewrite V. reflexivity.
Qed.
Lemma prepare_hangs A P n files : length files = P -> (0 < P * n)%nat -> (prepare A P n files = Hangs <-> In None files /\ exists m, In (Some m) files).
Proof.
  intros L H. unfold prepare. replace (P * n =? 0)%nat with false by (symmetry; apply Nat.eqb_neq; lia).
  destruct (forallb (fun f => match f with Some _ => true | None => false end) files) eqn:E1.
  - split; [discriminate|]. intros [N _]. rewrite forallb_forall in E1. specialize (E1 _ N). discriminate.
  - destruct (forallb (fun f => match f with Some _ => false | None => true end) files) eqn:E2.
    + split; [discriminate|]. intros [_ [m N]]. rewrite forallb_forall in E2. specialize (E2 _ N). discriminate.
    + split; [intros _|reflexivity]. split.
      * clear -E1. induction files as [|[m|] l IH]; cbn in *; [discriminate|right; apply IH; exact E1|left; reflexivity].
      * clear -E2. induction files as [|[m|] l IH]; cbn in *; [discriminate|exists m; left; reflexivity|]. destruct (IH E2) as [m Hm]. exists m. right. exact Hm.
Qed.
Lemma prepare_stale A P n (ms : list (list (list R))) : prepare A P n (map Some ms) = Prepared ms (map Some ms).
Proof.
  unfold prepare. replace (forallb _ (map Some ms)) with true.
  - f_equal. rewrite map_map. apply map_id.
  - symmetry. apply forallb_forall. intros f Hf. apply in_map_iff in Hf. destruct Hf as [m [<- _]]. reflexivity.
Qed.

(** ** archives *)
Local Open Scope string_scope.
Lemma number_inj a b : NilEmpty.string_of_uint (Nat.to_uint a) = NilEmpty.string_of_uint (Nat.to_uint b) -> a = b.
Proof.
  intros H. apply (f_equal NilEmpty.uint_of_string) in H. rewrite !NilEmpty.usu in H. injection H as H. apply Unsigned.to_uint_inj. exact H.
Qed.
Lemma append_inj (s a b : string) : (s ++ a)%string = (s ++ b)%string -> a = b.
Proof. induction s as [|c s IH]; intros H; [exact H|]. cbn in H. injection H as H. apply IH, H. Qed.
Lemma key_num name a b : key name a = key name b -> a = b.
Proof. unfold key. intros H. apply number_inj. apply append_inj in H. exact H. Qed.
Definition names : list string := ["data"; "shape"; "format"; "indices"; "indptr"; "offsets"; "row"; "col"].
Lemma key_name m m' a b : In m names -> In m' names -> m <> m' -> key m a <> key m' b.
Proof.
  intros H H' N E. unfold names in H, H'. cbn in H, H'. unfold key in E.
  repeat (destruct H as [<-|H]); try contradiction; repeat (destruct H' as [<-|H']); try contradiction; try (apply N; reflexivity); cbn in E; discriminate E.
Qed.
Lemma key_eqb m m' a b : In m names -> In m' names -> String.eqb (key m a) (key m' b) = andb (String.eqb m m') (a =? b)%nat.
Proof.
  intros H H'. destruct (String.eqb m m') eqn:E; cbn [andb].
  - apply String.eqb_eq in E. subst m'. destruct (a =? b)%nat eqn:E2.
    + apply Nat.eqb_eq in E2. subst b. apply String.eqb_refl.
    + apply String.eqb_neq. intros F. apply key_num in F. apply Nat.eqb_neq in E2. contradiction.
  - apply String.eqb_neq. apply String.eqb_neq in E. apply key_name; assumption.
Qed.
Ltac names_in := unfold names; cbn; tauto.
(** the entries of matrix [num] *)
Definition low (num : nat) (d : archive) : Prop := forall k e, In (k, e) d -> exists m a, In m names /\ (a < num)%nat /\ k = key m a.
Lemma get_none {V} (d : list (string * V)) k : (forall e, ~ In (k, e) d) -> get d k = None.
Proof.
  induction d as [|[k' v] d IH]; intros H; [reflexivity|]. cbn. destruct (String.eqb k k') eqn:E.
  - apply String.eqb_eq in E. subst k'. exfalso. apply (H v). left. reflexivity.
  - apply IH. intros e He. apply (H e). right. exact He.
Qed.
Lemma low_none num d m a : low num d -> In m names -> (num <= a)%nat -> get d (key m a) = None.
Proof.
  intros H Hm Ha. apply get_none. intros e He. destruct (H _ _ He) as [m' [b [Hm' [Hb E]]]].
  assert (F := key_eqb m m' a b Hm Hm'). rewrite E, String.eqb_refl in F. symmetry in F. apply andb_true_iff in F. destruct F as [_ F]. apply Nat.eqb_eq in F. lia.
Qed.
Lemma save_one_low num m d d' : low num d -> save_one num m d = Some d' -> low (S num) d'.
Proof.
  intros H E k e He.
  assert (L : forall k e, In (k, e) d -> exists m a, In m names /\ (a < S num)%nat /\ k = key m a).
  { intros k' e' H'. destruct (H _ _ H') as [m' [a [A1 [A2 A3]]]]. exists m', a. repeat split; [exact A1|lia|exact A3]. }
  destruct m as [f dt i p s|dt o s|dt r c s|f]; cbn [save_one] in E; try discriminate E; injection E as <-; cbn [In] in He;
  repeat (destruct He as [He|He]; [apply (f_equal fst) in He; cbn [fst] in He; refine (ex_intro _ _ (ex_intro _ num (conj _ (conj _ (eq_sym He))))); [names_in|lia]|]); apply (L k e He).
Qed.
(** later matrices do not change the entries of the earlier ones *)
Lemma save_one_other num m d d' n a : In n names -> (a < num)%nat -> save_one num m d = Some d' -> get d' (key n a) = get d (key n a).
Proof.
  intros Hn Ha E. assert (X : (a =? num)%nat = false) by (apply Nat.eqb_neq; lia).
  destruct m as [f dt i p s|dt o s|dt r c s|f]; cbn [save_one] in E; try discriminate E; injection E as <-; cbn [get];
  rewrite !key_eqb by (exact Hn || names_in); rewrite X, !andb_false_r; reflexivity.
Qed.
Lemma save_from_other ms : forall num d d' n a, In n names -> (a < num)%nat -> save_from num ms d = Some d' -> get d' (key n a) = get d (key n a).
Proof.
  induction ms as [|m ms IH]; intros num d d' n a Hn Ha E; cbn [save_from] in E; [injection E as <-; reflexivity|].
  destruct (save_one num m d) as [d1|] eqn:E1; [|discriminate E]. rewrite (IH _ _ _ n a Hn (Nat.lt_lt_succ_r _ _ Ha) E). apply (save_one_other num m d d1 n a Hn Ha E1).
Qed.
Lemma save_from_low ms : forall num d d', low num d -> save_from num ms d = Some d' -> low (num + length ms) d'.
Proof.
  induction ms as [|m ms IH]; intros num d d' H E; cbn [save_from length] in *; [injection E as <-; rewrite Nat.add_0_r; exact H|].
  destruct (save_one num m d) as [d1|] eqn:E1; [|discriminate E]. rewrite Nat.add_succ_r. apply (IH (S num) d1 d'); [|exact E]. apply (save_one_low num m d d1 H E1).
Qed.
Lemma save_from_length ms : forall num d d', save_from num ms d = Some d' -> (length d + length ms <= length d')%nat.
Proof.
  induction ms as [|m ms IH]; intros num d d' E; cbn [save_from length] in *; [injection E as <-; lia|].
  destruct (save_one num m d) as [d1|] eqn:E1; [|discriminate E]. specialize (IH _ _ _ E).
  assert (length d + 1 <= length d1)%nat; [|lia]. destruct m; cbn [save_one] in E1; try discriminate E1; injection E1 as <-; cbn [length]; lia.
Qed.
(** what the entries of a matrix are after it has been saved *)
Definition formatted (m : sparse) : string := match m with Compressed f _ _ _ _ => compressed_name f | Dia _ _ _ => "dia" | Coo _ _ _ _ => "coo" | Other f => f end.
Lemma save_one_get num m d d1 d' : low num d -> save_one num m d = Some d1 -> (forall n, In n names -> get d' (key n num) = get d1 (key n num)) ->
  get d' (key "format" num) = Some (Bytes (formatted m)) /\ load_one d' num (formatted m) = match m with Coo _ _ _ _ => load_one d' num "coo" | _ => Some m end /\
  match m with Coo dt r c s => get d' (key "row" num) = Some (Ints (in_tuple r)) | _ => True end.
Proof.
  intros H E G.
  assert (GD := G "data" ltac:(names_in)). assert (GS := G "shape" ltac:(names_in)). assert (GF := G "format" ltac:(names_in)).
  assert (GI := G "indices" ltac:(names_in)). assert (GP := G "indptr" ltac:(names_in)). assert (GO := G "offsets" ltac:(names_in)). assert (GR := G "row" ltac:(names_in)).
  destruct m as [f dt i p s|dt o s|dt r c s|f]; cbn [save_one] in E; try discriminate E; injection E as <-; cbn [get] in *;
  rewrite !key_eqb, !Nat.eqb_refl in * by names_in; cbn [String.eqb Ascii.eqb Bool.eqb andb formatted] in *;
  (split; [exact GF|]); (split; [|try exact I; exact GR]).
  - unfold load_one. rewrite GD, GS. destruct f; cbn [compressed_name String.eqb Ascii.eqb Bool.eqb]; rewrite GI, GP; reflexivity.
  - unfold load_one. rewrite GD, GS. cbn [String.eqb Ascii.eqb Bool.eqb]. rewrite GO. reflexivity.
  - reflexivity.
Qed.
Lemma load_plain ms : forall num d d' fuel, low num d -> Forall plain ms -> save_from num ms d = Some d' -> (length ms < fuel)%nat -> load_from fuel num d' = Some ms.
Proof.
  induction ms as [|m ms IH]; intros num d d' fuel H F E Hf.
  - destruct fuel as [|fuel]; [lia|]. cbn [save_from] in E. injection E as <-. cbn [load_from]. rewrite (low_none num d "format" num H) by (lia || names_in). reflexivity.
  - destruct fuel as [|fuel]; [cbn in Hf; lia|]. inversion F as [|? ? Fm Fr]; subst. cbn [save_from] in E.
    destruct (save_one num m d) as [d1|] eqn:E1; [|discriminate E].
    destruct (save_one_get num m d d1 d' H E1) as [GF [GL _]].
    { intros n Hn. apply (save_from_other ms (S num) d1 d' n num Hn); [lia|exact E]. }
    cbn [load_from]. rewrite GF, GL. destruct m as [f dt i p s|dt o s|dt r c s|f]; try contradiction;
    rewrite (IH (S num) d1 d' fuel (save_one_low _ _ _ _ H E1) Fr E); cbn in Hf; reflexivity || lia.
Qed.
Lemma save_plain ms : forall num d, Forall plain ms -> exists d', save_from num ms d = Some d'.
Proof.
  induction ms as [|m ms IH]; intros num d F; [exists d; reflexivity|]. inversion F as [|? ? Fm Fr]; subst. cbn [save_from].
  destruct m as [f dt i p s|dt o s|dt r c s|f]; try contradiction; apply IH; exact Fr.
Qed.
Lemma low_nil : low 0 [].
Proof. intros k e []. Qed.
Lemma matrices_back ms : Forall plain ms -> ms <> [] -> exists d, save_matrices ms = Some d /\ load_matrices d = Some ms.
Proof.
  intros F N. destruct (save_plain ms 0 [] F) as [d E]. exists d. split; [exact E|]. unfold load_matrices.
  assert (L := save_from_length ms 0 [] d E). cbn [length Nat.add] in L.
  assert (LF : load_from (S (length d)) 0 d = Some ms) by (apply (load_plain ms 0 [] d); [exact low_nil|exact F|exact E|lia]).
  destruct (get d (key "format" 0)) eqn:G; [exact LF|]. exfalso. cbn [load_from] in LF. rewrite G in LF. injection LF as LF. apply N. symmetry. exact LF.
Qed.
Lemma coo_raises ms : forall num d d' fuel, low num d -> Exists is_coo ms -> save_from num ms d = Some d' -> load_from fuel num d' = None.
Proof.
  induction ms as [|m ms IH]; intros num d d' fuel H X E; [inversion X|]. destruct fuel as [|fuel]; [reflexivity|]. cbn [save_from] in E.
  destruct (save_one num m d) as [d1|] eqn:E1; [|discriminate E].
  destruct (save_one_get num m d d1 d' H E1) as [GF [GL GR]].
  { intros n Hn. apply (save_from_other ms (S num) d1 d' n num Hn); [lia|exact E]. }
  cbn [load_from]. rewrite GF. inversion X as [? ? X1|? ? X2]; subst.
  - destruct m as [f dt i p s|dt o s|dt r c s|f]; try contradiction. cbn in X1. unfold load_one. cbn [formatted String.eqb Ascii.eqb Bool.eqb]. rewrite GR.
    destruct (get d' (key "data" num)) as [[a|a|a]|]; try reflexivity. destruct (get d' (key "shape" num)) as [[b|b|b]|]; try reflexivity.
    destruct (get d' (key "col" num)) as [[c'|c'|c']|]; try reflexivity. cbn [in_tuple dims length]. rewrite X1. reflexivity.
  - assert (R := IH (S num) d1 d' fuel (save_one_low _ _ _ _ H E1) X2 E). rewrite R. destruct (load_one d' num (formatted m)); reflexivity.
Qed.
Lemma coo_lost ms d : Exists is_coo ms -> save_matrices ms = Some d -> load_matrices d = None.
Proof. intros X E. unfold load_matrices. destruct (get d (key "format" 0)); [|reflexivity]. apply (coo_raises ms 0 [] d); [exact low_nil|exact X|exact E]. Qed.
