(** Proofs about the layouts. *)
From Coq Require Import List Arith Lia.
From Verif Require Import LayoutModel LayoutSpec.
Import ListNotations.

Lemma prod_app : forall l s, prod (l ++ s) = prod l * prod s.
Proof. induction l as [|d l IH]; intros; cbn [prod app fold_right]; [unfold prod; cbn; lia|]. fold (prod (l ++ s)). rewrite IH. fold (prod l). lia. Qed.
Lemma valid_length : forall s i, valid s i -> length i = length s.
Proof. intros s i H. induction H; cbn; congruence. Qed.
Lemma valid_app : forall l s i j, valid l i -> valid s j -> valid (l ++ s) (i ++ j).
Proof. intros. apply Forall2_app; auto. Qed.
Lemma valid_app_inv : forall l s i, valid (l ++ s) i -> exists p j, i = p ++ j /\ valid l p /\ valid s j.
Proof. intros l s i H. apply Forall2_app_inv_r in H. destruct H as (p & j & A & B & C). exists p, j. auto. Qed.
Lemma flatten_app : forall l s i j, length i = length l -> flatten (l ++ s) (i ++ j) = flatten l i * prod s + flatten s j.
Proof.
  induction l as [|d l IH]; intros s [|x i] j H; cbn [length] in H; try discriminate; cbn [app flatten]; [reflexivity|].
  injection H as H. rewrite IH, prod_app by auto. lia.
Qed.
Lemma flatten_lt : forall s i, valid s i -> flatten s i < prod s.
Proof.
  induction s as [|d s IH]; intros i H; inversion H; subst; [cbn; lia|]. cbn [flatten prod fold_right]. fold (prod s). specialize (IH _ H4). nia.
Qed.
Lemma unflatten_flatten : forall s i, valid s i -> unflatten s (flatten s i) = i.
Proof.
  induction s as [|d s IH]; intros i H; inversion H; subst; [reflexivity|]. cbn [flatten unflatten]. pose proof (flatten_lt _ _ H4) as L.
  rewrite Nat.div_add_l, Nat.div_small, Nat.add_0_r by lia. rewrite Nat.add_comm, Nat.mod_add, Nat.mod_small by lia. rewrite IH by auto. reflexivity.
Qed.
Lemma unflatten_valid : forall s n, n < prod s -> valid s (unflatten s n) /\ flatten s (unflatten s n) = n.
Proof.
  induction s as [|d s IH]; intros n H; cbn in *; [split; [constructor|lia]|]. fold (prod s) in *.
  assert (P : prod s <> 0) by nia. destruct (IH (n mod prod s)) as [A B]; [apply Nat.mod_upper_bound; auto|].
  split; [constructor; [apply Nat.div_lt_upper_bound; lia|exact A]|]. rewrite B. rewrite Nat.mul_comm. symmetry. apply Nat.div_mod. auto.
Qed.
Section Facts.
Context {A : Type}.
Implicit Types a b : arr A.
Lemma reshape_some : forall s a, prod s = prod (shape a) -> exists b, reshape s a = Some b /\ shape b = s /\
  forall i j, valid (shape a) j -> flatten s i = flatten (shape a) j -> get b i = get a j.
Proof.
  intros s a H. unfold reshape. rewrite H, Nat.eqb_refl. eexists. split; [reflexivity|]. split; [reflexivity|]. cbn [get]. intros i j V E. rewrite E, unflatten_flatten; auto.
Qed.
(** reshaping the last axes *)
Lemma reshape_lead : forall l s s' a, shape a = l ++ s -> prod s' = prod s -> exists b, reshape (l ++ s') a = Some b /\ shape b = l ++ s' /\
  forall p j' j, valid l p -> valid s j -> flatten s' j' = flatten s j -> get b (p ++ j') = get a (p ++ j).
Proof.
  intros l s s' a H P. destruct (reshape_some (l ++ s') a) as (b & R & S & G); [rewrite H, !prod_app; lia|]. exists b. split; [auto|]. split; [auto|].
  intros p j' j V1 V2 F. apply G; [rewrite H; apply valid_app; auto|]. rewrite H, !flatten_app by (apply valid_length; auto). lia.
Qed.
Lemma eq_shape_true : forall s, eq_shape s s = true.
Proof. intros. unfold eq_shape. destruct (list_eq_dec Nat.eq_dec s s); congruence. Qed.
Lemma eq_shape_iff : forall s t, eq_shape s t = true <-> s = t.
Proof. intros. unfold eq_shape. destruct (list_eq_dec Nat.eq_dec s t); split; congruence. Qed.
Lemma lead_app : forall l s, lead (length s) (l ++ s) = l.
Proof. intros. unfold lead. rewrite app_length, Nat.add_sub, firstn_app, firstn_all, Nat.sub_diag, firstn_O, app_nil_r. reflexivity. Qed.
Lemma trail_app : forall l s, trail (length s) (l ++ s) = s.
Proof. intros. unfold trail. rewrite app_length, Nat.add_sub, skipn_app, skipn_all, Nat.sub_diag, skipn_O. reflexivity. Qed.

(** ** Transposing the last axes *)
Definition shifted (p : nat) (o : list nat) : list nat := seq 0 p ++ map (Nat.add p) o.
Lemma index_of_app : forall l m k, ~ In k l -> index_of k (l ++ m) = length l + index_of k m.
Proof. induction l as [|x l IH]; intros m k H; cbn; [reflexivity|]. cbn in H. destruct (Nat.eqb_spec x k); [exfalso; auto|]. rewrite IH by auto. reflexivity. Qed.
Lemma index_of_in : forall l m k, In k l -> index_of k (l ++ m) = index_of k l.
Proof. induction l as [|x l IH]; intros m k H; [destruct H|]. cbn. destruct (Nat.eqb_spec x k); [reflexivity|]. rewrite IH; [reflexivity|]. destruct H; [congruence|auto]. Qed.
Lemma index_of_seq : forall n s k, s <= k < s + n -> index_of k (seq s n) = k - s.
Proof. induction n as [|n IH]; intros s k H; [lia|]. cbn. destruct (Nat.eqb_spec s k); [lia|]. rewrite IH by lia. lia. Qed.
Lemma index_of_map : forall p o k, index_of (p + k) (map (Nat.add p) o) = index_of k o.
Proof. induction o as [|x o IH]; intros k; cbn; [reflexivity|]. destruct (Nat.eqb_spec (p + x) (p + k)); destruct (Nat.eqb_spec x k); try lia. rewrite IH. reflexivity. Qed.
Lemma shifted_index : forall p i j o m, length i = p ->
  map (fun k => nth (index_of k (shifted p o)) (i ++ j) 0) (seq 0 (p + m)) = i ++ map (fun k => nth (index_of k o) j 0) (seq 0 m).
Proof.
  intros p i j o m H. rewrite seq_app, map_app. cbn [Nat.add]. f_equal.
  - transitivity (map (fun k => nth k i 0) (seq 0 p)).
    + apply map_ext_in. intros k K. apply in_seq in K. unfold shifted. rewrite index_of_in by (apply in_seq; lia). rewrite index_of_seq by lia. rewrite app_nth1 by lia. f_equal. lia.
    + subst p. clear. induction i as [|x i IH]; [reflexivity|]. cbn. f_equal. rewrite <- seq_shift, map_map. exact IH.
  - replace (seq p m) with (map (Nat.add p) (seq 0 m)).
    2: { clear. induction p as [|p IH]; cbn; [apply map_id|]. rewrite <- seq_shift, <- IH, map_map. reflexivity. }
    rewrite map_map. apply map_ext_in. intros k K. unfold shifted. rewrite index_of_app by (rewrite in_seq; lia). rewrite seq_length, index_of_map, app_nth2 by lia. f_equal. lia.
Qed.
Lemma transpose_lead : forall l s o a, shape a = l ++ s -> (forall k, In k o -> k < length s) ->
  shape (transpose (shifted (length l) o) a) = l ++ map (fun k => nth k s 0) o /\
  forall p j, length p = length l -> get (transpose (shifted (length l) o) a) (p ++ j) = get a (p ++ map (fun k => nth (index_of k o) j 0) (seq 0 (length s))).
Proof.
  intros l s o a H B. unfold transpose. cbn [shape get]. rewrite H. split.
  - unfold shifted. rewrite map_app, map_map. f_equal.
    + clear. rewrite <- (app_nil_r l) at 2. rewrite <- (firstn_all l) at 2. rewrite app_nil_r. 
      transitivity (map (fun k => nth k l 0) (seq 0 (length l))).
      * apply map_ext_in. intros k K. apply in_seq in K. rewrite app_nth1 by lia. reflexivity.
      * rewrite firstn_all. induction l as [|x l IH]; [reflexivity|]. cbn. f_equal. rewrite <- seq_shift, map_map. exact IH.
    + apply map_ext_in. intros k K. rewrite app_nth2 by lia. f_equal. lia.
  - intros p j Hp. rewrite app_length. rewrite shifted_index by auto. reflexivity.
Qed.
Lemma seq_shift_add : forall p m, seq p m = map (Nat.add p) (seq 0 m).
Proof. intros p m. induction p as [|p IH]; cbn; [symmetry; apply map_id|]. rewrite <- seq_shift, IH, map_map. reflexivity. Qed.
Lemma move_order_lead : forall p m moves, move_order (p + m) (map (fun x => (p + fst x, p + snd x)) moves) = shifted p (move_order m moves).
Proof.
  intros p m moves. unfold move_order.
  assert (F : filter (fun k => negb (existsb (fun x => snd x =? k) (map (fun x => (p + fst x, p + snd x)) moves))) (seq 0 (p + m))
    = shifted p (filter (fun k => negb (existsb (fun x => snd x =? k) moves)) (seq 0 m))).
  { rewrite seq_app, filter_app. unfold shifted. f_equal.
    - assert (Q : forall l, (forall k, In k l -> k < p) -> filter (fun k => negb (existsb (fun x => snd x =? k) (map (fun x => (p + fst x, p + snd x)) moves))) l = l).
      { induction l as [|k l IH]; intros K; [reflexivity|]. cbn. replace (existsb _ _) with false; [cbn; f_equal; apply IH; intros; apply K; right; auto|].
        symmetry. apply Bool.not_true_is_false. intro E. apply existsb_exists in E. destruct E as (x & X & Y). apply in_map_iff in X. destruct X as (y & <- & _). cbn in Y. apply Nat.eqb_eq in Y.
        specialize (K k (or_introl eq_refl)). lia. }
      apply Q. intros k K. apply in_seq in K. lia.
    - cbn [Nat.add]. rewrite seq_shift_add. induction (seq 0 m) as [|k l IH]; [reflexivity|]. cbn [map filter].
      replace (existsb (fun x => snd x =? p + k) (map (fun x => (p + fst x, p + snd x)) moves)) with (existsb (fun x => snd x =? k) moves).
      + rewrite IH. destruct (negb _); reflexivity.
      + clear. induction moves as [|x moves IH]; [reflexivity|]. cbn. rewrite IH. f_equal. destruct (Nat.eqb_spec (snd x) k); destruct (Nat.eqb_spec (p + snd x) (p + k)); auto; lia. }
  rewrite F. generalize (filter (fun k => negb (existsb (fun x => snd x =? k) moves)) (seq 0 m)) as o. clear F.
  induction moves as [|x moves IH]; intros o; [reflexivity|]. cbn [map fold_left fst snd]. rewrite <- IH. f_equal. unfold shifted.
  assert (L : length (seq 0 p) = p) by apply seq_length.
  rewrite firstn_app, skipn_app, L. replace (p + fst x - p) with (fst x) by lia. rewrite firstn_all2, skipn_all2 by lia. rewrite map_app. cbn [map app]. rewrite firstn_map, skipn_map, app_assoc. reflexivity.
Qed.
Lemma map_eq_seq : forall x y p m, map (fun k => if k =? p + x then p + y else if k =? p + y then p + x else k) (seq 0 (p + m)) = shifted p (map (fun k => if k =? x then y else if k =? y then x else k) (seq 0 m)).
Proof.
  intros x y p m. rewrite seq_app, map_app. unfold shifted. f_equal.
  - transitivity (map (fun k => k) (seq 0 p)); [|apply map_id]. apply map_ext_in. intros k K. apply in_seq in K. destruct (Nat.eqb_spec k (p + x)); [lia|]. destruct (Nat.eqb_spec k (p + y)); lia.
  - cbn [Nat.add]. rewrite seq_shift_add, !map_map. apply map_ext. intros k.
    destruct (Nat.eqb_spec k x); destruct (Nat.eqb_spec (p + k) (p + x)); try lia; destruct (Nat.eqb_spec k y); destruct (Nat.eqb_spec (p + k) (p + y)); lia.
Qed.
End Facts.
