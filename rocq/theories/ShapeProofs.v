(** Proofs about array shapes, gather and distribute. *)
From Coq Require Import ZArith List Lia Bool.
From Verif Require Import ShapeModel ShapeSpec.
Import ListNotations.

(** * get_base_shape *)
Open Scope Z_scope.

Lemma prod_app a b : prod (a ++ b) = prod a * prod b.
Proof. unfold prod. induction a as [|x a IH]; cbn [app fold_right]; rewrite ?IH; ring. Qed.

Lemma prod_pos s : positive s -> 0 < prod s.
Proof. unfold prod, positive. induction 1; cbn [fold_right]; nia. Qed.

Lemma suffix_split (pre suf pre' suf' : list Z) : pre ++ suf = pre' ++ suf' -> (length suf <= length suf')%nat ->
  exists mid, suf' = mid ++ suf /\ pre = pre' ++ mid.
Proof.
  revert pre. induction pre' as [|x pre' IH]; intros pre E Hl.
  - exists pre. simpl in E. now rewrite E.
  - destruct pre as [|y pre].
    + simpl in E. subst suf. simpl in Hl. rewrite app_length in Hl. lia.
    + simpl in E. injection E as -> E. apply IH in E as (mid & -> & ->); auto. exists mid. auto.
Qed.

(** [done] = the trailing dimensions already multiplied, in order. *)
Lemma fuse_spec L done rest n r : positive (rev rest ++ done) -> done <> [] -> n = length done ->
  fuse L (prod done) n rest = r ->
  match r with
  | Some (m, p) => exists pre suf, rev rest ++ done = pre ++ suf /\ suf <> [] /\ length suf = m /\ prod suf = p /\ L <= p /\
                     (forall pre' suf', rev rest ++ done = pre' ++ suf' -> (length done <= length suf' < length suf)%nat -> prod suf' < L)
  | None => prod (rev rest ++ done) < L
  end.
Proof.
  revert done n r. induction rest as [|d rest IH]; intros done n r Hpos Hne Hn Hf; simpl in Hf.
  - destruct (prod done <? L) eqn:E; subst r.
    + simpl. lia.
    + exists [], done. simpl. repeat split; auto; try lia. 
  - destruct (prod done <? L) eqn:E.
    + assert (Hd : prod (d :: done) = prod done * d) by (unfold prod; cbn [fold_right]; ring).
      rewrite <- Hd in Hf.
      assert (Hrev : rev (d :: rest) ++ done = rev rest ++ (d :: done)) by (simpl; now rewrite <- app_assoc).
      rewrite Hrev in *. apply IH in Hf; auto; try discriminate; [|simpl; lia].
      destruct r as [[m p]|]; auto.
      destruct Hf as (pre & suf & H1 & H2 & H3 & H4 & H5 & H6).
      exists pre, suf. repeat split; auto.
      intros pre' suf' H7 H8.
      destruct (Nat.eq_dec (length suf') (length done)) as [El|].
      * assert (suf' = done).
        { assert (Hx : (rev rest ++ [d]) ++ done = pre' ++ suf') by (rewrite <- app_assoc; exact H7).
          apply suffix_split in Hx; [|lia]. destruct Hx as (mid & -> & _). rewrite app_length in El.
          destruct mid; [reflexivity|simpl in El; lia]. }
        subst suf'. lia.
      * apply (H6 pre'); auto. simpl. lia.
    + subst r. exists (rev (d :: rest)), done. repeat split; auto; try lia.
Qed.

Lemma positive_app a b : positive (a ++ b) <-> positive a /\ positive b.
Proof. unfold positive. apply Forall_app. Qed.

Lemma base_shape_cases shape boundary : positive shape ->
  match get_base_shape shape boundary with
  | Shape r => exists pre suf, fits shape pre suf boundary /\ r = pre ++ boundary
  | ShapeValueError => (exists pre suf, shape = pre ++ suf /\ suf <> [] /\ prod boundary < prod suf) /\
                       forall pre suf, ~ fits shape pre suf boundary
  | ShapeIndexError => shape = [] \/ prod shape < prod boundary
  end.
Proof.
  intro Hpos. unfold get_base_shape. destruct (rev shape) as [|last rest] eqn:R.
  { left. apply (f_equal (@rev Z)) in R. now rewrite rev_involutive in R. }
  assert (S : shape = rev rest ++ [last]).
  { apply (f_equal (@rev Z)) in R. rewrite rev_involutive in R. exact R. }
  pose proof (fuse_spec (prod boundary) [last] rest 1%nat _ ltac:(rewrite <- S; exact Hpos) ltac:(discriminate) eq_refl eq_refl) as F.
  replace (prod [last]) with last in F by (unfold prod; cbn [fold_right]; ring).
  destruct (fuse (prod boundary) last 1 rest) as [[m p]|].
  - destruct F as (pre & suf & E & Hne & Hm & Hp & Hge & Hmin). rewrite <- S in E, Hmin.
    destruct (p =? prod boundary) eqn:Eq.
    + apply Z.eqb_eq in Eq. exists pre, suf. unfold fits. repeat split; auto; try congruence.
      rewrite E. f_equal. rewrite app_length. rewrite <- Hm.
      replace (length pre + length suf - length suf)%nat with (length pre) by lia.
      rewrite firstn_app, firstn_all, Nat.sub_diag. simpl. now rewrite app_nil_r.
    + apply Z.eqb_neq in Eq. split.
      * exists pre, suf. repeat split; auto. lia.
      * intros pre' suf' (E' & Hne' & Hp').
        destruct (Nat.lt_ge_cases (length suf') (length suf)) as [Hlt|Hge'].
        -- assert (1 <= length suf')%nat by (destruct suf'; [congruence|simpl; lia]).
           specialize (Hmin pre' suf' E'). simpl in Hmin. lia.
        -- rewrite E in E'. destruct (suffix_split _ _ _ _ E' Hge') as (mid & -> & ->).
           rewrite E in Hpos. apply positive_app in Hpos as [Hp1 Hp2]. apply positive_app in Hp1 as [_ Hp1].
           rewrite prod_app in Hp'. pose proof (prod_pos _ Hp1). pose proof (prod_pos _ Hp2). nia.
  - right. rewrite S. exact F.
Qed.

Lemma base_shape_ok shape boundary r : positive shape -> get_base_shape shape boundary = Shape r ->
  (exists pre suf, fits shape pre suf boundary /\ r = pre ++ boundary) /\ prod r = prod shape.
Proof.
  intros Hpos H. pose proof (base_shape_cases shape boundary Hpos) as C. rewrite H in C. split; auto.
  destruct C as (pre & suf & (E & _ & P) & ->). rewrite E, !prod_app. congruence.
Qed.

Lemma base_shape_iff shape boundary : positive shape ->
  (exists r, get_base_shape shape boundary = Shape r) <-> (exists pre suf, fits shape pre suf boundary).
Proof.
  intro Hpos. pose proof (base_shape_cases shape boundary Hpos) as C. split.
  - intros [r H]. rewrite H in C. destruct C as (pre & suf & F & _). eauto.
  - intros (pre & suf & F). destruct (get_base_shape shape boundary) as [r| |]; [eauto| |].
    + exfalso. now apply (proj2 C pre suf).
    + exfalso. destruct F as (E & Hne & P). destruct C as [->|C].
      * destruct pre, suf; try discriminate. congruence.
      * subst shape. apply positive_app in Hpos as [H1 H2]. rewrite prod_app in C.
        pose proof (prod_pos _ H1). pose proof (prod_pos _ H2). nia.
Qed.
Close Scope Z_scope.

(** * Lists *)
Section Lists.
Context {A : Type}.
Lemma nth_error_firstn' (l : list A) n i : nth_error (firstn n l) i = if i <? n then nth_error l i else None.
Proof.
  revert n i. induction l as [|a l IH]; intros [|n] [|i]; simpl; auto.
  - now destruct (S i <? S n).
  - rewrite IH. reflexivity.
Qed.
Lemma nth_error_skipn' (l : list A) n i : nth_error (skipn n l) i = nth_error l (n + i).
Proof. revert n i. induction l as [|a l IH]; intros [|n] i; simpl; auto. now destruct i. Qed.
Lemma nth_error_slice (l : list A) a b i : i < b - a -> nth_error (slice a b l) i = nth_error l (a + i).
Proof.
  intro H. unfold slice. rewrite nth_error_firstn', nth_error_skipn'. now replace (i <? b - a) with true by (symmetry; now apply Nat.ltb_lt).
Qed.
Lemma slice_length (l : list A) a b : b <= length l -> length (slice a b l) = b - a.
Proof. intro H. unfold slice. rewrite firstn_length, skipn_length. lia. Qed.
Lemma list_ext (l m : list A) : length l = length m -> (forall i, i < length l -> nth_error l i = nth_error m i) -> l = m.
Proof.
  revert m. induction l as [|a l IH]; intros [|b m]; simpl; intros Hl H; try discriminate; auto.
  pose proof (H 0 ltac:(lia)) as E. simpl in E. injection E as ->. f_equal. apply IH; [lia|].
  intros i Hi. exact (H (S i) ltac:(lia)).
Qed.
Lemma nth_error_ex (l : list A) i : i < length l -> exists x, nth_error l i = Some x.
Proof. intro H. apply nth_error_Some in H. destruct (nth_error l i); [eauto|congruence]. Qed.
Lemma Forall_nth_error (P : A -> Prop) l : Forall P l <-> forall i x, nth_error l i = Some x -> P x.
Proof.
  rewrite Forall_forall. split; intros H.
  - intros i x Hx. apply H. eapply nth_error_In; eauto.
  - intros x Hx. apply In_nth_error in Hx as [i Hi]. eauto.
Qed.
End Lists.

Lemma zipw_nth {A B C} (f : A -> B -> C) a b i :
  nth_error (zipw f a b) i = match nth_error a i, nth_error b i with Some x, Some y => Some (f x y) | _, _ => None end.
Proof.
  unfold zipw. revert b i. induction a as [|x a IH]; intros [|y b] [|i]; simpl; auto.
  destruct (nth_error a i); auto.
Qed.
Lemma zipw_length {A B C} (f : A -> B -> C) a b : length (zipw f a b) = Nat.min (length a) (length b).
Proof. unfold zipw. now rewrite map_length, combine_length. Qed.

(** concatenation of equally long pieces *)
Lemma flat_map_nth {A B} (f : A -> list B) n l i j x : (forall y, length (f y) = n) -> nth_error l i = Some x -> j < n ->
  nth_error (flat_map f l) (i * n + j) = nth_error (f x) j.
Proof.
  intros Hf. revert i. induction l as [|a l IH]; intros [|i]; simpl; try discriminate.
  - intros [= ->] Hj. rewrite nth_error_app1 by (rewrite Hf; lia). reflexivity.
  - intros Hx Hj. rewrite nth_error_app2 by (rewrite Hf; lia). rewrite Hf.
    replace (n + i * n + j - n) with (i * n + j) by lia. now apply IH.
Qed.
Lemma flat_map_len {A B} (f : A -> list B) n l : (forall y, length (f y) = n) -> length (flat_map f l) = length l * n.
Proof. intro Hf. induction l; simpl; [lia|]. rewrite app_length, Hf, IHl. lia. Qed.

Lemma divmod_ex m n x : x < n * m -> exists i j, x = i * m + j /\ i < n /\ j < m.
Proof.
  intro H. assert (m <> 0) by lia. exists (x / m), (x mod m).
  pose proof (Nat.div_mod x m H0). pose proof (Nat.mod_upper_bound x m H0).
  repeat split; try lia. apply Nat.div_lt_upper_bound; lia.
Qed.

Section Arrays.
Context {E : Type}.
Implicit Types a b t p : array E.
Implicit Types ts tiles panels : list (array E).

Lemma shape_entry nl nr nc a l r c : has_shape nl nr nc a -> l < nl -> r < nr -> c < nc -> exists x, entry a l r c = Some x.
Proof.
  intros [Hl Ha] H1 H2 H3. unfold entry. rewrite <- Hl in H1. destruct (nth_error_ex a l H1) as [m Em]. rewrite Em.
  rewrite Forall_nth_error in Ha. destruct (Ha _ _ Em) as [Hm Hrow].
  rewrite <- Hm in H2. destruct (nth_error_ex m r H2) as [row Er]. rewrite Er.
  rewrite Forall_nth_error in Hrow. apply nth_error_ex. rewrite (Hrow _ _ Er). exact H3.
Qed.

Lemma array_ext nl nr nc a b : has_shape nl nr nc a -> has_shape nl nr nc b ->
  (forall l r c, l < nl -> r < nr -> c < nc -> entry a l r c = entry b l r c) -> a = b.
Proof.
  intros [Hl Ha] [Hl' Hb] H. rewrite Forall_nth_error in Ha, Hb. apply list_ext; [congruence|]. intros l Hll.
  destruct (nth_error_ex a l Hll) as [m Em]. destruct (nth_error_ex b l ltac:(congruence)) as [m' Em'].
  destruct (Ha _ _ Em) as [Hm Hr]. destruct (Hb _ _ Em') as [Hm' Hr'].
  rewrite Forall_nth_error in Hr, Hr'.
  rewrite Em, Em'. f_equal. apply list_ext; [congruence|]. intros r Hrr.
  destruct (nth_error_ex m r Hrr) as [w Ew]. destruct (nth_error_ex m' r ltac:(congruence)) as [w' Ew'].
  pose proof (Hr _ _ Ew). pose proof (Hr' _ _ Ew').
  rewrite Ew, Ew'. f_equal. apply list_ext; [congruence|]. intros c Hc.
  specialize (H l r c ltac:(lia) ltac:(lia) ltac:(lia)). unfold entry in H. rewrite Em, Em', Ew, Ew' in H. exact H.
Qed.

Lemma cat_cols_shape nl nr c1 c2 a b : has_shape nl nr c1 a -> has_shape nl nr c2 b -> has_shape nl nr (c1 + c2) (cat_cols a b).
Proof.
  intros [Hl Ha] [Hl' Hb]. rewrite Forall_nth_error in Ha, Hb. split.
  - unfold cat_cols. rewrite zipw_length. lia.
  - apply Forall_nth_error. intros i x. unfold cat_cols. rewrite zipw_nth.
    destruct (nth_error a i) as [m|] eqn:Em; try discriminate. destruct (nth_error b i) as [m'|] eqn:Em'; try discriminate.
    intros [= <-]. destruct (Ha _ _ Em) as [Hm Hr]. destruct (Hb _ _ Em') as [Hm' Hr']. rewrite Forall_nth_error in Hr, Hr'.
    split; [rewrite zipw_length; lia|]. apply Forall_nth_error. intros r y. rewrite zipw_nth.
    destruct (nth_error m r) as [w|] eqn:Ew; try discriminate. destruct (nth_error m' r) as [w'|] eqn:Ew'; try discriminate.
    intros [= <-]. rewrite app_length, (Hr _ _ Ew), (Hr' _ _ Ew'). reflexivity.
Qed.

Lemma cat_cols_entry nl nr c1 c2 a b l r c : has_shape nl nr c1 a -> has_shape nl nr c2 b -> l < nl -> r < nr ->
  entry (cat_cols a b) l r c = if c <? c1 then entry a l r c else entry b l r (c - c1).
Proof.
  intros [Hl Ha] [Hl' Hb] H1 H2. rewrite Forall_nth_error in Ha, Hb. unfold entry, cat_cols. rewrite zipw_nth.
  destruct (nth_error_ex a l ltac:(lia)) as [m Em]. destruct (nth_error_ex b l ltac:(lia)) as [m' Em'].
  destruct (Ha _ _ Em) as [Hm Hr]. destruct (Hb _ _ Em') as [Hm' Hr']. rewrite Forall_nth_error in Hr, Hr'.
  destruct (nth_error_ex m r ltac:(lia)) as [w Ew]. destruct (nth_error_ex m' r ltac:(lia)) as [w' Ew'].
  rewrite Em, Em', zipw_nth, Ew, Ew'. destruct (c <? c1) eqn:L.
  - apply Nat.ltb_lt in L. apply nth_error_app1. rewrite (Hr _ _ Ew). exact L.
  - apply Nat.ltb_ge in L. rewrite nth_error_app2 by (rewrite (Hr _ _ Ew); exact L). now rewrite (Hr _ _ Ew).
Qed.

Lemma cat_rows_shape nl r1 r2 nc a b : has_shape nl r1 nc a -> has_shape nl r2 nc b -> has_shape nl (r1 + r2) nc (cat_rows a b).
Proof.
  intros [Hl Ha] [Hl' Hb]. rewrite Forall_nth_error in Ha, Hb. split.
  - unfold cat_rows. rewrite zipw_length. lia.
  - apply Forall_nth_error. intros i x. unfold cat_rows. rewrite zipw_nth.
    destruct (nth_error a i) as [m|] eqn:Em; try discriminate. destruct (nth_error b i) as [m'|] eqn:Em'; try discriminate.
    intros [= <-]. destruct (Ha _ _ Em) as [Hm Hr]. destruct (Hb _ _ Em') as [Hm' Hr'].
    split; [rewrite app_length; lia|]. apply Forall_app. auto.
Qed.

Lemma cat_rows_entry nl r1 r2 nc a b l r c : has_shape nl r1 nc a -> has_shape nl r2 nc b -> l < nl ->
  entry (cat_rows a b) l r c = if r <? r1 then entry a l r c else entry b l (r - r1) c.
Proof.
  intros [Hl Ha] [Hl' Hb] H1. rewrite Forall_nth_error in Ha, Hb. unfold entry, cat_rows. rewrite zipw_nth.
  destruct (nth_error_ex a l ltac:(lia)) as [m Em]. destruct (nth_error_ex b l ltac:(lia)) as [m' Em'].
  destruct (Ha _ _ Em) as [Hm Hr]. rewrite Em, Em'. destruct (r <? r1) eqn:L.
  - apply Nat.ltb_lt in L. now rewrite nth_error_app1 by lia.
  - apply Nat.ltb_ge in L. rewrite nth_error_app2 by lia. now rewrite Hm.
Qed.

Lemma ncat_cons cat t ts : ts <> [] -> ncat cat (t :: ts) = cat t (ncat (E:=E) cat ts).
Proof. destruct ts; simpl; congruence. Qed.

Lemma ncat_cols_shape nl nr nc ts : ts <> [] -> Forall (has_shape nl nr nc) ts ->
  has_shape nl nr (length ts * nc) (ncat cat_cols ts).
Proof.
  induction ts as [|t ts IH]; intros Hne Hts; [congruence|]. inversion Hts; subst.
  destruct ts as [|t2 ts].
  - simpl. now rewrite Nat.add_0_r.
  - rewrite ncat_cons by discriminate. simpl length. apply cat_cols_shape; auto. apply IH; auto. discriminate.
Qed.

Lemma ncat_cols_entry nl nr nc ts j t l r c : Forall (has_shape nl nr nc) ts -> nth_error ts j = Some t ->
  l < nl -> r < nr -> c < nc -> entry (ncat cat_cols ts) l r (j * nc + c) = entry t l r c.
Proof.
  revert j. induction ts as [|t0 ts IH]; intros j Hts Hj Hl Hr Hc; [destruct j; discriminate|].
  inversion Hts; subst. destruct ts as [|t1 ts].
  - destruct j as [|j]; simpl in Hj; [now injection Hj as ->|destruct j; discriminate].
  - rewrite ncat_cons by discriminate.
    assert (Hs : has_shape nl nr (length (t1 :: ts) * nc) (ncat cat_cols (t1 :: ts))) by (apply ncat_cols_shape; auto; discriminate).
    rewrite (cat_cols_entry nl nr nc _ t0 _ l r _ H1 Hs Hl Hr).
    destruct j as [|j].
    + simpl in Hj. injection Hj as ->. simpl. now replace (c <? nc) with true by (symmetry; now apply Nat.ltb_lt).
    + replace (S j * nc + c <? nc) with false by (symmetry; apply Nat.ltb_ge; lia).
      replace (S j * nc + c - nc) with (j * nc + c) by lia. apply IH; auto.
Qed.

Lemma ncat_rows_shape nl nr nc ts : ts <> [] -> Forall (has_shape nl nr nc) ts ->
  has_shape nl (length ts * nr) nc (ncat cat_rows ts).
Proof.
  induction ts as [|t ts IH]; intros Hne Hts; [congruence|]. inversion Hts; subst.
  destruct ts as [|t2 ts].
  - simpl. now rewrite Nat.add_0_r.
  - rewrite ncat_cons by discriminate. simpl length. apply cat_rows_shape; auto. apply IH; auto. discriminate.
Qed.

Lemma ncat_rows_entry nl nr nc ts j t l r c : Forall (has_shape nl nr nc) ts -> nth_error ts j = Some t ->
  l < nl -> r < nr -> entry (ncat cat_rows ts) l (j * nr + r) c = entry t l r c.
Proof.
  revert j. induction ts as [|t0 ts IH]; intros j Hts Hj Hl Hr; [destruct j; discriminate|].
  inversion Hts; subst. destruct ts as [|t1 ts].
  - destruct j as [|j]; simpl in Hj; [now injection Hj as ->|destruct j; discriminate].
  - rewrite ncat_cons by discriminate.
    assert (Hs : has_shape nl (length (t1 :: ts) * nr) nc (ncat cat_rows (t1 :: ts))) by (apply ncat_rows_shape; auto; discriminate).
    rewrite (cat_rows_entry nl nr _ nc t0 _ l _ _ H1 Hs Hl).
    destruct j as [|j].
    + simpl in Hj. injection Hj as ->. simpl. now replace (r <? nr) with true by (symmetry; now apply Nat.ltb_lt).
    + replace (S j * nr + r <? nr) with false by (symmetry; apply Nat.ltb_ge; lia).
      replace (S j * nr + r - nr) with (j * nr + r) by lia. apply IH; auto.
Qed.

Lemma Forall_slice {A} (P : A -> Prop) x y l : Forall P l -> Forall P (slice x y l).
Proof.
  rewrite !Forall_forall. intros H z Hz. apply H. unfold slice in Hz.
  rewrite <- (firstn_skipn x l). apply in_or_app. right.
  rewrite <- (firstn_skipn (y - x) (skipn x l)). apply in_or_app. now left.
Qed.

Lemma nth_error_seq n i : i < n -> nth_error (seq 0 n) i = Some i.
Proof. intro H. rewrite (nth_error_nth' _ 0) by (now rewrite seq_length). now rewrite seq_nth. Qed.

Lemma gather_panel_shape_entry nl m1 m2 k tiles : 1 <= k -> length tiles = k * k -> Forall (has_shape nl m1 m2) tiles ->
  has_shape nl (k * m1) (k * m2) (gather_panel k tiles) /\
  forall i j t l r c, i < k -> j < k -> nth_error tiles (i * k + j) = Some t -> l < nl -> r < m1 -> c < m2 ->
    entry (gather_panel k tiles) l (i * m1 + r) (j * m2 + c) = entry t l r c.
Proof.
  intros Hk Hlen Hsh. unfold gather_panel. destruct (Nat.eqb_spec (length tiles) 1) as [E1|E1].
  - assert (k = 1) by nia. subst k. destruct tiles as [|t0 [|t1 ts]]; try discriminate. simpl. inversion Hsh; subst.
    rewrite !Nat.add_0_r. split; auto. intros i j t l r c Hi Hj. assert (i = 0) by lia. assert (j = 0) by lia. subst. simpl.
    intros [= ->]. auto.
  - set (row i := ncat cat_cols (slice (i * k) ((i + 1) * k) tiles)).
    assert (Hrow : forall i, i < k -> has_shape nl m1 (k * m2) (row i)).
    { intros i Hi. unfold row.
      assert (L : length (slice (i * k) ((i + 1) * k) tiles) = k) by (rewrite slice_length; nia).
      replace (k * m2) with (length (slice (i * k) ((i + 1) * k) tiles) * m2) by (now rewrite L).
      apply ncat_cols_shape; [|now apply Forall_slice].
      destruct (slice (i * k) ((i + 1) * k) tiles); simpl in L; [lia|discriminate]. }
    assert (Hrows : Forall (has_shape nl m1 (k * m2)) (map row (seq 0 k))).
    { apply Forall_forall. intros x Hx. apply in_map_iff in Hx as (i & <- & Hi). apply in_seq in Hi. apply Hrow. lia. }
    split.
    + assert (L : length (map row (seq 0 k)) = k) by (now rewrite map_length, seq_length).
      replace (k * m1) with (length (map row (seq 0 k)) * m1) by (now rewrite L).
      apply ncat_rows_shape; auto. destruct (map row (seq 0 k)); simpl in L; [lia|discriminate].
    + intros i j t l r c Hi Hj Ht Hl Hr Hc.
      assert (Hn : nth_error (map row (seq 0 k)) i = Some (row i)) by (rewrite nth_error_map, nth_error_seq by exact Hi; reflexivity).
      rewrite (ncat_rows_entry nl m1 (k * m2) (map row (seq 0 k)) i (row i) l r _ Hrows Hn Hl Hr). unfold row.
      apply (ncat_cols_entry nl m1); auto; [now apply Forall_slice|].
      rewrite nth_error_slice by lia. exact Ht.
Qed.

Lemma tile_at_shape nl k m i j p : i < k -> j < k -> has_shape nl (k * m) (k * m) p -> has_shape nl m m (tile_at m i j p).
Proof.
  intros Hi Hj [Hl Hp]. unfold tile_at. split; [now rewrite map_length|].
  rewrite Forall_forall in *. intros x Hx. apply in_map_iff in Hx as (mm & <- & Hm). destruct (Hp _ Hm) as [H1 H2].
  split; [rewrite map_length, slice_length; nia|].
  apply Forall_forall. intros w Hw. apply in_map_iff in Hw as (ww & <- & Hww).
  rewrite slice_length; [lia|]. assert (length ww = k * m). { apply (proj1 (Forall_forall _ _) H2). unfold slice in Hww.
    rewrite <- (firstn_skipn (i * m) mm). apply in_or_app. right.
    rewrite <- (firstn_skipn ((i + 1) * m - i * m) (skipn (i * m) mm)). apply in_or_app. now left. }
  nia.
Qed.

Lemma tile_at_entry p m i j l r c : r < m -> c < m -> entry (tile_at m i j p) l r c = entry (E:=E) p l (i * m + r) (j * m + c).
Proof.
  intros Hr Hc. unfold entry, tile_at. rewrite nth_error_map. destruct (nth_error p l) as [mm|]; [|reflexivity]. simpl.
  rewrite nth_error_map, nth_error_slice by lia. destruct (nth_error mm (i * m + r)) as [w|]; [|reflexivity]. simpl.
  now rewrite nth_error_slice by lia.
Qed.

Lemma cut_panel_length k m p : length (cut_panel (E:=E) k m p) = k * k.
Proof. unfold cut_panel. rewrite (flat_map_len _ k); [now rewrite seq_length|]. intro. now rewrite map_length, seq_length. Qed.

Lemma cut_panel_nth k m p i j : i < k -> j < k -> nth_error (cut_panel (E:=E) k m p) (i * k + j) = Some (tile_at m i j p).
Proof.
  intros Hi Hj. unfold cut_panel. rewrite (flat_map_nth _ k _ i j i); auto.
  - now rewrite nth_error_map, nth_error_seq.
  - intro. now rewrite map_length, seq_length.
  - now apply nth_error_seq.
Qed.

Lemma cut_gather nl m k tiles : 1 <= k -> length tiles = k * k -> Forall (has_shape nl m m) tiles ->
  cut_panel k m (gather_panel k tiles) = tiles.
Proof.
  intros Hk Hlen Hsh. destruct (gather_panel_shape_entry nl m m k tiles Hk Hlen Hsh) as [Hs He].
  apply list_ext; [rewrite cut_panel_length; congruence|]. intros x Hx. rewrite cut_panel_length in Hx.
  destruct (divmod_ex k k x Hx) as (i & j & -> & Hi & Hj). rewrite cut_panel_nth by assumption.
  destruct (nth_error_ex tiles (i * k + j) ltac:(lia)) as [t Et]. rewrite Et. f_equal.
  rewrite Forall_nth_error in Hsh.
  apply (array_ext nl m m); [now apply (tile_at_shape nl k)|eauto|].
  intros l r c Hl Hr Hc. rewrite tile_at_entry by assumption. now apply He.
Qed.

Lemma gather_cut nl m k p : 1 <= k -> has_shape nl (k * m) (k * m) p -> gather_panel k (cut_panel k m p) = p.
Proof.
  intros Hk Hp.
  assert (Hsh : Forall (has_shape nl m m) (cut_panel k m p)).
  { apply Forall_nth_error. intros x t Hx.
    assert (Hlt : x < k * k) by (rewrite <- (cut_panel_length k m p); apply nth_error_Some; congruence).
    destruct (divmod_ex k k x Hlt) as (i & j & -> & Hi & Hj). rewrite cut_panel_nth in Hx by assumption.
    injection Hx as <-. now apply (tile_at_shape nl k). }
  destruct (gather_panel_shape_entry nl m m k _ Hk (cut_panel_length k m p) Hsh) as [Hs He].
  apply (array_ext nl (k * m) (k * m)); auto.
  intros l R C Hl HR HC. destruct (divmod_ex m k R HR) as (i & r & -> & Hi & Hr). destruct (divmod_ex m k C HC) as (j & c & -> & Hj & Hc).
  rewrite (He i j (tile_at m i j p)); auto; [|now apply cut_panel_nth]. now apply tile_at_entry.
Qed.

Lemma tile_at_whole nl m p : has_shape nl m m p -> cut_panel 1 m p = [p].
Proof.
  intros H. unfold cut_panel. simpl. f_equal.
  assert (H1 : has_shape nl (1 * m) (1 * m) p) by (now rewrite Nat.mul_1_l).
  apply (array_ext nl m m); auto.
  - apply (tile_at_shape nl 1); auto.
  - intros l r c Hl Hr Hc. rewrite tile_at_entry by assumption. reflexivity.
Qed.

Lemma slice_app_blocks {A} (ls : list (list A)) n (p : nat) x : (forall y, In y ls -> length y = n) -> nth_error ls p = Some x ->
  slice (p * n) ((p + 1) * n) (concat ls) = x.
Proof.
  intros Hn Hp. assert (Hx : length x = n) by (apply Hn; eapply nth_error_In; eauto).
  assert (Hlen : length (concat ls) = length ls * n).
  { clear -Hn. induction ls as [|a ls IH]; simpl; [lia|]. rewrite app_length, (Hn a) by (now left).
    rewrite IH; [lia|]. intros y Hy. apply Hn. now right. }
  assert (Hpl : p < length ls) by (apply nth_error_Some; congruence).
  apply list_ext; [rewrite slice_length; nia|]. rewrite slice_length by nia. intros i Hi. rewrite nth_error_slice by lia.
  clear Hlen. revert p Hp Hpl Hi. induction ls as [|a ls IH]; intros p Hp Hpl Hi; [simpl in Hpl; lia|].
  assert (Ha : length a = n) by (apply Hn; now left).
  destruct p as [|p]; simpl concat; simpl in Hp.
  - injection Hp as ->. simpl. apply nth_error_app1. lia.
  - rewrite nth_error_app2 by lia. rewrite Ha. replace (S p * n + i - n) with (p * n + i) by lia.
    apply IH; auto; try lia.
    + intros y Hy. apply Hn. now right.
    + simpl in Hpl. lia.
Qed.

Lemma nth_six {A} (f : nat -> A) (l : list A) : length l = 6 -> (forall p : nat, p < 6 -> nth_error l p = Some (f p)) -> l = map f (seq 0 6).
Proof.
  intros Hl H. apply list_ext; [exact Hl|]. intros i Hi. rewrite H by lia. rewrite nth_error_map, nth_error_seq by lia. reflexivity.
Qed.

(** Distributing gathered tiles. *)
Lemma distribute_gather nl m k tiles : 1 <= k -> length tiles = 6 * (k * k) -> Forall (has_shape nl m m) tiles ->
  distribute_cube k {| c_first := 6; c_rows := k * m; c_cols := k * m; c_panels := gather_cube k tiles |} = Some tiles.
Proof.
  intros Hk Hlen Hsh. unfold distribute_cube. cbn [c_first c_rows c_cols c_panels].
  rewrite !Nat.eqb_refl. simpl negb. simpl orb. cbv iota.
  replace (k * m / k) with m by (rewrite Nat.mul_comm, Nat.div_mul; lia).
  replace (m * k =? k * m) with true by (symmetry; apply Nat.eqb_eq; lia). simpl negb. cbv iota.
  assert (Hblock : forall p : nat, p < 6 -> let b := slice (p * (k * k)) ((p + 1) * (k * k)) tiles in
             length b = k * k /\ Forall (has_shape nl m m) b).
  { intros p Hp b. split; [unfold b; rewrite slice_length; nia|]. now apply Forall_slice. }
  assert (Hcut : flat_map (cut_panel k m) (gather_cube k tiles) = tiles).
  { unfold gather_cube. apply list_ext.
    - rewrite (flat_map_len _ (k * k)) by (intro; apply cut_panel_length). rewrite map_length, seq_length. congruence.
    - rewrite (flat_map_len _ (k * k)) by (intro; apply cut_panel_length). rewrite map_length, seq_length. intros x Hx.
      destruct (divmod_ex (k * k) 6 x Hx) as (p & q & -> & Hp & Hq).
      rewrite (flat_map_nth _ (k * k) _ p q (gather_panel k (slice (p * (k * k)) ((p + 1) * (k * k)) tiles)));
        auto using cut_panel_length.
      + destruct (Hblock p Hp) as [B1 B2]. rewrite (cut_gather nl) by assumption. rewrite nth_error_slice by lia. reflexivity.
      + rewrite nth_error_map, nth_error_seq by exact Hp. reflexivity. }
  destruct (Nat.eqb_spec k 1) as [->|_]; [|now rewrite Hcut].
  f_equal. transitivity (flat_map (cut_panel 1 m) (gather_cube 1 tiles)); [|exact Hcut]. symmetry.
  assert (Hall : Forall (has_shape nl m m) (gather_cube 1 tiles)).
  { apply Forall_forall. intros q Hp. unfold gather_cube in Hp. apply in_map_iff in Hp as (i & <- & Hi). apply in_seq in Hi.
    destruct (Hblock i ltac:(lia)) as [B1 B2].
    destruct (gather_panel_shape_entry nl m m 1 _ Hk B1 B2) as [Hs _]. now rewrite !Nat.mul_1_l in Hs. }
  clear -Hall. induction (gather_cube 1 tiles) as [|p ps IH]; [reflexivity|]. inversion Hall; subst.
  change (cut_panel 1 m p ++ flat_map (cut_panel 1 m) ps = p :: ps). rewrite (tile_at_whole nl) by assumption. cbn [app]. now rewrite IH.
Qed.

(** Gathering distributed tiles. *)
Lemma gather_distribute nl m k panels : 1 <= k -> length panels = 6 -> Forall (has_shape nl (k * m) (k * m)) panels ->
  exists tiles, distribute_cube k {| c_first := 6; c_rows := k * m; c_cols := k * m; c_panels := panels |} = Some tiles /\
    length tiles = 6 * (k * k) /\ Forall (has_shape nl m m) tiles /\ gather_cube k tiles = panels.
Proof.
  intros Hk Hlen Hsh. unfold distribute_cube. cbn [c_first c_rows c_cols c_panels].
  rewrite !Nat.eqb_refl. simpl negb. simpl orb. cbv iota.
  replace (k * m / k) with m by (rewrite Nat.mul_comm, Nat.div_mul; lia).
  replace (m * k =? k * m) with true by (symmetry; apply Nat.eqb_eq; lia). simpl negb. cbv iota.
  assert (Hf : flat_map (cut_panel k m) panels = concat (map (cut_panel k m) panels)) by apply flat_map_concat_map.
  assert (Hl : length (flat_map (cut_panel k m) panels) = 6 * (k * k)).
  { rewrite (flat_map_len _ (k * k)) by (intro; apply cut_panel_length). now rewrite Hlen. }
  assert (Hs : Forall (has_shape nl m m) (flat_map (cut_panel k m) panels)).
  { apply Forall_flat_map. eapply Forall_impl; [|exact Hsh]. intros p Hp. apply Forall_nth_error. intros x t Hx.
    assert (Hlt : x < k * k) by (rewrite <- (cut_panel_length k m p); apply nth_error_Some; congruence).
    destruct (divmod_ex k k x Hlt) as (i & j & -> & Hi & Hj). rewrite cut_panel_nth in Hx by assumption.
    injection Hx as <-. now apply (tile_at_shape nl k). }
  assert (Hg : gather_cube k (flat_map (cut_panel k m) panels) = panels).
  { symmetry. unfold gather_cube. apply nth_six; auto. intros p Hp.
    destruct (nth_error_ex panels p ltac:(lia)) as [q Eq]. rewrite Eq. f_equal. rewrite Hf.
    rewrite (slice_app_blocks _ (k * k) p (cut_panel k m q)).
    - symmetry. rewrite Forall_nth_error in Hsh. now apply (gather_cut nl); eauto.
    - intros y Hy. apply in_map_iff in Hy as (z & <- & _). apply cut_panel_length.
    - rewrite nth_error_map, Eq. reflexivity. }
  assert (H1 : k = 1 -> flat_map (cut_panel k m) panels = panels).
  { intros ->. rewrite !Nat.mul_1_l in Hsh. clear -Hsh. induction panels as [|p ps IH]; [reflexivity|]. inversion Hsh; subst.
    change (cut_panel 1 m p ++ flat_map (cut_panel 1 m) ps = p :: ps). rewrite (tile_at_whole nl) by assumption. cbn [app]. now rewrite IH. }
  destruct (Nat.eqb_spec k 1) as [E1|_]; eexists; (split; [reflexivity|]).
  - rewrite (H1 E1) in Hl, Hs, Hg. auto.
  - auto.
Qed.

Lemma gather_entry nl m k tiles (p : nat) i j t l r c : 1 <= k -> length tiles = 6 * (k * k) -> Forall (has_shape nl m m) tiles ->
  p < 6 -> i < k -> j < k -> nth_error tiles (p * (k * k) + i * k + j) = Some t -> l < nl -> r < m -> c < m ->
  exists panel, nth_error (gather_cube k tiles) p = Some panel /\ entry panel l (i * m + r) (j * m + c) = entry t l r c.
Proof.
  intros Hk Hlen Hsh Hp Hi Hj Ht Hl Hr Hc. unfold gather_cube. rewrite nth_error_map, nth_error_seq by exact Hp. simpl.
  eexists. split; [reflexivity|].
  apply (gather_panel_shape_entry nl m m); auto.
  - rewrite slice_length; nia.
  - now apply Forall_slice.
  - rewrite nth_error_slice by nia. rewrite Nat.add_assoc. exact Ht.
Qed.

Lemma distribute_fails k c : 1 <= k -> distribute_cube (E:=E) k c = None <->
  ~ (c_first c = 6 /\ c_rows c = c_cols c /\ exists m, c_rows c = k * m).
Proof.
  intro Hk. unfold distribute_cube.
  destruct (Nat.eqb_spec (c_first c) 6) as [E1|E1]; simpl.
  2: { split; [intros _ (H & _); contradiction|auto]. }
  destruct (Nat.eqb_spec (c_rows c) (c_cols c)) as [E2|E2]; simpl.
  2: { split; [intros _ (_ & H & _); contradiction|auto]. }
  destruct (Nat.eqb_spec (c_rows c / k * k) (c_rows c)) as [E3|E3]; simpl.
  - split; [destruct (k =? 1); discriminate|]. intro H. exfalso. apply H. repeat split; auto. exists (c_rows c / k). lia.
  - split; auto. intros _ (_ & _ & m & Hm). apply E3. rewrite Hm. rewrite (Nat.mul_comm k m), Nat.div_mul by lia. reflexivity.
Qed.
End Arrays.

Lemma gather_1d_prefix {E} k (fields : list (list E)) : 2 <= k -> length fields = k * k ->
  gather_panel_1d k fields = concat (firstn k fields).
Proof.
  intros Hk Hl. unfold gather_panel_1d. replace (length fields =? 1) with false by (symmetry; apply Nat.eqb_neq; nia).
  unfold slice. now rewrite Nat.sub_0_r.
Qed.

Lemma gather_1d_loses : exists k (fields : list (list nat)), length fields = k * k /\ gather_panel_1d k fields <> concat fields.
Proof. exists 2, [[0]; [1]; [2]; [3]]. split; [reflexivity|]. vm_compute. discriminate. Qed.

Lemma small_shape_index_error : exists shape boundary,
  positive shape /\ (forall pre suf, ~ fits shape pre suf boundary) /\ get_base_shape shape boundary <> ShapeValueError.
Proof.
  exists [2]%Z, [4]%Z. split; [repeat constructor|]. split; [|vm_compute; discriminate].
  intros pre suf (E & Hne & P). destruct pre as [|x [|y pre]]; simpl in E.
  - subst suf. discriminate.
  - injection E as _ E. congruence.
  - discriminate.
Qed.
