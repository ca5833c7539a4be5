(** The statements of LayoutProps. *)
From Coq Require Import List Arith Lia Bool.
From Verif Require Import LayoutModel LayoutSpec LayoutProofs LayoutConvert LayoutItf LayoutFloor.
Import ListNotations.

Section Final.
Context {A : Type}.
Implicit Types a : arr A.
Variables (n1 n2 n3 ns : nat).
Lemma split_shape : forall k s, lead k s ++ trail k s = s.
Proof. intros. unfold lead, trail. apply firstn_skipn. Qed.
Lemma shape_of : forall k s t, eq_shape (trail k s) t = true -> s = lead k s ++ t.
Proof. intros k s t H. apply eq_shape_iff in H. rewrite <- H. symmetry. apply split_shape. Qed.

Lemma to_new_2d_four : forall d a, n1 = n2 -> shape a = [d; 1; n2 * ns; n1 * ns] -> exists b, to_new_2d n1 n2 ns a = Some b /\
  elements_2d n1 n2 ns [d] (Arr [d; n2 * ns; n1 * ns] (fun i => match i with m :: r => get a (m :: 0 :: r) | [] => get a [] end)) b.
Proof.
  intros d a Hn H. unfold to_new_2d. rewrite H. cbn [length Nat.eqb andb orb skipn nth]. rewrite eq_shape_true. cbn [andb orb].
  set (a' := Arr _ _). change [0; 1; 3; 2; 4] with (shifted (length [d]) [0; 2; 1; 3]).
  destruct (reshape_some [d; n2; ns; n1; ns] a) as (b & Rb & Sb & Gb); [rewrite H; cbn [prod fold_right]; ring|]. rewrite Rb. cbn [bind]. rewrite H in Gb.
  destruct (transpose_lead [d] [n2; ns; n1; ns] [0; 2; 1; 3] b Sb) as [St Gt]; [cbn; intros; lia|]. cbn [map nth] in St.
  destruct (reshape_lead [d] _ [n1; n2; ns * ns] _ St) as (c & Rc & Sc & Gc); [cbn [prod fold_right]; ring|].
  exists c. cbn [app] in Rc. rewrite Rc. split; [reflexivity|]. split; [reflexivity|]. split; [rewrite Sc, Hn; reflexivity|]. intros i e2 e1 y x V E2 E1 Hy Hx.
  rewrite (Gc i _ [e2; e1; y; x] V); [|valids|rewrite Hn; cbn [flatten prod fold_right]; ring]. rewrite (Gt i [e2; e1; y; x] (valid_length _ _ V)). cbn [length seq map index_of Nat.eqb nth].
  apply valid_inv in V. destruct V as (m & j & -> & M & V). apply valid_nil in V. subst j. cbn [app get a']. apply Gb; [valids|]. cbn [flatten prod fold_right]. ring.
Qed.
Lemma to_new_2d_shape : forall a b, to_new_2d n1 n2 ns a = Some b -> exists l, shape a = l ++ [n2 * ns; n1 * ns] /\ (l = [] \/ (exists d, l = [d]) \/ exists d, l = [d; 1]).
Proof.
  intros a b H. unfold to_new_2d in H. destruct ((length (shape a) =? 2) && _) eqn:E1.
  - apply andb_true_iff in E1. destruct E1 as [_ E]. apply eq_shape_iff in E. exists []. rewrite E. auto.
  - destruct (((length (shape a) =? 3) && _) || _) eqn:E2; [|discriminate]. apply orb_true_iff in E2. destruct E2 as [E2|E2].
    + apply andb_true_iff in E2. destruct E2 as [L E]. apply eq_shape_iff in E. destruct (shape a) as [|d s]; [discriminate|]. cbn in E. subst s. exists [d]. eauto.
    + apply andb_true_iff in E2. destruct E2 as [E2 O]. apply andb_true_iff in E2. destruct E2 as [L E]. apply eq_shape_iff in E. destruct (shape a) as [|d [|d' s]]; try discriminate. cbn in E, O. apply Nat.eqb_eq in O. subst. exists [d; 1]. eauto.
Qed.
Lemma bad_shapes : forall a b,
  (to_new_3d n1 n2 n3 ns a = Some b -> exists l, shape a = l ++ [n3 * ns; n2 * ns; n1 * ns]) /\
  (to_single_block_3d n1 n2 n3 ns a = Some b -> exists l, shape a = l ++ [n3; n2; n1; ns ^ 3]) /\
  (to_single_block_2d n1 n2 ns a = Some b -> exists l, shape a = l ++ [n2; n1; ns * ns]) /\
  (forall zero empty, to_new_itf_i_2d n1 n2 ns zero empty a = Some b -> exists l, shape a = l ++ [n1 + 1; n2 * ns]) /\
  (forall zero empty, to_new_itf_j_2d n1 n2 ns zero empty a = Some b -> exists l, shape a = l ++ [n2 + 1; n1 * ns]) /\
  (forall zero empty, to_new_itf_i_3d n1 n2 n3 ns zero empty a = Some b -> exists l, shape a = l ++ [n3 * ns; n2 * ns; n1 + 1]) /\
  (forall zero, to_new_itf_j_3d n1 n2 n3 ns zero a = Some b -> exists l, shape a = l ++ [n3 * ns; n2 + 1; n1 * ns]) /\
  (forall zero, to_new_itf_k_3d n1 n2 n3 ns zero a = Some b -> exists l, shape a = l ++ [n3 + 1; n2 * ns; n1 * ns]).
Proof.
  intros a b.
  repeat split; intros;
  match goal with H : ?x = Some _ |- _ => unfold to_new_3d, to_single_block_3d, to_single_block_2d, to_new_itf_i_2d, to_new_itf_j_2d, to_new_itf_i_3d, to_new_itf_j_3d, to_new_itf_k_3d in H;
    match type of H with (if ?c then _ else _) = _ => destruct c eqn:E; [|discriminate] end end;
  eexists; eapply shape_of; eassumption.
Qed.

Lemma round_2d : forall l a, n1 = n2 -> l = [] \/ (exists m, l = [m]) -> shape a = l ++ [n2 * ns; n1 * ns] ->
  exists b c, to_new_2d n1 n2 ns a = Some b /\ to_single_block_2d n1 n2 ns b = Some c /\ same a c.
Proof.
  intros l a Hn L H. destruct (to_new_2d_ok n1 n2 ns l a Hn L H) as (b & B & E). destruct (to_single_block_2d_ok n1 n2 ns l b) as (c & C & F); [apply E|]. exists b, c. split; [auto|]. split; [auto|]. eapply elements_2d_unique; eauto.
Qed.
Lemma round_2d_back : forall l b, n1 = n2 -> l = [] \/ (exists m, l = [m]) -> shape b = l ++ [n2; n1; ns * ns] ->
  exists a c, to_single_block_2d n1 n2 ns b = Some a /\ to_new_2d n1 n2 ns a = Some c /\ same (A := A) b c.
Proof.
  intros l b Hn L H. destruct (to_single_block_2d_ok n1 n2 ns l b H) as (a & B & E). destruct (to_new_2d_ok n1 n2 ns l a Hn L) as (c & C & F); [apply E|]. exists a, c. split; [auto|]. split; [auto|]. eapply elements_2d_function; eauto.
Qed.
Lemma round_3d : forall l a, shape a = l ++ [n3 * ns; n2 * ns; n1 * ns] ->
  exists b c, to_new_3d n1 n2 n3 ns a = Some b /\ to_single_block_3d n1 n2 n3 ns b = Some c /\ same a c.
Proof.
  intros l a H. destruct (to_new_3d_ok n1 n2 n3 ns l a H) as (b & B & E). destruct (to_single_block_3d_ok n1 n2 n3 ns l b) as (c & C & F); [apply E|]. exists b, c. split; [auto|]. split; [auto|]. eapply elements_3d_unique; eauto.
Qed.
Lemma round_3d_back : forall l b, shape b = l ++ [n3; n2; n1; ns ^ 3] ->
  exists a c, to_single_block_3d n1 n2 n3 ns b = Some a /\ to_new_3d n1 n2 n3 ns a = Some c /\ same (A := A) b c.
Proof.
  intros l b H. destruct (to_single_block_3d_ok n1 n2 n3 ns l b H) as (a & B & E). destruct (to_new_3d_ok n1 n2 n3 ns l a) as (c & C & F); [apply E|]. exists a, c. split; [auto|]. split; [auto|]. eapply elements_3d_function; eauto.
Qed.
(** both sides of an interface survive the conversion of the angles *)
Lemma edges_j_kept : forall zero l v b, 0 < n1 -> itf_j_2d zero n1 n2 ns l v b -> itf_j_2d zero n1 n2 ns l v (zero_edges_j (A := A) ns zero b).
Proof.
  intros zero l v b P [S G]. split; [exact S|]. intros i e1 x V E1 Hx. destruct (G i e1 x V E1 Hx) as (G1 & G2 & G3). pose proof (valid_length _ _ V) as LV.
  assert (Q : forall u w t, get (zero_edges_j ns zero b) (i ++ [u; w; t]) = if ((u =? 0) && (t <? ns) || (u =? n2 + 2 - 1) && (ns <=? t)) then zero else get b (i ++ [u; w; t])).
  { intros. unfold zero_edges_j, zero_edges. cbn [get]. rewrite S, app_length. cbn [length]. replace (length l + 3 - 3) with (length l + 0) by lia. replace (length l + 3 - 1) with (length l + 2) by lia.
    rewrite app_nth2_plus, <- LV, !app_nth2_plus. reflexivity. }
  rewrite !Q, G2, G3. split; [intros e He; rewrite !Q; destruct (G1 e He) as [-> ->]|split; destruct (_ || _); reflexivity].
  replace (ns + x <? ns) with false by (symmetry; apply Nat.ltb_ge; lia). replace (e =? n2 + 2 - 1) with false by (symmetry; apply Nat.eqb_neq; lia).
  replace (ns <=? x) with false by (symmetry; apply Nat.leb_gt; lia). cbn. rewrite !andb_false_r. auto.
Qed.
Lemma edges_i_kept : forall zero l v b, 0 < n2 -> itf_i_2d zero n1 n2 ns l v b -> itf_i_2d zero n1 n2 ns l v (zero_edges_i (A := A) ns zero b).
Proof.
  intros zero l v b P [S G]. split; [exact S|]. intros i e2 y V E2 Hy. destruct (G i e2 y V E2 Hy) as (G1 & G2 & G3). pose proof (valid_length _ _ V) as LV.
  assert (Q : forall w u t, get (zero_edges_i ns zero b) (i ++ [w; u; t]) = if ((u =? 0) && (t <? ns) || (u =? n1 + 2 - 1) && (ns <=? t)) then zero else get b (i ++ [w; u; t])).
  { intros. unfold zero_edges_i, zero_edges. cbn [get]. rewrite S, app_length. cbn [length]. replace (length l + 3 - 2) with (length l + 1) by lia. replace (length l + 3 - 1) with (length l + 2) by lia.
    rewrite app_nth2_plus, <- LV, !app_nth2_plus. reflexivity. }
  rewrite !Q, G2, G3. split; [intros e He; rewrite !Q; destruct (G1 e He) as [-> ->]|split; destruct (_ || _); reflexivity].
  replace (ns + y <? ns) with false by (symmetry; apply Nat.ltb_ge; lia). replace (e =? n1 + 2 - 1) with false by (symmetry; apply Nat.eqb_neq; lia).
  replace (ns <=? y) with false by (symmetry; apply Nat.leb_gt; lia). cbn. rewrite !andb_false_r. auto.
Qed.
(** with one element per side they do not: the first component loses all the first sides and the second component all the second sides *)
Lemma one_element_lost : forall zero empty a, n1 = 1 -> shape a = [2; n2 + 1; n1 * ns] -> exists b, to_new_itf_j_2d n1 n2 ns zero empty a = Some b /\ shape b = [2; n2 + 2; ns * 2] /\
  forall e x, x < ns -> get (zero_edges_j ns zero b) [0; e; x] = zero /\ get (zero_edges_j ns zero b) [1; e; ns + x] = zero.
Proof.
  intros zero empty a N H. destruct (itf_j_2d_one n1 n2 ns zero empty [2] a N) as (b & B & S); [repeat constructor; lia|exact H|]. exists b. split; [auto|]. split; [exact S|]. intros e x Hx.
  unfold zero_edges_j, zero_edges. cbn [get]. rewrite S. cbn [length app Nat.sub nth].
  replace (x <? ns) with true by (symmetry; apply Nat.ltb_lt; lia). replace (ns <=? ns + x) with true by (symmetry; apply Nat.leb_le; lia). cbn. rewrite ?orb_true_r. auto.
Qed.
(** coordinates *)
Lemma coordinates : forall (plus : A -> A -> A) o1 r1 o2 r2, n1 = n2 -> exists b,
  to_new_2d n1 n2 ns (stack2 (meshgrid (tensor_points ns plus o1 r1 n1) (tensor_points ns plus o2 r2 n2))) = Some b /\ shape b = [2; n2; n1; ns * ns] /\
  forall e2 e1 y x, e2 < n2 -> e1 < n1 -> y < ns -> x < ns -> get b [0; e2; e1; y * ns + x] = plus (o1 e1) (r1 x) /\ get b [1; e2; e1; y * ns + x] = plus (o2 e2) (r2 y).
Proof.
  intros plus o1 r1 o2 r2 Hn. set (a := stack2 _). destruct (to_new_2d_ok n1 n2 ns [2] a Hn) as (b & B & _ & S & G); [eauto|reflexivity|]. exists b. split; [auto|]. split; [auto|].
  intros e2 e1 y x E2 E1 Hy Hx. pose proof (G [0] e2 e1 y x) as G0. pose proof (G [1] e2 e1 y x) as G1. cbn [app] in G0, G1.
  rewrite G0, G1 by (auto; repeat constructor). unfold a, stack2, meshgrid. cbn [get fst snd nth]. rewrite !tensor_points_ok by auto. auto.
Qed.
End Final.
