(** Floors, coordinates, round trips. *)
From Coq Require Import List Arith Lia.
From Verif Require Import LayoutModel LayoutSpec LayoutProofs LayoutConvert LayoutItf.
Import ListNotations.

Ltac valids := repeat match goal with |- valid _ _ => constructor | |- Forall2 _ _ _ => constructor end; try lia; try (apply idx_lt; lia); try (apply idx2_lt; lia); try (apply idx3_lt; lia).
Ltac flat := cbn [flatten prod fold_right Nat.pow]; ring.
Ltac cmp := repeat match goal with |- context [if ?x <? ?y then _ else _] => destruct (Nat.ltb_spec x y); try lia | |- context [if ?x =? ?y then _ else _] => destruct (Nat.eqb_spec x y); try lia end.

Lemma side_lt : forall side q m, side < 2 -> q < m -> side * m + q < m * 2.
Proof. intros. nia. Qed.
Lemma div_idx : forall e q m, q < m -> (e * m + q) / m = e.
Proof. intros. rewrite Nat.div_add_l, Nat.div_small by lia. lia. Qed.
Lemma mod_idx : forall e q m, q < m -> (e * m + q) mod m = q.
Proof. intros. rewrite Nat.add_comm, Nat.mod_add, Nat.mod_small by lia. auto. Qed.
Section Floor.
Context {A : Type}.
Implicit Types a : arr A.
Variables (n1 n2 n3 ns : nat).
Lemma get_floor_ok : forall l a, 0 < n3 -> shape a = l ++ [n3; n2; n1; ns ^ 3] -> exists b, get_floor n1 n2 n3 ns a = Some b /\ is_floor n1 n2 n3 ns l a b.
Proof.
  intros l a P H. unfold get_floor.
  change (trail 4 (shape a)) with (trail (length [n3; n2; n1; ns ^ 3]) (shape a)). change (lead 4 (shape a)) with (lead (length [n3; n2; n1; ns ^ 3]) (shape a)).
  rewrite H, trail_app, lead_app, eq_shape_true.
  replace (lead 1 (l ++ [n3; n2; n1; ns ^ 3])) with (l ++ [n3; n2; n1]).
  2: { change (l ++ [n3; n2; n1; ns ^ 3]) with (l ++ [n3; n2; n1] ++ [ns ^ 3]). rewrite app_assoc. symmetry. apply (lead_app (l ++ [n3; n2; n1]) [ns ^ 3]). }
  rewrite <- app_assoc. cbn [app].
  destruct (reshape_lead l _ [n3; n2; n1; ns; ns; ns] a H) as (b & Rb & Sb & Gb); [flat|]. rewrite Rb. cbn [bind].
  match goal with |- context [reshape (l ++ _) ?f] => destruct (reshape_lead l [n2; n1; ns; ns] [n2; n1; ns ^ 2] f eq_refl) as (d & Rd & Sd & Gd) end; [flat|]. rewrite Rd.
  exists d. split; [auto|]. split; [auto|]. split; [auto|]. intros i e2 e1 y x V E2 E1 Hy Hx. pose proof (valid_length _ _ V) as LV.
  rewrite (Gd i _ [e2; e1; y; x] V); [|valids|flat]. cbn [get]. rewrite <- LV, skipn_app, skipn_all, Nat.sub_diag, firstn_app, firstn_all, Nat.sub_diag. cbn [firstn skipn app]. rewrite app_nil_r.
  apply Gb; auto; [valids|flat].
Qed.
Lemma floor_to_bulk_ok : forall a, shape a = [n2; n1; ns ^ 2] -> exists b, floor_to_bulk n1 n2 n3 ns false a = Some b /\ columns n1 n2 n3 ns a b.
Proof.
  intros a H. unfold floor_to_bulk. change (trail 3 (shape a)) with (trail (length [n2; n1; ns ^ 2]) (shape a)). rewrite H.
  change [n2; n1; ns ^ 2] with ([] ++ [n2; n1; ns ^ 2]) at 2. rewrite trail_app, eq_shape_true. cbn [length Nat.sub].
  unfold tile_first, repeat_axis. cbn [shape get]. rewrite H. cbn [firstn skipn nth app shape get].
  match goal with |- context [reshape _ ?f] => destruct (reshape_some [n3; n2; n1; ns ^ 3] f) as (d & Rd & Sd & Gd) end; [cbn [shape]; flat|]. rewrite Rd. cbn [shape] in Gd.
  exists d. split; [auto|]. split; [auto|]. split; [auto|]. intros e3 e2 e1 z y x E3 E2 E1 Hz Hy Hx.
  rewrite (Gd _ [e3 * n2 + e2; e1 * ns + z; y * ns + x]); [|valids; try (rewrite (Nat.mul_comm ns); apply idx_lt; lia)|flat].
  cbn [get firstn skipn nth app]. rewrite mod_idx, div_idx by lia. reflexivity.
Qed.
Lemma floor_to_bulk_k_ok : forall a, shape a = [n2; n1; ns ^ 2] -> exists b, floor_to_bulk n1 n2 n3 ns true a = Some b /\ columns_k n1 n2 n3 ns a b.
Proof.
  intros a H. unfold floor_to_bulk. change (trail 3 (shape a)) with (trail (length [n2; n1; ns ^ 2]) (shape a)). rewrite H.
  change [n2; n1; ns ^ 2] with ([] ++ [n2; n1; ns ^ 2]) at 2. rewrite trail_app, eq_shape_true. cbn [length Nat.sub].
  unfold tile_first, repeat_axis. cbn [shape get]. rewrite H. cbn [firstn skipn nth app shape get].
  match goal with |- context [reshape _ ?f] => destruct (reshape_some [n3 + 2; n2; n1; ns ^ 2 * 2] f) as (d & Rd & Sd & Gd) end; [cbn [shape]; flat|]. rewrite Rd. cbn [shape] in Gd.
  exists d. split; [auto|]. split; [auto|]. split; [auto|]. intros e3 e2 e1 side y x E3 E2 E1 Hz Hy Hx.
  rewrite (Gd _ [e3 * n2 + e2; e1 * 2 + side; y * ns + x]); [|valids; try nia|flat].
  cbn [get firstn skipn nth app]. rewrite mod_idx, div_idx by lia. reflexivity.
Qed.
Lemma get_itf_floor_ok : forall m1 m2 l a, 0 < n3 -> shape a = l ++ [n3; m2; m1; ns ^ 2 * 2] -> exists b, get_itf_floor n3 ns m1 m2 a = Some b /\ is_floor_itf m1 m2 n3 ns l a b.
Proof.
  intros m1 m2 l a P H. unfold get_itf_floor.
  change (trail 4 (shape a)) with (trail (length [n3; m2; m1; ns ^ 2 * 2]) (shape a)). change (lead 4 (shape a)) with (lead (length [n3; m2; m1; ns ^ 2 * 2]) (shape a)).
  rewrite H, trail_app, lead_app, eq_shape_true.
  replace (lead 1 (l ++ [n3; m2; m1; ns ^ 2 * 2])) with (l ++ [n3; m2; m1]).
  2: { change (l ++ [n3; m2; m1; ns ^ 2 * 2]) with (l ++ [n3; m2; m1] ++ [ns ^ 2 * 2]). rewrite app_assoc. symmetry. apply (lead_app (l ++ [n3; m2; m1]) [ns ^ 2 * 2]). }
  rewrite <- app_assoc. cbn [app].
  destruct (reshape_lead l _ [n3; m2; m1; 2; ns; ns] a H) as (b & Rb & Sb & Gb); [flat|]. rewrite Rb. cbn [bind].
  match goal with |- context [reshape (l ++ _) ?f] => destruct (reshape_lead l [m2; m1; 2; ns] [m2; m1; ns * 2] f eq_refl) as (d & Rd & Sd & Gd) end; [flat|]. rewrite Rd.
  exists d. split; [auto|]. split; [auto|]. split; [auto|]. intros i e2 e1 side y V E2 E1 Hs Hy. pose proof (valid_length _ _ V) as LV.
  rewrite (Gd i _ [e2; e1; side; y] V); [|valids|flat]. cbn [get]. rewrite <- LV, skipn_app, skipn_all, Nat.sub_diag, firstn_app, firstn_all, Nat.sub_diag. cbn [firstn skipn app]. rewrite app_nil_r.
  apply Gb; auto; [valids|flat]. apply side_lt; auto. apply idx2_lt; lia.
Qed.
Lemma floor_itf_to_bulk_ok : forall m1 m2 a, shape a = [m2; m1; ns * 2] -> exists b, floor_itf_to_bulk n3 ns m1 m2 a = Some b /\ columns_itf m1 m2 n3 ns a b.
Proof.
  intros m1 m2 a H. unfold floor_itf_to_bulk. rewrite H.
  change (trail 3 [m2; m1; ns * 2]) with [m2; m1; ns * 2]. change (lead 3 [m2; m1; ns * 2]) with (@nil nat). rewrite eq_shape_true. cbn [length Nat.sub app].
  destruct (reshape_some [m2; m1; 2; ns] a) as (b & Rb & Sb & Gb); [rewrite H; flat|]. rewrite Rb. cbn [bind]. rewrite H in Gb.
  unfold tile_first, repeat_axis. cbn [shape get]. rewrite Sb. cbn [firstn skipn nth app shape get].
  match goal with |- context [reshape _ ?f] => destruct (reshape_some [n3; m2; m1; ns ^ 2 * 2] f) as (d & Rd & Sd & Gd) end; [cbn [shape]; flat|]. rewrite Rd. cbn [shape] in Gd.
  exists d. split; [auto|]. split; [auto|]. split; [auto|]. intros e3 e2 e1 side z y E3 E2 E1 Hs Hz Hy.
  rewrite (Gd _ [e3 * m2 + e2; e1; side * ns + z; y]); [|valids; try nia|flat].
  cbn [get firstn skipn nth app]. rewrite mod_idx, div_idx by lia. apply Gb; [valids; try nia|flat].
Qed.
Lemma linear_to_full_k_ok : forall a, shape a = [n3 * ns] -> exists b, linear_to_full_k n1 n2 n3 ns a = Some b /\ shape b = [n3; n2; n1; ns ^ 3] /\
  forall e3 e2 e1 z y x, e3 < n3 -> e2 < n2 -> e1 < n1 -> z < ns -> y < ns -> x < ns -> get b [e3; e2; e1; (z * ns + y) * ns + x] = get a [e3 * ns + z].
Proof.
  intros a H. unfold linear_to_full_k. destruct (reshape_some [n3; ns] a) as (b & Rb & Sb & Gb); [rewrite H; flat|]. rewrite Rb. cbn [bind]. rewrite H in Gb.
  unfold repeat_axis. cbn [shape get]. rewrite Sb. cbn [firstn skipn nth app shape get].
  match goal with |- context [reshape _ ?f] => destruct (reshape_some [n3; n2; n1; ns ^ 3] f) as (d & Rd & Sd & Gd) end; [cbn [shape]; flat|]. rewrite Rd. cbn [shape] in Gd.
  exists d. split; [auto|]. split; [auto|]. intros e3 e2 e1 z y x E3 E2 E1 Hz Hy Hx. pose proof (idx2_lt y x ns Hy Hx) as I2. pose proof (idx_lt e2 n2 e1 n1 E2 E1) as I1.
  rewrite (Gd _ [e3 * (n2 * n1) + (e2 * n1 + e1); z * ns ^ 2 + (y * ns + x)]); [| |flat].
  2: { constructor; [nia|]. constructor; [nia|constructor]. }
  cbn [get firstn skipn nth app]. rewrite !div_idx by lia. apply Gb; [valids|flat].
Qed.
(** floors of interfaces *)
Lemma itf_i_floor_ok : forall zero l a, shape a = l ++ [n2 * ns; n1 + 1] ->
  exists b, to_new_itf_i_floor n1 n2 ns zero a = Some b /\ itf_i_2d zero n1 n2 ns l (fun i e2 y e => get a (i ++ [e2 * ns + y; e])) b.
Proof.
  intros zero l a H. unfold to_new_itf_i_floor.
  change (trail 2 (shape a)) with (trail (length [n2 * ns; n1 + 1]) (shape a)). change (lead 2 (shape a)) with (lead (length [n2 * ns; n1 + 1]) (shape a)).
  rewrite H, trail_app, lead_app, eq_shape_true.
  destruct (reshape_lead l _ [n2; ns; n1 + 1] a H) as (b & Rb & Sb & Gb); [flat|]. rewrite Rb. cbn [bind].
  unfold moveaxis. rewrite Sb, app_length. cbn [length]. replace (length l + 3 - 1) with (length l + 2) by lia. replace (length l + 3 - 2) with (length l + 1) by lia.
  change [(length l + 2, length l + 1)] with (map (fun x => (length l + fst x, length l + snd x)) [(2, 1)]). rewrite move_order_lead. change (move_order 3 [(2, 1)]) with [0; 2; 1].
  destruct (transpose_lead l [n2; ns; n1 + 1] [0; 2; 1] b Sb) as [St Gt]; [cbn; intros; lia|]. cbn [map nth] in St.
  set (t := transpose _ b) in *. eexists. split; [reflexivity|]. split; [reflexivity|]. intros i e2 y V E2 Hy. pose proof (valid_length _ _ V) as LV.
  assert (Q : forall x1 x2 x3, get (both_sides zero (fun _ => zero) (l ++ [n2; n1 + 2; ns * 2]) 2 ns false t) (i ++ [x1; x2; x3]) =
    if x3 <? ns then (if x2 =? 0 then zero else get t (i ++ [x1; x2 - 1; x3])) else (if x2 =? n1 + 2 - 1 then zero else get t (i ++ [x1; x2; x3 - ns]))).
  { intros. rewrite both_sides_lead by (auto; cbn [length]; lia). reflexivity. }
  assert (T : forall e, e <= n1 -> get t (i ++ [e2; e; y]) = get a (i ++ [e2 * ns + y; e])).
  { intros e He. rewrite (Gt i [e2; e; y] LV). cbn [length seq map index_of Nat.eqb nth]. apply Gb; auto; [valids|flat]. }
  rewrite !Q. split; [intros e He|]; rewrite ?Q; cmp.
  - rewrite <- (T e He). replace (ns + y - ns) with y by lia. rewrite Nat.sub_succ, Nat.sub_0_r. auto.
  - auto.
Qed.
Lemma itf_j_floor_ok : forall zero l a, shape a = l ++ [n2 + 1; n1 * ns] ->
  exists b, to_new_itf_j_floor n1 n2 ns zero a = Some b /\ itf_j_2d zero n1 n2 ns l (fun i e1 x e => get a (i ++ [e; e1 * ns + x])) b.
Proof.
  intros zero l a H. unfold to_new_itf_j_floor.
  change (trail 2 (shape a)) with (trail (length [n2 + 1; n1 * ns]) (shape a)). change (lead 2 (shape a)) with (lead (length [n2 + 1; n1 * ns]) (shape a)).
  rewrite H, trail_app, lead_app, eq_shape_true.
  destruct (reshape_lead l _ [n2 + 1; n1; ns] a H) as (b & Rb & Sb & Gb); [flat|]. rewrite Rb. cbn [bind].
  eexists. split; [reflexivity|]. split; [reflexivity|]. intros i e1 x V E1 Hx. pose proof (valid_length _ _ V) as LV.
  assert (Q : forall x1 x2 x3, get (both_sides zero (fun _ => zero) (l ++ [n2 + 2; n1; ns * 2]) 3 ns false b) (i ++ [x1; x2; x3]) =
    if x3 <? ns then (if x1 =? 0 then zero else get b (i ++ [x1 - 1; x2; x3])) else (if x1 =? n2 + 2 - 1 then zero else get b (i ++ [x1; x2; x3 - ns]))).
  { intros. rewrite both_sides_lead by (auto; cbn [length]; lia). reflexivity. }
  assert (T : forall e, e <= n2 -> get b (i ++ [e; e1; x]) = get a (i ++ [e; e1 * ns + x])).
  { intros e He. apply Gb; auto; [valids|flat]. }
  rewrite !Q. split; [intros e He|]; rewrite ?Q; cmp.
  - rewrite <- (T e He). replace (ns + x - ns) with x by lia. rewrite Nat.sub_succ, Nat.sub_0_r. auto.
  - auto.
Qed.

(** ** Round trips *)
Lemma split_idx : forall i n m, i < n * m -> exists e y, e < n /\ y < m /\ i = e * m + y.
Proof.
  intros i n m H. assert (m <> 0) by nia. exists (i / m), (i mod m). split; [apply Nat.div_lt_upper_bound; lia|]. split; [apply Nat.mod_upper_bound; lia|]. rewrite Nat.mul_comm. apply Nat.div_mod. lia.
Qed.
Lemma valid_inv : forall s n i, valid (n :: s) i -> exists x j, i = x :: j /\ x < n /\ valid s j.
Proof. intros s n i H. inversion H; subst. eauto. Qed.
Lemma valid_nil : forall i, valid [] i -> i = [].
Proof. intros i H. inversion H. auto. Qed.
Lemma elements_2d_unique : forall l a b c, elements_2d n1 n2 ns l a b -> elements_2d n1 n2 ns l c b -> same (A := A) a c.
Proof.
  intros l a b c (Sa & _ & Ga) (Sc & _ & Gc). split; [congruence|]. rewrite Sa. intros i V. apply valid_app_inv in V. destruct V as (p & j & -> & Vp & Vj).
  apply valid_inv in Vj. destruct Vj as (u & j1 & -> & U & Vj). apply valid_inv in Vj. destruct Vj as (v & j2 & -> & V & Vj). apply valid_nil in Vj. subst j2.
  apply split_idx in U. apply split_idx in V. destruct U as (e2 & y & U1 & U2 & ->). destruct V as (e1 & x & V1 & V2 & ->). rewrite <- Ga, <- Gc; auto.
Qed.
Lemma elements_2d_function : forall l a b c, elements_2d n1 n2 ns l a b -> elements_2d n1 n2 ns l a c -> same (A := A) b c.
Proof.
  intros l a b c (_ & Sb & Gb) (_ & Sc & Gc). split; [congruence|]. rewrite Sb. intros i V. apply valid_app_inv in V. destruct V as (p & j & -> & Vp & Vj).
  apply valid_inv in Vj. destruct Vj as (u & j1 & -> & U & Vj). apply valid_inv in Vj. destruct Vj as (v & j2 & -> & V & Vj). apply valid_inv in Vj. destruct Vj as (w & j3 & -> & W & Vj). apply valid_nil in Vj. subst j3.
  apply split_idx in W. destruct W as (y & x & W1 & W2 & ->). rewrite Gb, Gc; auto.
Qed.
Lemma elements_3d_unique : forall l a b c, elements_3d n1 n2 n3 ns l a b -> elements_3d n1 n2 n3 ns l c b -> same (A := A) a c.
Proof.
  intros l a b c (Sa & _ & Ga) (Sc & _ & Gc). split; [congruence|]. rewrite Sa. intros i V. apply valid_app_inv in V. destruct V as (p & j & -> & Vp & Vj).
  apply valid_inv in Vj. destruct Vj as (t & j0 & -> & T & Vj). apply valid_inv in Vj. destruct Vj as (u & j1 & -> & U & Vj). apply valid_inv in Vj. destruct Vj as (v & j2 & -> & V & Vj). apply valid_nil in Vj. subst j2.
  apply split_idx in T. apply split_idx in U. apply split_idx in V. destruct T as (e3 & z & T1 & T2 & ->). destruct U as (e2 & y & U1 & U2 & ->). destruct V as (e1 & x & V1 & V2 & ->). rewrite <- Ga, <- Gc; auto.
Qed.
Lemma elements_3d_function : forall l a b c, elements_3d n1 n2 n3 ns l a b -> elements_3d n1 n2 n3 ns l a c -> same (A := A) b c.
Proof.
  intros l a b c (_ & Sb & Gb) (_ & Sc & Gc). split; [congruence|]. rewrite Sb. intros i V. apply valid_app_inv in V. destruct V as (p & j & -> & Vp & Vj).
  apply valid_inv in Vj. destruct Vj as (t & j0 & -> & T & Vj). apply valid_inv in Vj. destruct Vj as (u & j1 & -> & U & Vj). apply valid_inv in Vj. destruct Vj as (v & j2 & -> & V & Vj).
  apply valid_inv in Vj. destruct Vj as (w & j3 & -> & W & Vj). apply valid_nil in Vj. subst j3.
  replace (ns ^ 3) with (ns * ns * ns) in W by (cbn; ring). apply split_idx in W. destruct W as (q & x & W1 & W2 & ->). apply split_idx in W1. destruct W1 as (z & y & Z1 & Z2 & ->). rewrite Gb, Gc; auto.
Qed.
(** ** Coordinates *)
Lemma tensor_points_ok : forall plus offsets ref n e x, e < n -> x < ns -> get (tensor_points (A := A) ns plus offsets ref n) [e * ns + x] = plus (offsets e) (ref x).
Proof. intros. unfold tensor_points. cbn [get nth]. rewrite div_idx, mod_idx by auto. reflexivity. Qed.
End Floor.
