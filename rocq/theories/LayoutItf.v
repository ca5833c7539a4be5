(** Interfaces, floors, coordinates. *)
From Coq Require Import List Arith Lia.
From Verif Require Import LayoutModel LayoutSpec LayoutProofs LayoutConvert.
Import ListNotations.

Section Itf.
Context {A : Type}.
Implicit Types a : arr A.
Lemma set_nth_app : forall p k v j, set_nth (length p + k) v (p ++ j) = p ++ set_nth k v j.
Proof.
  intros. unfold set_nth. rewrite firstn_app, skipn_app. rewrite firstn_all2, skipn_all2 by lia. cbn [app]. rewrite <- app_assoc.
  replace (length p + k - length p) with k by lia. replace (S (length p + k) - length p) with (S k) by lia. reflexivity.
Qed.
Lemma both_sides_lead : forall zero empty l s axis size edges (t : arr A) p j, length p = length l -> length j = length s -> 0 < axis <= length s ->
  get (both_sides zero empty (l ++ s) axis size edges t) (p ++ j) =
  let k := length s - axis in let e := nth k j 0 in let q := nth (length s - 1) j 0 in let at_ e' p' := get t (p ++ set_nth (length s - 1) p' (set_nth k e' j)) in
  if q <? size then (if e =? 0 then (if edges then zero else empty (p ++ j)) else at_ (e - 1) q)
  else (if e =? nth k s 0 - 1 then (if edges then zero else empty (p ++ j)) else at_ e (q - size)).
Proof.
  intros zero empty l s axis size edges t p j Hp Hj Ha. unfold both_sides. cbn [get]. rewrite app_length.
  replace (length l + length s - axis) with (length l + (length s - axis)) by lia. replace (length l + length s - 1) with (length l + (length s - 1)) by lia.
  rewrite <- Hp. cbv zeta. rewrite !set_nth_app, !app_nth2_plus. rewrite Hp, !app_nth2_plus. reflexivity.
Qed.
Lemma unsqueeze_id : forall s i, Forall (fun d => d <> 1) s -> length i = length s -> unsqueeze s i = i.
Proof.
  induction s as [|d s IH]; intros [|x i] H L; cbn in L; try discriminate; [reflexivity|]. inversion H; subst. cbn. injection L as L. destruct d as [|[|d]]; [|congruence|]; rewrite IH; auto.
Qed.
Lemma squeeze_id : forall a, Forall (fun d => d <> 1) (shape a) -> shape (squeeze a) = shape a /\ forall i, length i = length (shape a) -> get (squeeze a) i = get a i.
Proof.
  intros a H. unfold squeeze. cbn [shape get]. split; [|intros; rewrite unsqueeze_id; auto].
  induction H as [|d s Hd H IH]; [reflexivity|]. cbn. destruct (Nat.eqb_spec d 1); [congruence|]. cbn. rewrite IH. reflexivity.
Qed.
Ltac valids := repeat constructor; try lia; try (apply idx_lt; lia); try (apply idx2_lt; lia); try (apply idx3_lt; lia).
Ltac flat := cbn [flatten prod fold_right Nat.pow]; ring.
Ltac bounds := cbn [In length]; intros; repeat match goal with H : _ \/ _ |- _ => destruct H end; try lia; try contradiction.
Ltac cmp := repeat match goal with |- context [if ?x <? ?y then _ else _] => destruct (Nat.ltb_spec x y); try lia | |- context [if ?x =? ?y then _ else _] => destruct (Nat.eqb_spec x y); try lia end.
Variables (n1 n2 n3 ns : nat).

Lemma itf_i_2d_ok : forall zero empty l a, n2 <> 1 -> Forall (fun d => d <> 1) l -> shape a = l ++ [n1 + 1; n2 * ns] ->
  exists b, to_new_itf_i_2d n1 n2 ns zero empty a = Some b /\ itf_i_2d zero n1 n2 ns l (fun i e2 y e => get a (i ++ [e; e2 * ns + y])) b.
Proof.
  intros zero empty l a N L H. unfold to_new_itf_i_2d.
  change (trail 2 (shape a)) with (trail (length [n1 + 1; n2 * ns]) (shape a)). change (lead 2 (shape a)) with (lead (length [n1 + 1; n2 * ns]) (shape a)).
  rewrite H, trail_app, lead_app, eq_shape_true.
  destruct (reshape_lead l _ [n1 + 1; n2; ns] a H) as (b & Rb & Sb & Gb); [flat|]. rewrite Rb. cbn [bind].
  rewrite app_length. cbn [length]. replace (length l + 2 - 2) with (length l) by lia.
  replace (seq 0 (length l) ++ [1 + length l; 0 + length l; 2 + length l]) with (shifted (length l) [1; 0; 2]) by (unfold shifted; cbn [map]; do 2 f_equal; [lia|f_equal; [lia|f_equal; lia]]).
  destruct (transpose_lead l [n1 + 1; n2; ns] [1; 0; 2] b Sb) as [St Gt]; [bounds|]. cbn [map nth] in St.
  set (t := transpose _ b) in *. set (B := both_sides zero empty (l ++ [n2; n1 + 2; ns * 2]) 2 ns true t).
  assert (SB : Forall (fun d => d <> 1) (shape B)) by (cbn [shape B both_sides]; apply Forall_app; split; [auto|repeat constructor; lia]).
  destruct (squeeze_id B SB) as [Ss Gs]. eexists. split; [reflexivity|]. split; [rewrite Ss; reflexivity|].
  intros i e2 y V E2 Hy. pose proof (valid_length _ _ V) as LV.
  assert (Q : forall x1 x2 x3, get (squeeze B) (i ++ [x1; x2; x3]) = if x3 <? ns then (if x2 =? 0 then zero else get t (i ++ [x1; x2 - 1; x3])) else (if x2 =? n1 + 2 - 1 then zero else get t (i ++ [x1; x2; x3 - ns]))).
  { intros. rewrite Gs by (cbn [shape B both_sides]; rewrite !app_length; cbn; lia). unfold B. rewrite both_sides_lead by (auto; cbn; lia). reflexivity. }
  assert (T : forall e, e <= n1 -> get t (i ++ [e2; e; y]) = get a (i ++ [e; e2 * ns + y])).
  { intros e He. rewrite (Gt i [e2; e; y] LV). cbn [length seq map index_of Nat.eqb nth]. apply Gb; auto; [valids|flat]. }
  rewrite !Q. split; [intros e He|]; rewrite ?Q; cmp.
  - rewrite <- (T e He). replace (ns + y - ns) with y by lia. rewrite Nat.sub_succ, Nat.sub_0_r. auto.
  - auto.
Qed.
Lemma itf_j_2d_ok : forall zero empty l a, n1 <> 1 -> Forall (fun d => d <> 1) l -> shape a = l ++ [n2 + 1; n1 * ns] ->
  exists b, to_new_itf_j_2d n1 n2 ns zero empty a = Some b /\ itf_j_2d zero n1 n2 ns l (fun i e1 x e => get a (i ++ [e; e1 * ns + x])) b.
Proof.
  intros zero empty l a N L H. unfold to_new_itf_j_2d.
  change (trail 2 (shape a)) with (trail (length [n2 + 1; n1 * ns]) (shape a)). change (lead 2 (shape a)) with (lead (length [n2 + 1; n1 * ns]) (shape a)).
  rewrite H, trail_app, lead_app, eq_shape_true.
  destruct (reshape_lead l _ [n2 + 1; n1; ns] a H) as (b & Rb & Sb & Gb); [flat|]. rewrite Rb. cbn [bind].
  set (B := both_sides zero empty (l ++ [n2 + 2; n1; ns * 2]) 3 ns true b).
  assert (SB : Forall (fun d => d <> 1) (shape B)) by (cbn [shape B both_sides]; apply Forall_app; split; [auto|repeat constructor; lia]).
  destruct (squeeze_id B SB) as [Ss Gs]. eexists. split; [reflexivity|]. split; [rewrite Ss; reflexivity|].
  intros i e1 x V E1 Hx. pose proof (valid_length _ _ V) as LV.
  assert (Q : forall x1 x2 x3, get (squeeze B) (i ++ [x1; x2; x3]) = if x3 <? ns then (if x1 =? 0 then zero else get b (i ++ [x1 - 1; x2; x3])) else (if x1 =? n2 + 2 - 1 then zero else get b (i ++ [x1; x2; x3 - ns]))).
  { intros. rewrite Gs by (cbn [shape B both_sides]; rewrite !app_length; cbn; lia). unfold B. rewrite both_sides_lead by (auto; cbn; lia). reflexivity. }
  assert (T : forall e, e <= n2 -> get b (i ++ [e; e1; x]) = get a (i ++ [e; e1 * ns + x])).
  { intros e He. apply Gb; auto; [valids|flat]. }
  rewrite !Q. split; [intros e He|]; rewrite ?Q; cmp.
  - rewrite <- (T e He). replace (ns + x - ns) with x by lia. rewrite Nat.sub_succ, Nat.sub_0_r. auto.
  - auto.
Qed.
(** with one element along the first direction, the axis of the elements is lost *)
Lemma itf_j_2d_one : forall zero empty l a, n1 = 1 -> Forall (fun d => d <> 1) l -> shape a = l ++ [n2 + 1; n1 * ns] ->
  exists b, to_new_itf_j_2d n1 n2 ns zero empty a = Some b /\ shape b = l ++ [n2 + 2; ns * 2].
Proof.
  intros zero empty l a N L H. unfold to_new_itf_j_2d.
  change (trail 2 (shape a)) with (trail (length [n2 + 1; n1 * ns]) (shape a)). change (lead 2 (shape a)) with (lead (length [n2 + 1; n1 * ns]) (shape a)).
  rewrite H, trail_app, lead_app, eq_shape_true.
  destruct (reshape_lead l _ [n2 + 1; n1; ns] a H) as (b & Rb & Sb & Gb); [flat|]. rewrite Rb. cbn [bind].
  eexists. split; [reflexivity|]. unfold squeeze. cbn [shape both_sides]. rewrite filter_app. f_equal.
  - clear - L. induction L as [|d s Hd HL IH]; [reflexivity|]. cbn. destruct (Nat.eqb_spec d 1); [congruence|]. cbn. rewrite IH. reflexivity.
  - cbn [filter]. rewrite N. cbn [Nat.eqb negb]. destruct (Nat.eqb_spec (n2 + 2) 1); [lia|]. destruct (Nat.eqb_spec (ns * 2) 1); [lia|]. reflexivity.
Qed.

Lemma itf_i_3d_ok : forall zero empty l a, shape a = l ++ [n3 * ns; n2 * ns; n1 + 1] ->
  exists b, to_new_itf_i_3d n1 n2 n3 ns zero empty a = Some b /\ itf_i_3d zero n1 n2 n3 ns l (fun i e3 e2 z y e => get a (i ++ [e3 * ns + z; e2 * ns + y; e])) b.
Proof.
  intros zero empty l a H. unfold to_new_itf_i_3d.
  change (trail 3 (shape a)) with (trail (length [n3 * ns; n2 * ns; n1 + 1]) (shape a)). change (lead 3 (shape a)) with (lead (length [n3 * ns; n2 * ns; n1 + 1]) (shape a)).
  rewrite H, trail_app, lead_app, eq_shape_true.
  destruct (convert l [n3 * ns; n2 * ns; n1 + 1] [n3; ns; n2; ns; n1 + 1] [n3; n2; n1 + 1; ns; ns] [n3; n2; n1 + 1; ns ^ 2] [0; 2; 4; 1; 3] a H) as (c & Rc & Sc & d & Rd & Sd & G); [flat|bounds|reflexivity|flat|].
  rewrite Rc. cbn [bind]. unfold moveaxis. rewrite Sc, app_length. cbn [length].
  replace (length l + 5 - 2) with (length l + 3) by lia. replace (length l + 5 - 4) with (length l + 1) by lia. replace (length l + 5 - 1) with (length l + 4) by lia.
  change [(length l + 3, length l + 1); (length l + 4, length l + 3)] with (map (fun x => (length l + fst x, length l + snd x)) [(3, 1); (4, 3)]).
  rewrite move_order_lead. change (move_order 5 [(3, 1); (4, 3)]) with [0; 2; 4; 1; 3]. rewrite Rd. cbn [bind].
  eexists. split; [reflexivity|]. split; [reflexivity|]. intros i e3 e2 z y V E3 E2 Hz Hy. pose proof (valid_length _ _ V) as LV.
  assert (Q : forall x0 x1 x2 x3, get (both_sides zero empty (l ++ [n3; n2; n1 + 2; ns ^ 2 * 2]) 2 (ns ^ 2) true d) (i ++ [x0; x1; x2; x3]) =
    if x3 <? ns ^ 2 then (if x2 =? 0 then zero else get d (i ++ [x0; x1; x2 - 1; x3])) else (if x2 =? n1 + 2 - 1 then zero else get d (i ++ [x0; x1; x2; x3 - ns ^ 2]))).
  { intros. rewrite both_sides_lead by (auto; cbn [length]; lia). cbn [length]. reflexivity. }
  assert (T : forall e, e <= n1 -> get d (i ++ [e3; e2; e; z * ns + y]) = get a (i ++ [e3 * ns + z; e2 * ns + y; e])).
  { intros e He. apply (G i _ [e3; z; e2; y; e] [e3; e2; e; z; y]); auto; [valids|flat|valids|flat]. }
  pose proof (idx2_lt z y ns Hz Hy). rewrite !Q. split; [intros e He|]; rewrite ?Q; cmp.
  - rewrite <- (T e He). replace (ns ^ 2 + (z * ns + y) - ns ^ 2) with (z * ns + y) by lia. rewrite Nat.sub_succ, Nat.sub_0_r. auto.
  - auto.
Qed.
Lemma itf_j_3d_ok : forall zero l a, shape a = l ++ [n3 * ns; n2 + 1; n1 * ns] ->
  exists b, to_new_itf_j_3d n1 n2 n3 ns zero a = Some b /\ itf_j_3d zero n1 n2 n3 ns l (fun i e3 e1 z x e => get a (i ++ [e3 * ns + z; e; e1 * ns + x])) b.
Proof.
  intros zero l a H. unfold to_new_itf_j_3d.
  change (trail 3 (shape a)) with (trail (length [n3 * ns; n2 + 1; n1 * ns]) (shape a)). change (lead 3 (shape a)) with (lead (length [n3 * ns; n2 + 1; n1 * ns]) (shape a)).
  rewrite H, trail_app, lead_app, eq_shape_true.
  destruct (convert l [n3 * ns; n2 + 1; n1 * ns] [n3; ns; n2 + 1; n1; ns] [n3; n2 + 1; n1; ns; ns] [n3; n2 + 1; n1; ns ^ 2] [0; 2; 3; 1; 4] a H) as (c & Rc & Sc & d & Rd & Sd & G); [flat|bounds|reflexivity|flat|].
  rewrite Rc. cbn [bind]. unfold moveaxis. rewrite Sc, app_length. cbn [length].
  replace (length l + 5 - 2) with (length l + 3) by lia. replace (length l + 5 - 4) with (length l + 1) by lia.
  change [(length l + 3, length l + 1)] with (map (fun x => (length l + fst x, length l + snd x)) [(3, 1)]).
  rewrite move_order_lead. change (move_order 5 [(3, 1)]) with [0; 2; 3; 1; 4]. rewrite Rd. cbn [bind].
  eexists. split; [reflexivity|]. split; [reflexivity|]. intros i e3 e1 z x V E3 E1 Hz Hx. pose proof (valid_length _ _ V) as LV.
  assert (Q : forall x0 x1 x2 x3, get (both_sides zero (fun _ => zero) (l ++ [n3; n2 + 2; n1; ns ^ 2 * 2]) 3 (ns ^ 2) true d) (i ++ [x0; x1; x2; x3]) =
    if x3 <? ns ^ 2 then (if x1 =? 0 then zero else get d (i ++ [x0; x1 - 1; x2; x3])) else (if x1 =? n2 + 2 - 1 then zero else get d (i ++ [x0; x1; x2; x3 - ns ^ 2]))).
  { intros. rewrite both_sides_lead by (auto; cbn [length]; lia). cbn [length]. reflexivity. }
  assert (T : forall e, e <= n2 -> get d (i ++ [e3; e; e1; z * ns + x]) = get a (i ++ [e3 * ns + z; e; e1 * ns + x])).
  { intros e He. apply (G i _ [e3; z; e; e1; x] [e3; e; e1; z; x]); auto; [valids|flat|valids|flat]. }
  pose proof (idx2_lt z x ns Hz Hx). rewrite !Q. split; [intros e He|]; rewrite ?Q; cmp.
  - rewrite <- (T e He). replace (ns ^ 2 + (z * ns + x) - ns ^ 2) with (z * ns + x) by lia. rewrite Nat.sub_succ, Nat.sub_0_r. auto.
  - auto.
Qed.
Lemma itf_k_3d_ok : forall zero l a, shape a = l ++ [n3 + 1; n2 * ns; n1 * ns] ->
  exists b, to_new_itf_k_3d n1 n2 n3 ns zero a = Some b /\ itf_k_3d zero n1 n2 n3 ns l (fun i e2 e1 y x e => get a (i ++ [e; e2 * ns + y; e1 * ns + x])) b.
Proof.
  intros zero l a H. unfold to_new_itf_k_3d.
  change (trail 3 (shape a)) with (trail (length [n3 + 1; n2 * ns; n1 * ns]) (shape a)). change (lead 3 (shape a)) with (lead (length [n3 + 1; n2 * ns; n1 * ns]) (shape a)).
  rewrite H, trail_app, lead_app, eq_shape_true.
  destruct (convert l [n3 + 1; n2 * ns; n1 * ns] [n3 + 1; n2; ns; n1; ns] [n3 + 1; n2; n1; ns; ns] [n3 + 1; n2; n1; ns ^ 2] [0; 1; 3; 2; 4] a H) as (c & Rc & Sc & d & Rd & Sd & G); [flat|bounds|reflexivity|flat|].
  rewrite Rc. cbn [bind]. unfold swapaxes. rewrite Sc, app_length. cbn [length].
  replace (length l + 5 - 3) with (length l + 2) by lia. replace (length l + 5 - 2) with (length l + 3) by lia.
  rewrite map_eq_seq. change (map (fun k => if k =? 2 then 3 else if k =? 3 then 2 else k) (seq 0 5)) with [0; 1; 3; 2; 4]. rewrite Rd. cbn [bind].
  eexists. split; [reflexivity|]. split; [reflexivity|]. intros i e2 e1 y x V E2 E1 Hy Hx. pose proof (valid_length _ _ V) as LV.
  assert (Q : forall x0 x1 x2 x3, get (both_sides zero (fun _ => zero) (l ++ [n3 + 2; n2; n1; ns ^ 2 * 2]) 4 (ns ^ 2) true d) (i ++ [x0; x1; x2; x3]) =
    if x3 <? ns ^ 2 then (if x0 =? 0 then zero else get d (i ++ [x0 - 1; x1; x2; x3])) else (if x0 =? n3 + 2 - 1 then zero else get d (i ++ [x0; x1; x2; x3 - ns ^ 2]))).
  { intros. rewrite both_sides_lead by (auto; cbn [length]; lia). cbn [length]. reflexivity. }
  assert (T : forall e, e <= n3 -> get d (i ++ [e; e2; e1; y * ns + x]) = get a (i ++ [e; e2 * ns + y; e1 * ns + x])).
  { intros e He. apply (G i _ [e; e2; y; e1; x] [e; e2; e1; y; x]); auto; [valids|flat|valids|flat]. }
  pose proof (idx2_lt y x ns Hy Hx). rewrite !Q. split; [intros e He|]; rewrite ?Q; cmp.
  - rewrite <- (T e He). replace (ns ^ 2 + (y * ns + x) - ns ^ 2) with (y * ns + x) by lia. rewrite Nat.sub_succ, Nat.sub_0_r. auto.
  - auto.
Qed.
End Itf.
