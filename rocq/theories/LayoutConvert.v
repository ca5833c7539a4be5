(** The conversions of LayoutModel meet the specification. *)
From Coq Require Import List Arith Lia.
From Verif Require Import LayoutModel LayoutSpec LayoutProofs.
Import ListNotations.

Section Convert.
Context {A : Type}.
Implicit Types a b c d : arr A.
(** regroup the last axes, permute them, regroup them again *)
Lemma convert : forall l s s1 s2 s3 o a, shape a = l ++ s -> prod s1 = prod s -> (forall k, In k o -> k < length s1) -> s2 = map (fun k => nth k s1 0) o -> prod s3 = prod s2 ->
  exists b, reshape (l ++ s1) a = Some b /\ shape b = l ++ s1 /\
  exists d, reshape (l ++ s3) (transpose (shifted (length l) o) b) = Some d /\ shape d = l ++ s3 /\
  forall p j j1 j2 j3, valid l p -> valid s j -> flatten s1 j1 = flatten s j -> j1 = map (fun k => nth (index_of k o) j2 0) (seq 0 (length s1)) -> valid s2 j2 -> flatten s3 j3 = flatten s2 j2 ->
    get d (p ++ j3) = get a (p ++ j).
Proof.
  intros l s s1 s2 s3 o a Sa P1 B S2 P3. destruct (reshape_lead l s s1 a Sa P1) as (b & Rb & Sb & Gb). exists b. split; [auto|]. split; [auto|].
  destruct (transpose_lead l s1 o b Sb B) as [St Gt]. rewrite <- S2 in St.
  destruct (reshape_lead l s2 s3 _ St P3) as (d & Rd & Sd & Gd). exists d. split; [auto|]. split; [auto|].
  intros p j j1 j2 j3 Vp Vj F1 J1 V2 F3. rewrite (Gd p j3 j2 Vp V2 F3), (Gt p j2 (valid_length _ _ Vp)), <- J1. apply Gb; auto.
Qed.
Lemma idx_lt : forall e n y ns, e < n -> y < ns -> e * ns + y < n * ns.
Proof. intros. nia. Qed.
Lemma idx3_lt : forall z y x ns, z < ns -> y < ns -> x < ns -> (z * ns + y) * ns + x < ns ^ 3.
Proof. intros. cbn [Nat.pow]. rewrite Nat.mul_1_r. pose proof (idx_lt z ns y ns H H0). rewrite Nat.mul_assoc. apply idx_lt; auto. Qed.
Lemma idx2_lt : forall y x ns, y < ns -> x < ns -> y * ns + x < ns ^ 2.
Proof. intros. cbn [Nat.pow]. rewrite Nat.mul_1_r. apply idx_lt; auto. Qed.
Ltac valids := repeat constructor; try lia; try (apply idx_lt; lia); try (apply idx2_lt; lia); try (apply idx3_lt; lia).
Ltac flat := cbn [flatten prod fold_right Nat.pow]; ring.
Ltac bounds := cbn [In length]; intros; repeat match goal with H : _ \/ _ |- _ => destruct H end; try lia; try contradiction.
Variables (n1 n2 n3 ns : nat).
Ltac start H k := unfold bind; rewrite H; rewrite ?(trail_app _ [_; _]), ?(trail_app _ [_; _; _]), ?(trail_app _ [_; _; _; _]), ?(lead_app _ [_; _]), ?(lead_app _ [_; _; _]), ?(lead_app _ [_; _; _; _]), ?eq_shape_true.

Lemma to_new_3d_ok : forall l a, shape a = l ++ [n3 * ns; n2 * ns; n1 * ns] -> exists b, to_new_3d n1 n2 n3 ns a = Some b /\ elements_3d n1 n2 n3 ns l a b.
Proof.
  intros l a H. unfold to_new_3d. 
  change (trail 3 (shape a)) with (trail (length [n3 * ns; n2 * ns; n1 * ns]) (shape a)). change (lead 3 (shape a)) with (lead (length [n3 * ns; n2 * ns; n1 * ns]) (shape a)).
  rewrite H, trail_app, lead_app, eq_shape_true.
  destruct (convert l [n3 * ns; n2 * ns; n1 * ns] [n3; ns; n2; ns; n1; ns] [n3; n2; n1; ns; ns; ns] [n3; n2; n1; ns ^ 3] [0; 2; 4; 1; 3; 5] a H) as (b & Rb & Sb & d & Rd & Sd & G); [flat|bounds|reflexivity|flat|].
  exists d. rewrite Rb. cbn [bind]. unfold moveaxis. rewrite Sb, app_length. cbn [length].
  replace (length l + 6 - 3) with (length l + 3) by lia. replace (length l + 6 - 5) with (length l + 1) by lia. replace (length l + 6 - 2) with (length l + 4) by lia.
  change [(length l + 3, length l + 1); (length l + 4, length l + 3)] with (map (fun x => (length l + fst x, length l + snd x)) [(3, 1); (4, 3)]).
  rewrite move_order_lead. change (move_order 6 [(3, 1); (4, 3)]) with [0; 2; 4; 1; 3; 5]. split; [exact Rd|].
  split; [auto|]. split; [auto|]. intros i e3 e2 e1 z y x V E3 E2 E1 Hz Hy Hx.
  apply (G i _ [e3; z; e2; y; e1; x] [e3; e2; e1; z; y; x]); auto; [valids|flat|valids|flat].
Qed.
Lemma to_single_block_3d_ok : forall l b, shape b = l ++ [n3; n2; n1; ns ^ 3] -> exists a, to_single_block_3d n1 n2 n3 ns b = Some a /\ elements_3d n1 n2 n3 ns l a b.
Proof.
  intros l b H. unfold to_single_block_3d.
  change (trail 4 (shape b)) with (trail (length [n3; n2; n1; ns ^ 3]) (shape b)). change (lead 4 (shape b)) with (lead (length [n3; n2; n1; ns ^ 3]) (shape b)).
  rewrite H, trail_app, lead_app, eq_shape_true.
  destruct (convert l [n3; n2; n1; ns ^ 3] [n3; n2; n1; ns; ns; ns] [n3; ns; n2; ns; n1; ns] [n3 * ns; n2 * ns; n1 * ns] [0; 3; 1; 4; 2; 5] b H) as (c & Rc & Sc & d & Rd & Sd & G); [flat|bounds|reflexivity|flat|].
  exists d. rewrite Rc. cbn [bind]. unfold moveaxis. rewrite Sc, app_length. cbn [length].
  replace (length l + 6 - 3) with (length l + 3) by lia. replace (length l + 6 - 5) with (length l + 1) by lia. replace (length l + 6 - 2) with (length l + 4) by lia.
  change [(length l + 1, length l + 3); (length l + 3, length l + 4)] with (map (fun x => (length l + fst x, length l + snd x)) [(1, 3); (3, 4)]).
  rewrite move_order_lead. change (move_order 6 [(1, 3); (3, 4)]) with [0; 3; 1; 4; 2; 5]. split; [exact Rd|].
  split; [auto|]. split; [auto|]. intros i e3 e2 e1 z y x V E3 E2 E1 Hz Hy Hx. symmetry.
  apply (G i _ [e3; e2; e1; z; y; x] [e3; z; e2; y; e1; x]); auto; [valids|flat|valids|flat].
Qed.
Lemma to_single_block_2d_ok : forall l b, shape b = l ++ [n2; n1; ns * ns] -> exists a, to_single_block_2d n1 n2 ns b = Some a /\ elements_2d n1 n2 ns l a b.
Proof.
  intros l b H. unfold to_single_block_2d.
  change (trail 3 (shape b)) with (trail (length [n2; n1; ns * ns]) (shape b)). change (lead 3 (shape b)) with (lead (length [n2; n1; ns * ns]) (shape b)).
  rewrite H, trail_app, lead_app, eq_shape_true.
  destruct (convert l [n2; n1; ns * ns] [n2; n1; ns; ns] [n2; ns; n1; ns] [n2 * ns; n1 * ns] [0; 2; 1; 3] b H) as (c & Rc & Sc & d & Rd & Sd & G); [flat|bounds|reflexivity|flat|].
  exists d. rewrite Rc. cbn [bind]. unfold moveaxis. rewrite Sc, app_length. cbn [length].
  replace (length l + 4 - 3) with (length l + 1) by lia. replace (length l + 4 - 2) with (length l + 2) by lia.
  change [(length l + 2, length l + 1)] with (map (fun x => (length l + fst x, length l + snd x)) [(2, 1)]).
  rewrite move_order_lead. change (move_order 4 [(2, 1)]) with [0; 2; 1; 3]. split; [exact Rd|].
  split; [auto|]. split; [auto|]. intros i e2 e1 y x V E2 E1 Hy Hx. symmetry.
  apply (G i _ [e2; e1; y; x] [e2; y; e1; x]); auto; [valids|flat|valids|flat].
Qed.
Lemma to_single_block_cartesian_ok : forall l b, shape b = l ++ [n2; n1; ns * ns] -> exists a, to_single_block_cartesian n1 n2 ns b = Some a /\ elements_2d n1 n2 ns l a b.
Proof.
  intros l b H. unfold to_single_block_cartesian. change (lead 3 (shape b)) with (lead (length [n2; n1; ns * ns]) (shape b)).
  rewrite H, lead_app.
  destruct (convert l [n2; n1; ns * ns] [n2; n1; ns; ns] [n2; ns; n1; ns] [n2 * ns; n1 * ns] [0; 2; 1; 3] b H) as (c & Rc & Sc & d & Rd & Sd & G); [flat|bounds|reflexivity|flat|].
  exists d. rewrite Rc. cbn [bind]. unfold swapaxes. rewrite Sc, app_length. cbn [length].
  replace (length l + 4 - 3) with (length l + 1) by lia. replace (length l + 4 - 2) with (length l + 2) by lia.
  rewrite map_eq_seq. change (map (fun k => if k =? 2 then 1 else if k =? 1 then 2 else k) (seq 0 4)) with [0; 2; 1; 3]. split; [exact Rd|].
  split; [auto|]. split; [auto|]. intros i e2 e1 y x V E2 E1 Hy Hx. symmetry.
  apply (G i _ [e2; e1; y; x] [e2; y; e1; x]); auto; [valids|flat|valids|flat].
Qed.
Lemma to_new_floor_ok : forall l a, shape a = l ++ [n2 * ns; n1 * ns] -> exists b, to_new_floor n1 n2 ns a = Some b /\ elements_2d n1 n2 ns l a b.
Proof.
  intros l a H. unfold to_new_floor.
  change (trail 2 (shape a)) with (trail (length [n2 * ns; n1 * ns]) (shape a)). change (lead 2 (shape a)) with (lead (length [n2 * ns; n1 * ns]) (shape a)).
  rewrite H, trail_app, lead_app, eq_shape_true.
  destruct (convert l [n2 * ns; n1 * ns] [n2; ns; n1; ns] [n2; n1; ns; ns] [n2; n1; ns ^ 2] [0; 2; 1; 3] a H) as (c & Rc & Sc & d & Rd & Sd & G); [flat|bounds|reflexivity|flat|].
  exists d. rewrite Rc. cbn [bind]. unfold swapaxes. rewrite Sc, app_length. cbn [length].
  replace (length l + 4 - 3) with (length l + 1) by lia. replace (length l + 4 - 2) with (length l + 2) by lia.
  rewrite map_eq_seq. change (map (fun k => if k =? 1 then 2 else if k =? 2 then 1 else k) (seq 0 4)) with [0; 2; 1; 3]. split; [exact Rd|].
  split; [auto|]. split; [rewrite Sd; do 4 f_equal; cbn [Nat.pow]; lia|]. intros i e2 e1 y x V E2 E1 Hy Hx.
  apply (G i _ [e2; y; e1; x] [e2; e1; y; x]); auto; [valids|flat|valids|flat].
Qed.
Lemma to_new_2d_ok : forall l a, n1 = n2 -> l = [] \/ (exists m, l = [m]) -> shape a = l ++ [n2 * ns; n1 * ns] -> exists b, to_new_2d n1 n2 ns a = Some b /\ elements_2d n1 n2 ns l a b.
Proof.
  intros l a Hn L H. unfold to_new_2d. rewrite H. destruct L as [->|(m & ->)]; cbn [app length Nat.eqb andb orb skipn nth].
  - rewrite eq_shape_true. change [0; 2; 1; 3] with (shifted (length (@nil nat)) [0; 2; 1; 3]).
    destruct (convert [] [n2 * ns; n1 * ns] [n2; ns; n1; ns] [n2; n1; ns; ns] [n1; n2; ns * ns] [0; 2; 1; 3] a H) as (c & Rc & Sc & d & Rd & Sd & G); [flat|bounds|reflexivity|flat|].
    exists d. cbn [app] in Rc, Rd. rewrite Rc. cbn [bind]. split; [exact Rd|]. split; [auto|]. split; [rewrite Sd, Hn; reflexivity|]. intros i e2 e1 y x V E2 E1 Hy Hx.
    apply (G i _ [e2; y; e1; x] [e2; e1; y; x]); auto; [valids|flat|valids|rewrite Hn; flat].
  - rewrite eq_shape_true. change [0; 1; 3; 2; 4] with (shifted (length [m]) [0; 2; 1; 3]).
    destruct (convert [m] [n2 * ns; n1 * ns] [n2; ns; n1; ns] [n2; n1; ns; ns] [n1; n2; ns * ns] [0; 2; 1; 3] a H) as (c & Rc & Sc & d & Rd & Sd & G); [flat|bounds|reflexivity|flat|].
    exists d. cbn [app] in Rc, Rd. rewrite Rc. cbn [bind]. split; [exact Rd|]. split; [auto|]. split; [rewrite Sd, Hn; reflexivity|]. intros i e2 e1 y x V E2 E1 Hy Hx.
    apply (G i _ [e2; y; e1; x] [e2; e1; y; x]); auto; [valids|flat|valids|rewrite Hn; flat].
Qed.
End Convert.
