(** Tiles, elements and the area of the sphere *)
From Coq Require Import Reals Lra Lia.
From Coquelicot Require Import Coquelicot.
From Verif Require Import GeoModel GeoSpec GeoProofs GeoArea.
Local Open Scope R_scope.

(** ** Tiles *)
Lemma tile_start_0 : forall k, tile_start k 0 = - PI / 4.
Proof. intros. unfold tile_start. cbn [INR]. ring. Qed.
Lemma tile_next : forall k i, tile_end k i = tile_start k (S i).
Proof. intros. unfold tile_end, tile_start. rewrite S_INR. ring. Qed.
Lemma tile_last : forall k, (0 < k)%nat -> tile_start k k = PI / 4.
Proof. intros k H. unfold tile_start. assert (INR k <> 0) by (apply not_0_INR; lia). field. auto. Qed.
Lemma delta_x_value : forall k i n, (0 < k)%nat -> (0 < n)%nat -> delta_x k i n = PI / 2 / (INR k * INR n).
Proof. intros k i n H1 H2. unfold delta_x, tile_end, tile_start. assert (INR k <> 0) by (apply not_0_INR; lia). assert (INR n <> 0) by (apply not_0_INR; lia). field. auto. Qed.
Lemma delta_x_pos : forall k i n, (0 < k)%nat -> (0 < n)%nat -> 0 < delta_x k i n.
Proof.
  intros k i n H1 H2. rewrite delta_x_value by auto. apply lt_0_INR in H1. apply lt_0_INR in H2. apply Rdiv_lt_0_compat; [pose proof PI_RGT_0; lra|nra].
Qed.
Lemma x_solpt_global : forall k i n e s, (0 < k)%nat -> (0 < n)%nat -> x_solpt k i n e s = x_solpt 1 0 (k * n) (i * n + e) s.
Proof.
  intros k i n e s H1 H2. unfold x_solpt. rewrite !delta_x_value by nia. unfold tile_start. rewrite plus_INR, !mult_INR. cbn [INR].
  assert (INR k <> 0) by (apply not_0_INR; lia). assert (INR n <> 0) by (apply not_0_INR; lia). field. auto.
Qed.
Lemma x_itf_global : forall k i n e, (0 < k)%nat -> (0 < n)%nat -> x_itf k i n e = x_itf 1 0 (k * n) (i * n + e).
Proof.
  intros k i n e H1 H2. unfold x_itf. unfold tile_end, tile_start. rewrite plus_INR, !mult_INR. cbn [INR].
  assert (INR k <> 0) by (apply not_0_INR; lia). assert (INR n <> 0) by (apply not_0_INR; lia). field. auto.
Qed.
Lemma x_itf_solpt : forall k i n e, (0 < n)%nat -> x_solpt k i n e (- 1) = x_itf k i n e /\ x_solpt k i n e 1 = x_itf k i n (S e).
Proof.
  intros k i n e H. unfold x_solpt, x_itf, delta_x. rewrite S_INR. assert (INR n <> 0) by (apply not_0_INR; lia). split; field; auto.
Qed.
Lemma x_itf_ends : forall k i n, (0 < n)%nat -> x_itf k i n 0 = tile_start k i /\ x_itf k i n n = tile_end k i.
Proof. intros k i n H. unfold x_itf. cbn [INR]. assert (INR n <> 0) by (apply not_0_INR; lia). split; [ring|field; auto]. Qed.
Lemma x_solpt_centre : forall k i n e s, x_solpt k i n e s = (tile_start k i + delta_x k i n * INR e + delta_x k i n / 2) + delta_x k i n / 2 * s.
Proof. intros. unfold x_solpt. field. Qed.
(** points of an element lie between its interfaces, and these within the panel *)
Lemma x_solpt_between : forall k i n e s, (0 < k)%nat -> (0 < n)%nat -> - 1 < s < 1 -> x_itf k i n e < x_solpt k i n e s < x_itf k i n (S e).
Proof.
  intros k i n e s Hk Hn Hs. destruct (x_itf_solpt k i n e Hn) as [<- <-]. rewrite !x_solpt_centre. pose proof (delta_x_pos k i n Hk Hn). nra.
Qed.
Lemma x_itf_range : forall k i n e, (i < k)%nat -> (0 < n)%nat -> (e <= n)%nat -> - PI / 4 <= x_itf k i n e <= PI / 4.
Proof.
  intros k i n e Hi Hn He. rewrite x_itf_global by lia. assert (L : (i * n + e <= k * n)%nat) by nia. set (m := (i * n + e)%nat) in *. set (N := (k * n)%nat) in *.
  assert (HN : (0 < N)%nat) by (unfold N; nia). unfold x_itf, tile_end, tile_start. cbn [INR]. apply le_INR in L. apply lt_0_INR in HN. pose proof (pos_INR m). pose proof PI_RGT_0.
  replace (- PI / 4 + 0 * ((PI / 4 - - PI / 4) / 1) + INR m * ((- PI / 4 + 0 * ((PI / 4 - - PI / 4) / 1) + (PI / 4 - - PI / 4) / 1 - (- PI / 4 + 0 * ((PI / 4 - - PI / 4) / 1))) / INR N))
    with (- PI / 4 + PI / 2 * (INR m / INR N)) by (field; lra).
  assert (0 <= INR m / INR N <= 1). { split; [apply Rdiv_le_0_compat; lra|]. apply Rmult_le_reg_r with (INR N); [lra|]. unfold Rdiv. rewrite Rmult_assoc, Rinv_l by lra. lra. }
  nra.
Qed.
Lemma x_solpt_range : forall k i n e s, (i < k)%nat -> (e < n)%nat -> - 1 <= s <= 1 -> - PI / 4 <= x_solpt k i n e s <= PI / 4.
Proof.
  intros k i n e s Hi He Hs. pose proof (x_itf_range k i n e Hi ltac:(lia) ltac:(lia)) as A. pose proof (x_itf_range k i n (S e) Hi ltac:(lia) ltac:(lia)) as B.
  destruct (x_itf_solpt k i n e ltac:(lia)) as [E F]. rewrite <- E in A. rewrite <- F in B. rewrite x_solpt_centre in *. pose proof (delta_x_pos k i n ltac:(lia) ltac:(lia)). nra.
Qed.
Lemma regular_panel : forall x, - PI / 4 <= x <= PI / 4 -> regular x.
Proof. intros x H. unfold regular. pose proof PI_RGT_0. assert (0 < cos x) by (apply cos_gt_0; lra). lra. Qed.
(** every angle of the panel is in exactly one element (interfaces excepted) *)
Lemma step_cover : forall (f : nat -> R) N x, f 0%nat <= x -> x < f N -> exists e, (e < N)%nat /\ f e <= x < f (S e).
Proof.
  intros f N x H0 HN. induction N as [|N IH]; [lra|]. destruct (Rlt_dec x (f N)) as [L|L].
  - destruct (IH L) as [e [He K]]. exists e. split; [lia|auto].
  - exists N. split; [lia|lra].
Qed.
Lemma x_itf_mono : forall k i n e e', (0 < k)%nat -> (0 < n)%nat -> (e <= e')%nat -> x_itf k i n e <= x_itf k i n e'.
Proof.
  intros k i n e e' Hk Hn H. unfold x_itf. apply le_INR in H. pose proof (delta_x_pos k i n Hk Hn) as D. unfold delta_x in D. nra.
Qed.
Lemma cover_once : forall k n x, (0 < k)%nat -> (0 < n)%nat -> - PI / 4 <= x < PI / 4 ->
  exists i e, ((i < k)%nat /\ (e < n)%nat /\ x_itf k i n e <= x < x_itf k i n (S e)) /\
    forall i' e', (i' < k)%nat -> (e' < n)%nat -> x_itf k i' n e' <= x < x_itf k i' n (S e') -> i' = i /\ e' = e.
Proof.
  intros k n x Hk Hn [H1 H2]. assert (HN : (0 < k * n)%nat) by nia.
  destruct (step_cover (x_itf 1 0 (k * n)) (k * n) x) as [g [Hg K]].
  { destruct (x_itf_ends 1 0 (k * n) HN) as [-> _]. rewrite tile_start_0. lra. }
  { destruct (x_itf_ends 1 0 (k * n) HN) as [_ ->]. rewrite tile_next, tile_last by lia. lra. }
  exists (g / n)%nat, (g mod n)%nat. assert (Hd : g = (g / n * n + g mod n)%nat) by (pose proof (Nat.div_mod g n ltac:(lia)); nia).
  assert (Hm : (g mod n < n)%nat) by (apply Nat.mod_upper_bound; lia). assert (Hq : (g / n < k)%nat) by (apply Nat.div_lt_upper_bound; nia).
  split.
  - split; [auto|split; [auto|]]. rewrite !(x_itf_global k (g / n) n) by auto. replace (g / n * n + S (g mod n))%nat with (S (g / n * n + g mod n)) by lia. rewrite <- Hd. exact K.
  - intros i' e' Hi' He' K'. rewrite !(x_itf_global k i' n) in K' by auto. replace (i' * n + S e')%nat with (S (i' * n + e')) in K' by lia.
    assert (G : (i' * n + e')%nat = g).
    { destruct (Nat.lt_trichotomy (i' * n + e') g) as [L|[L|L]]; [|exact L|]; exfalso.
      - pose proof (x_itf_mono 1 0 (k * n) (S (i' * n + e')) g ltac:(lia) HN ltac:(lia)). lra.
      - pose proof (x_itf_mono 1 0 (k * n) (S g) (i' * n + e') ltac:(lia) HN ltac:(lia)). lra. }
    split.
    + rewrite <- G. rewrite Nat.div_add_l by lia. rewrite Nat.div_small by auto. lia.
    + rewrite <- G. rewrite Nat.add_comm, Nat.mod_add by lia. rewrite Nat.mod_small; auto.
Qed.

(** ** Area *)
Definition areaA (X Y : R) : R := atan (X * Y / delta X Y).
Lemma derive_area_Y : forall X Y, is_derive (fun Y => Y / delta X Y) Y ((1 + X ^ 2) / (delta2 X Y * delta X Y)).
Proof.
  intros X Y. pose proof (delta2_pos X Y) as P. pose proof (delta_pos X Y) as Q. unfold delta in *. unfold delta2 in *. auto_derive.
  - change (X * (X * 1)) with (X ^ 2). change (Y * (Y * 1)) with (Y ^ 2). repeat split; auto. lra.
  - change (X * (X * 1)) with (X ^ 2). change (Y * (Y * 1)) with (Y ^ 2).
    assert (E : 1 + X ^ 2 + Y ^ 2 = sqrt (1 + X ^ 2 + Y ^ 2) ^ 2) by (symmetry; apply pow2_sqrt; lra).
    set (d := sqrt (1 + X ^ 2 + Y ^ 2)) in *. rewrite E. replace (1 + X ^ 2) with (d ^ 2 - Y ^ 2) by (rewrite <- E; ring). field. lra.
Qed.
Lemma derive_area_X : forall X Y, is_derive (fun X => areaA X Y) X (Y / (delta X Y * (1 + X ^ 2))).
Proof.
  intros X Y. pose proof (delta2_pos X Y) as P. pose proof (delta_pos X Y) as Q. unfold areaA. unfold delta in *. unfold delta2 in *. auto_derive.
  - change (X * (X * 1)) with (X ^ 2). change (Y * (Y * 1)) with (Y ^ 2). repeat split; auto. lra.
  - change (X * (X * 1)) with (X ^ 2). change (Y * (Y * 1)) with (Y ^ 2).
    assert (E : 1 + X ^ 2 + Y ^ 2 = sqrt (1 + X ^ 2 + Y ^ 2) ^ 2) by (symmetry; apply pow2_sqrt; lra).
    set (d := sqrt (1 + X ^ 2 + Y ^ 2)) in *. assert (HX : 0 < 1 + X ^ 2) by nra. assert (HY : 0 < 1 + Y ^ 2) by nra.
    assert (N : d ^ 2 + X ^ 2 * Y ^ 2 = (1 + X ^ 2) * (1 + Y ^ 2)) by (rewrite <- E; ring).
    transitivity (Y * (d ^ 2 - X ^ 2) / d / (d ^ 2 + X ^ 2 * Y ^ 2)).
    + field. repeat split; try lra; nra.
    + rewrite N. replace (d ^ 2 - X ^ 2) with (1 + Y ^ 2) by (rewrite <- E; ring). field. lra.
Qed.
Lemma continuous_delta_Y : forall X Y, continuous (fun Y => (1 + X ^ 2) * (1 + Y ^ 2) / (delta2 X Y * delta X Y)) Y.
Proof.
  intros X Y. pose proof (delta2_pos X Y) as P. pose proof (delta_pos X Y) as Q. apply (ex_derive_continuous (K:=R_AbsRing) (V:=R_NormedModule)). unfold delta, delta2 in *. auto_derive.
  change (X * (X * 1)) with (X ^ 2). change (Y * (Y * 1)) with (Y ^ 2). repeat split; auto. nra.
Qed.
Lemma continuous_delta_X : forall X Y, continuous (fun X => Y / delta X Y) X.
Proof.
  intros X Y. pose proof (delta2_pos X Y) as P. pose proof (delta_pos X Y) as Q. apply (ex_derive_continuous (K:=R_AbsRing) (V:=R_NormedModule)). unfold delta, delta2 in *. auto_derive.
  change (X * (X * 1)) with (X ^ 2). change (Y * (Y * 1)) with (Y ^ 2). repeat split; auto. lra.
Qed.
Lemma continuous_tan : forall a d s, regular (a + d / 2 * s) -> continuous (fun s => tan (a + d / 2 * s)) s.
Proof. intros a d s H. apply (ex_derive_continuous (K:=R_AbsRing) (V:=R_NormedModule)). eexists. apply derive_tan; auto. Qed.
(** the integral of the true area element of the unit sphere, times dx1 dx2 / 4, over an element *)
Lemma element_area : forall k R0 a1 a2 dx1 dx2, k <> 0 -> (forall s, - 1 <= s <= 1 -> regular (a1 + dx1 / 2 * s)) -> (forall s, - 1 <= s <= 1 -> regular (a2 + dx2 / 2 * s)) ->
  let X s := tan (a1 + dx1 / 2 * s) in let Y s := tan (a2 + dx2 / 2 * s) in
  integral2 (fun s t => R0 ^ 2 * (1 + X s ^ 2) * (1 + Y t ^ 2) / (delta2 (X s) (Y t) * delta (X s) (Y t)) * (dx1 * dx2 / k))
    (R0 ^ 2 * 4 / k * (areaA (X 1) (Y 1) - areaA (X (- 1)) (Y 1) - areaA (X 1) (Y (- 1)) + areaA (X (- 1)) (Y (- 1)))).
Proof.
  intros k R0 a1 a2 dx1 dx2 Hk H1 H2 X Y.
  exists (fun s => R0 ^ 2 * 2 / k * dx1 * (Y 1 / delta (X s) (Y 1)) - R0 ^ 2 * 2 / k * dx1 * (Y (- 1) / delta (X s) (Y (- 1)))). split.
  - intros s Hs.
    apply (is_RInt_ext (fun t => scal (R0 ^ 2 * 2 / k * dx1) (dx2 / 2 * (1 + Y t ^ 2) * ((1 + X s ^ 2) / (delta2 (X s) (Y t) * delta (X s) (Y t)))))).
    { intros t _. unfold scal; cbn -[pow]; unfold mult; cbn -[pow]. pose proof (delta_pos (X s) (Y t)). pose proof (delta2_pos (X s) (Y t)). field. repeat split; auto; lra. }
    replace (R0 ^ 2 * 2 / k * dx1 * (Y 1 / delta (X s) (Y 1)) - R0 ^ 2 * 2 / k * dx1 * (Y (- 1) / delta (X s) (Y (- 1))))
      with (scal (R0 ^ 2 * 2 / k * dx1) (minus (Y 1 / delta (X s) (Y 1)) (Y (- 1) / delta (X s) (Y (- 1))))) by (unfold scal, minus, plus, opp; cbn; unfold mult; cbn; ring).
    apply (is_RInt_scal (V:=R_NormedModule)).
    apply (is_RInt_derive (fun t => Y t / delta (X s) (Y t)) (fun t => dx2 / 2 * (1 + Y t ^ 2) * ((1 + X s ^ 2) / (delta2 (X s) (Y t) * delta (X s) (Y t))))).
    + intros t Ht. rewrite Rmin_left, Rmax_right in Ht by lra. exact (is_derive_comp (fun y => y / delta (X s) y) Y t _ _ (derive_area_Y (X s) (Y t)) (derive_tan a2 dx2 t (H2 t Ht))).
    + intros t Ht. rewrite Rmin_left, Rmax_right in Ht by lra.
      apply (continuous_ext (fun t => scal (dx2 / 2) ((1 + X s ^ 2) * (1 + Y t ^ 2) / (delta2 (X s) (Y t) * delta (X s) (Y t))))).
      { intros u. unfold scal; cbn; unfold mult; cbn. unfold Rdiv. ring. }
      apply (continuous_scal_r (K:=R_AbsRing) (V:=R_NormedModule)). apply (continuous_comp Y (fun y => (1 + X s ^ 2) * (1 + y ^ 2) / (delta2 (X s) y * delta (X s) y))); [apply continuous_tan; auto|apply continuous_delta_Y].
  - assert (K : forall y, is_RInt (fun s => R0 ^ 2 * 2 / k * dx1 * (y / delta (X s) y)) (- 1) 1 (R0 ^ 2 * 4 / k * (areaA (X 1) y - areaA (X (- 1)) y))).
    { intros y. apply (is_RInt_ext (fun s => scal (R0 ^ 2 * 4 / k) (dx1 / 2 * (1 + X s ^ 2) * (y / (delta (X s) y * (1 + X s ^ 2)))))).
      { intros s _. unfold scal; cbn; unfold mult; cbn. pose proof (delta_pos (X s) y). assert (1 + X s ^ 2 <> 0) by nra.
        field. repeat split; auto; lra. }
      replace (R0 ^ 2 * 4 / k * (areaA (X 1) y - areaA (X (- 1)) y)) with (scal (R0 ^ 2 * 4 / k) (minus (areaA (X 1) y) (areaA (X (- 1)) y))) by (unfold scal, minus, plus, opp; cbn; unfold mult; cbn; ring).
      apply (is_RInt_scal (V:=R_NormedModule)).
      apply (is_RInt_derive (fun s => areaA (X s) y) (fun s => dx1 / 2 * (1 + X s ^ 2) * (y / (delta (X s) y * (1 + X s ^ 2))))).
      - intros s Hs. rewrite Rmin_left, Rmax_right in Hs by lra. exact (is_derive_comp (fun x => areaA x y) X s _ _ (derive_area_X (X s) y) (derive_tan a1 dx1 s (H1 s Hs))).
      - intros s Hs. rewrite Rmin_left, Rmax_right in Hs by lra.
        apply (continuous_ext (fun s => scal (dx1 / 2) (y / delta (X s) y))).
        { intros u. unfold scal; cbn; unfold mult; cbn. pose proof (delta_pos (X u) y). assert (1 + X u ^ 2 <> 0) by nra. field. split; auto; lra. }
        apply (continuous_scal_r (K:=R_AbsRing) (V:=R_NormedModule)). apply (continuous_comp X (fun x => y / delta x y)); [apply continuous_tan; auto|apply continuous_delta_X]. }
    replace (R0 ^ 2 * 4 / k * (areaA (X 1) (Y 1) - areaA (X (- 1)) (Y 1) - areaA (X 1) (Y (- 1)) + areaA (X (- 1)) (Y (- 1))))
      with (minus (R0 ^ 2 * 4 / k * (areaA (X 1) (Y 1) - areaA (X (- 1)) (Y 1))) (R0 ^ 2 * 4 / k * (areaA (X 1) (Y (- 1)) - areaA (X (- 1)) (Y (- 1))))) by (unfold minus, plus, opp; cbn; ring).
    apply (is_RInt_minus (V:=R_NormedModule)); apply K.
Qed.
Lemma integral2_unique : forall f a b, integral2 f a -> integral2 f b -> a = b.
Proof.
  intros f a b [g [G1 G2]] [h [H1 H2]]. rewrite <- (is_RInt_unique _ _ _ _ G2), <- (is_RInt_unique _ _ _ _ H2). apply RInt_ext.
  intros s Hs. rewrite Rmin_left, Rmax_right in Hs by lra. rewrite <- (is_RInt_unique _ _ _ _ (G1 s ltac:(lra))). apply is_RInt_unique. apply H1. lra.
Qed.
Lemma integral2_ext : forall f g a, (forall s t, f s t = g s t) -> integral2 f a -> integral2 g a.
Proof.
  intros f g a E [h [H1 H2]]. exists h. split; [|exact H2]. intros s Hs. apply (is_RInt_ext (fun t => f s t)); [intros; apply E|apply H1; auto].
Qed.

(** ** Sums over the elements *)
Lemma sum_below_ext : forall n f g, (forall i, (i < n)%nat -> f i = g i) -> sum_below n f = sum_below n g.
Proof. induction n as [|n IH]; intros f g H; cbn [sum_below]; [reflexivity|]. rewrite (IH f g), H by (intros; try apply H; lia). reflexivity. Qed.
Lemma sum_telescope : forall n f, sum_below n (fun i => f (S i) - f i) = f n - f 0%nat.
Proof. induction n as [|n IH]; intros f; cbn [sum_below]; [ring|]. rewrite IH. ring. Qed.
Lemma sum_below_scal : forall n k f, sum_below n (fun i => k * f i) = k * sum_below n f.
Proof. induction n as [|n IH]; intros k f; cbn [sum_below]; [ring|]. rewrite IH. ring. Qed.
Lemma sum_tiles : forall k n (f : R -> R), (0 < k)%nat -> (0 < n)%nat ->
  sum_below k (fun i => sum_below n (fun e => f (x_itf k i n (S e)) - f (x_itf k i n e))) = f (PI / 4) - f (- PI / 4).
Proof.
  intros k n f Hk Hn. rewrite (sum_below_ext k _ (fun i => f (tile_start k (S i)) - f (tile_start k i))).
  - rewrite (sum_telescope k (fun i => f (tile_start k i))), tile_start_0, tile_last by auto. reflexivity.
  - intros i Hi. rewrite (sum_telescope n (fun e => f (x_itf k i n e))). destruct (x_itf_ends k i n Hn) as [-> ->]. rewrite tile_next. reflexivity.
Qed.
Lemma area_corner : areaA (tan (PI / 4)) (tan (PI / 4)) = PI / 6.
Proof.
  rewrite tan_PI4. unfold areaA, delta, delta2. replace (1 + 1 ^ 2 + 1 ^ 2) with 3 by ring. replace (1 * 1 / sqrt 3) with (tan (PI / 6)).
  - apply atan_tan. pose proof PI_RGT_0. lra.
  - rewrite tan_PI6. unfold Rdiv. ring.
Qed.
Lemma areaA_opp_l : forall X Y, areaA (- X) Y = - areaA X Y.
Proof.
  intros. unfold areaA. replace (delta (- X) Y) with (delta X Y) by (unfold delta, delta2; f_equal; ring). rewrite <- atan_opp. f_equal. unfold Rdiv. ring.
Qed.
Lemma areaA_opp_r : forall X Y, areaA X (- Y) = - areaA X Y.
Proof.
  intros. unfold areaA. replace (delta X (- Y)) with (delta X Y) by (unfold delta, delta2; f_equal; ring). rewrite <- atan_opp. f_equal. unfold Rdiv. ring.
Qed.
(** the area of a panel, from an area element scaled by dx1 dx2 / c *)
Lemma panel_area : forall c k n R0 (part : nat -> nat -> nat -> nat -> R), c <> 0 -> (0 < k)%nat -> (0 < n)%nat ->
  (forall i1 e1 i2 e2, (i1 < k)%nat -> (e1 < n)%nat -> (i2 < k)%nat -> (e2 < n)%nat ->
     integral2 (fun s t => let X := tan (x_solpt k i1 n e1 s) in let Y := tan (x_solpt k i2 n e2 t) in
       R0 ^ 2 * (1 + X ^ 2) * (1 + Y ^ 2) / (delta2 X Y * delta X Y) * (delta_x k i1 n * delta_x k i2 n / c)) (part i1 e1 i2 e2)) ->
  sum_below k (fun i1 => sum_below n (fun e1 => sum_below k (fun i2 => sum_below n (fun e2 => part i1 e1 i2 e2)))) = R0 ^ 2 * 4 / c * (2 * PI / 3).
Proof.
  intros c k n R0 part Hc Hk Hn H.
  set (A := fun x y => areaA (tan x) (tan y)).
  assert (P : forall i1 e1 i2 e2, (i1 < k)%nat -> (e1 < n)%nat -> (i2 < k)%nat -> (e2 < n)%nat ->
    part i1 e1 i2 e2 = R0 ^ 2 * 4 / c * ((A (x_itf k i1 n (S e1)) (x_itf k i2 n (S e2)) - A (x_itf k i1 n e1) (x_itf k i2 n (S e2))) - (A (x_itf k i1 n (S e1)) (x_itf k i2 n e2) - A (x_itf k i1 n e1) (x_itf k i2 n e2)))).
  { intros i1 e1 i2 e2 I1 E1 I2 E2. eapply integral2_unique; [apply H; auto|].
    pose proof (element_area c R0 (tile_start k i1 + delta_x k i1 n * INR e1 + delta_x k i1 n / 2) (tile_start k i2 + delta_x k i2 n * INR e2 + delta_x k i2 n / 2) (delta_x k i1 n) (delta_x k i2 n) Hc) as K.
    assert (G1 : forall s, - 1 <= s <= 1 -> regular (tile_start k i1 + delta_x k i1 n * INR e1 + delta_x k i1 n / 2 + delta_x k i1 n / 2 * s)).
    { intros s Hs. rewrite <- x_solpt_centre. apply regular_panel, x_solpt_range; auto. }
    assert (G2 : forall s, - 1 <= s <= 1 -> regular (tile_start k i2 + delta_x k i2 n * INR e2 + delta_x k i2 n / 2 + delta_x k i2 n / 2 * s)).
    { intros s Hs. rewrite <- x_solpt_centre. apply regular_panel, x_solpt_range; auto. }
    specialize (K G1 G2). cbv beta zeta in K. rewrite <- !x_solpt_centre in K.
    destruct (x_itf_solpt k i1 n e1 Hn) as [S1 S2]. destruct (x_itf_solpt k i2 n e2 Hn) as [S3 S4]. rewrite S1, S2, S3, S4 in K.
    replace (R0 ^ 2 * 4 / c * _) with (R0 ^ 2 * 4 / c * (areaA (tan (x_itf k i1 n (S e1))) (tan (x_itf k i2 n (S e2))) - areaA (tan (x_itf k i1 n e1)) (tan (x_itf k i2 n (S e2))) -
          areaA (tan (x_itf k i1 n (S e1))) (tan (x_itf k i2 n e2)) + areaA (tan (x_itf k i1 n e1)) (tan (x_itf k i2 n e2)))) by (unfold A; ring).
    eapply integral2_ext; [|exact K]. intros s t. cbv beta. rewrite <- !x_solpt_centre. reflexivity. }
  transitivity (R0 ^ 2 * 4 / c * (sum_below k (fun i1 => sum_below n (fun e1 => (A (x_itf k i1 n (S e1)) (PI / 4) - A (x_itf k i1 n (S e1)) (- PI / 4)) - (A (x_itf k i1 n e1) (PI / 4) - A (x_itf k i1 n e1) (- PI / 4)))))).
  2: { rewrite (sum_tiles k n (fun x => A x (PI / 4) - A x (- PI / 4)) Hk Hn). unfold A. replace (- PI / 4) with (- (PI / 4)) by lra. rewrite tan_neg, !areaA_opp_l, !areaA_opp_r, area_corner. lra. }
  rewrite <- sum_below_scal. apply sum_below_ext. intros i1 I1.
  rewrite <- sum_below_scal. apply sum_below_ext. intros e1 E1.
  set (F := fun y => A (x_itf k i1 n (S e1)) y - A (x_itf k i1 n e1) y).
  transitivity (R0 ^ 2 * 4 / c * (F (PI / 4) - F (- PI / 4))); [|unfold F; ring].
  rewrite <- (sum_tiles k n F Hk Hn), <- sum_below_scal. apply sum_below_ext. intros i2 I2.
  rewrite <- sum_below_scal. apply sum_below_ext. intros e2 E2. rewrite P by auto. unfold F. ring.
Qed.
