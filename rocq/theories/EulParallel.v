(** Euler on the cubed sphere: the fluxes do not depend on how the panels are cut into tiles. *)
From Coq Require Import Reals ZArith Arith List Bool Lia Lra ZifyBool.
From Verif Require Import TopologyModel TopologySpec TopologyProofs ExchangeProofs GeoModel FluxModel FluxProofs FluxFaces SwModel SwSpec SwEdges SwParallel EulModel EulSpec EulEdges.
Import ListNotations.
Local Open Scope R_scope.

Lemma back_lt n b x : (x < n)%nat -> (back_index n b x < n)%nat.
Proof. intro H. unfold back_index. destruct b; lia. Qed.
Lemma split_pt ns x q : (q < ns)%nat -> ((x * ns + q) / ns = x /\ (x * ns + q) mod ns = q)%nat.
Proof. intro Hq. rewrite Nat.div_add_l by lia. rewrite Nat.div_small by exact Hq. rewrite (Nat.add_comm (x * ns)), Nat.mod_add by lia. rewrite Nat.mod_small by exact Hq. lia. Qed.
Lemma join_pt ns x : (1 <= ns)%nat -> (x / ns * ns + x mod ns = x)%nat.
Proof. intro H. rewrite (Nat.div_mod x ns) at 3 by lia. lia. Qed.
Lemma flip_pt N ns x : (1 <= ns)%nat -> (x < N * ns)%nat -> ((N * ns - 1 - x) / ns = N - 1 - x / ns /\ (N * ns - 1 - x) mod ns = ns - 1 - x mod ns)%nat.
Proof.
  intros Hns Hx. pose proof (Nat.div_mod x ns ltac:(lia)) as E. pose proof (Nat.mod_upper_bound x ns ltac:(lia)) as B.
  assert (Q : (x / ns < N)%nat) by (apply Nat.div_lt_upper_bound; lia).
  assert (F : (N * ns - 1 - x = (N - 1 - x / ns) * ns + (ns - 1 - x mod ns))%nat) by nia.
  rewrite F. apply split_pt. lia.
Qed.

(** ** What a tile receives *)
Section Received.
Variables (kk NN ns : nat) (pts : nat -> R) (t : tile) (d : side).
Hypothesis Hkk : (1 <= kk)%nat.
Hypothesis Hns : (1 <= ns)%nat.
Let KK := Z.of_nat kk.
Hypothesis Ht : tile_ok KK t.
Let s := nb KK t d.
Let e := back_side KK t d.
Let back (x : nat) : nat := back_index (NN * ns) (nb_flip KK t d) x.
Lemma flip_slab_at {T} b (f : slab T) l x z : (x < NN * ns)%nat -> at_slab ns (flip_if b (flip_slab NN ns) f) l x z = at_slab ns f l (back_index (NN * ns) b x) z.
Proof. intro Hx. destruct (flip_pt NN ns x Hns Hx) as [E1 E2]. unfold at_slab, flip_if, flip_slab, back_index. destruct b; [|reflexivity]. rewrite E1, E2. reflexivity. Qed.
Lemma flip_lines_at' {T} b (f : slab T) l x z : (x < NN * ns)%nat -> at_slab ns (flip_if b (flip_lines NN ns) f) l x z = at_slab ns f l (back_index (NN * ns) b x) z.
Proof. intro Hx. unfold at_slab, flip_if, flip_lines, back_index. destruct b; [|reflexivity]. rewrite join_pt by exact Hns. reflexivity. Qed.
Lemma received_scalar (send : Z -> side -> slab R) (fl : slab R -> slab R) l x z :
  (forall b (f : slab R) l x z, (x < NN * ns)%nat -> at_slab ns (flip_if b fl f) l x z = at_slab ns f l (back_index (NN * ns) b x) z) -> (x < NN * ns)%nat ->
  at_slab ns (received_slab 0 (exchange_scalars (size kk) fl send (rank_of_tile KK t) d)) l x z = at_slab ns (send (rank_of_tile KK s) e) l (back x) z.
Proof.
  intros Hf Hx. assert (HKK : (1 <= KK)%Z) by (unfold KK; lia). assert (Hs_ : tile_ok KK s) by (apply nb_ok; assumption).
  unfold exchange_scalars, size. fold KK. rewrite alltoall_spec by assumption. cbn [received_slab].
  fold s e. rewrite built_flip by assumption. unfold s at 1, e at 1. rewrite (proj2 (nb_back KK t d HKK Ht)). rewrite Hf by exact Hx. reflexivity.
Qed.
Variables (ei ej : Z -> nat -> nat -> nat -> face).
Definition side_val (v l x z : nat) : R := at_slab ns (sent_slab NN ns (ei (rank_of_tile KK s) v) (ej (rank_of_tile KK s) v) e) l (back x) z.
Lemma received_vector l x z : (x < NN * ns)%nat ->
  at_slab ns (halo_vector kk NN ns pts ei ej (rank_of_tile KK t) d) l x z =
  let c := (if at_edge KK s e then lookup2 convert_contras (panel s) e convert_default else convert_default) (side_val 1 l x z) (side_val 2 l x z) (line kk NN ns pts (Z.to_nat (along_tile s e)) (back x)) in
  (fst c, snd c, side_val 3 l x z).
Proof.
  intro Hx. assert (HKK : (1 <= KK)%Z) by (unfold KK; lia). assert (Hs_ : tile_ok KK s) by (apply nb_ok; assumption).
  unfold halo_vector, size. fold KK. rewrite alltoall_spec by assumption. cbn [received_slab].
  fold s e. rewrite flip_slab_at by exact Hx. rewrite built_flip by assumption. rewrite built_contra by assumption.
  assert (F : nb_flip KK s e = nb_flip KK t d) by (exact (proj2 (nb_back KK t d HKK Ht))). rewrite F. fold (back x). set (cv := if at_edge KK s e then _ else _).
  unfold at_slab at 1. unfold convert_slab. fold (at_slab ns (sent_slab NN ns (ei (rank_of_tile KK s) 3%nat) (ej (rank_of_tile KK s) 3%nat) e) l (back x) z). fold (side_val 3 l x z).
  assert (L : boundary_new kk NN ns pts (rank_of_tile KK s) e (back x / ns) z (back x mod ns) = line kk NN ns pts (Z.to_nat (along_tile s e)) (back x)).
  { unfold boundary_new. rewrite join_pt by exact Hns. destruct (rows_at kk s Hkk Hs_) as [E1 E2]. fold KK in E1, E2. rewrite E1, E2. unfold along_tile. destruct e; reflexivity. }
  rewrite L. reflexivity.
Qed.
End Received.

Lemma put_same s (v v' a a' : face) e p : (forall e p, a e p = a' e p) -> (forall i j, v i j = v' i j) -> put s v a e p = put s v' a' e p.
Proof. intros Ha Hv. unfold put. rewrite Ha, Hv. reflexivity. Qed.
(** ** The flux at a side depends on the two sides that meet there *)
Section Local.
Variables (n n' m A d : nat) (adv : bool) (vel pres sG vel' pres' sG' : face) (q q' : nat -> face) (h h' : nat -> nat -> face) (f f' : nat -> face) (wa wp wa' wp' : face).
Hypothesis Hn : (2 <= n)%nat.
Hypothesis HA : (A + n <= n')%nat.
Definition meets (e p : nat) : Prop := (e < n /\ p < 2 * m /\ (e = 0 -> m <= p) /\ (e = n - 1 -> p < m))%nat.
Hypothesis Hvel : forall e p, meets e p -> vel e p = vel' (A + e)%nat p.
Hypothesis Hpres : forall e p, meets e p -> pres e p = pres' (A + e)%nat p.
Hypothesis HsG : forall e p, meets e p -> sG e p = sG' (A + e)%nat p.
Hypothesis Hh : forall a c e p, meets e p -> h a c e p = h' a c (A + e)%nat p.
Hypothesis Hq : forall v e p, (v <= 4)%nat -> meets e p -> q v e p = q' v (A + e)%nat p.
Notation res := (rusanov_3d_new n m d adv vel q pres sG h f wa wp).
Notation res' := (rusanov_3d_new n' m d adv vel' q' pres' sG' h' f' wa' wp').
Lemma meets_lo e p : (S e < n)%nat -> (p < m)%nat -> meets e (m + p).
Proof. unfold meets. lia. Qed.
Lemma meets_hi e p : (S e < n)%nat -> (p < m)%nat -> meets (S e) p.
Proof. unfold meets. lia. Qed.
Lemma local_lo e p : (S e < n)%nat -> (p < m)%nat ->
  (forall v, (v <= 4)%nat -> fst (fst res) v e (m + p)%nat = fst (fst res') v (A + e)%nat (m + p)%nat) /\ snd (fst res) e (m + p)%nat = snd (fst res') (A + e)%nat (m + p)%nat /\
  snd res e (m + p)%nat = snd res' (A + e)%nat (m + p)%nat /\ snd res (S e) p = snd res' (S (A + e)) p.
Proof.
  intros He Hp. pose proof (meets_lo e p He Hp) as M1. pose proof (meets_hi e p He Hp) as M2. assert (He' : (S (A + e) < n')%nat) by lia.
  assert (Ev : eig_3d d adv vel q pres h (hi n m) e p = eig_3d d adv vel' q' pres' h' (hi n' m) (A + e)%nat p).
  { unfold eig_3d. rewrite !get_low. rewrite Hvel, Hh, Hpres, Hq by (assumption || lia). reflexivity. }
  assert (Eh : eig_3d d adv vel q pres h (lo n m) e p = eig_3d d adv vel' q' pres' h' (lo n' m) (A + e)%nat p).
  { unfold eig_3d. rewrite !get_high. rewrite Hvel, Hh, Hpres, Hq by (assumption || lia). rewrite Nat.add_succ_r. reflexivity. }
  assert (Sa : forall v, (v <= 4)%nat -> side_adv vel q sG (hi n m) v e p = side_adv vel' q' sG' (hi n' m) v (A + e)%nat p /\ side_adv vel q sG (lo n m) v e p = side_adv vel' q' sG' (lo n' m) v (A + e)%nat p).
  { intros v Hv. unfold side_adv. rewrite !get_low, !get_high. split; rewrite HsG, Hvel, Hq by assumption; [|rewrite Nat.add_succ_r]; reflexivity. }
  assert (Sp : forall c, side_pres d pres sG h (hi n m) c e p = side_pres d pres' sG' h' (hi n' m) c (A + e)%nat p /\ side_pres d pres sG h (lo n m) c e p = side_pres d pres' sG' h' (lo n' m) c (A + e)%nat p).
  { intro c. unfold side_pres. rewrite !get_low, !get_high. split; rewrite HsG, Hh, Hpres by assumption; [|rewrite Nat.add_succ_r]; reflexivity. }
  split; [|split; [|split]].
  - intros v Hv. rewrite !sphere_value by assumption. rewrite Ev, Eh. rewrite HsG, !Hq by assumption. rewrite Nat.add_succ_r.
    assert (F : side_flux d vel q pres sG h (hi n m) v e p = side_flux d vel' q' pres' sG' h' (hi n' m) v (A + e)%nat p /\ side_flux d vel q pres sG h (lo n m) v e p = side_flux d vel' q' pres' sG' h' (lo n' m) v (A + e)%nat p).
    { destruct (Sa v Hv) as [A1 A2]. destruct (Sp 0%nat) as [P1 P2]. destruct (Sp 1%nat) as [P3 P4]. destruct (Sp 2%nat) as [P5 P6]. unfold side_flux. destruct v as [|[|[|[|v]]]]; rewrite ?A1, ?A2, ?P1, ?P2, ?P3, ?P4, ?P5, ?P6; split; reflexivity. }
    destruct F as [-> ->]. reflexivity.
  - unfold rusanov_3d_new. cbv zeta. cbn [fst snd]. rewrite !put_lo_hi, !put_hi by assumption. rewrite Ev, Eh, !get_low, !get_high. destruct (Sa 3%nat ltac:(lia)) as [-> ->]. rewrite HsG, !Hq by (assumption || lia). rewrite Nat.add_succ_r. reflexivity.
  - unfold rusanov_3d_new. cbv zeta. cbn [fst snd]. rewrite !put_lo_hi, !put_hi by assumption. rewrite !get_low. destruct (Sp 2%nat) as [-> ->]. rewrite Hpres by assumption. reflexivity.
  - unfold rusanov_3d_new. cbv zeta. cbn [fst snd]. rewrite !put_lo_lo by assumption. rewrite !get_high. destruct (Sp 2%nat) as [-> ->]. rewrite Hpres by assumption. rewrite Nat.add_succ_r. reflexivity.
Qed.
Lemma local e p : (1 <= e <= n - 2)%nat -> (p < 2 * m)%nat ->
  (forall v, (v <= 4)%nat -> fst (fst res) v e p = fst (fst res') v (A + e)%nat p) /\ snd (fst res) e p = snd (fst res') (A + e)%nat p /\ snd res e p = snd res' (A + e)%nat p.
Proof.
  intros He Hp. destruct (Nat.lt_ge_cases p m) as [Hl|Hg].
  - destruct e as [|e]; [lia|]. rewrite Nat.add_succ_r. destruct (local_lo e p ltac:(lia) Hl) as (L1 & L2 & _ & L4). split; [|split; [|exact L4]].
    + intros v Hv. rewrite <- (sphere_single n m d adv vel q pres sG h f wa wp v e p) by lia. rewrite <- (sphere_single n' m d adv vel' q' pres' sG' h' f' wa' wp' v (A + e)%nat p) by lia. exact (L1 v Hv).
    + rewrite <- (sphere_adv_single n m d adv vel q pres sG h f wa wp e p) by lia. rewrite <- (sphere_adv_single n' m d adv vel' q' pres' sG' h' f' wa' wp' (A + e)%nat p) by lia. exact L2.
  - replace p with (m + (p - m))%nat by lia. destruct (local_lo e (p - m)%nat ltac:(lia) ltac:(lia)) as (L1 & L2 & L3 & _). auto.
Qed.
End Local.

Section Cut.
Variables (k N NZ ns : nat) (pts : nat -> R) (earth deta : R) (deep : bool) (geo geo' : layers).
Hypothesis Hk : (1 <= k)%nat.
Hypothesis HN : (1 <= N)%nat.
Hypothesis Hns : (1 <= ns)%nat.
Let K := Z.of_nat k.
Let n := (N * ns)%nat.
Let m := (ns * ns)%nat.
Notation R_ t := (Z.to_nat (row t)).
Notation C_ t := (Z.to_nat (col t)).
Lemma HKp : (1 <= K)%Z. Proof. unfold K. lia. Qed.
Lemma RC t : tile_ok K t -> (R_ t < k /\ C_ t < k)%nat.
Proof. intros (_ & Hr & Hc). unfold K in *. lia. Qed.
Lemma pt_m z y : (z < ns)%nat -> (y < ns)%nat -> (z * ns + y < m /\ (z * ns + y) / ns = z /\ (z * ns + y) mod ns = y)%nat.
Proof. intros Hz Hy. destruct (split_pt ns z y Hy). unfold m. nia. Qed.
Lemma pt_n x y : (x < N)%nat -> (y < ns)%nat -> (x * ns + y < n)%nat.
Proof. intros. unfold n. nia. Qed.
Lemma m_pt p : (p < m)%nat -> (p / ns < ns /\ p mod ns < ns /\ p / ns * ns + p mod ns = p)%nat.
Proof. intro H. split; [apply Nat.div_lt_upper_bound; unfold m in H; lia|]. split; [apply Nat.mod_upper_bound; lia|apply join_pt, Hns]. Qed.
Lemma panel_le c e : (c < k)%nat -> (e <= N)%nat -> (c * N + e <= k * N)%nat.
Proof. intros. assert ((c + 1) * N <= k * N)%nat by (apply Nat.mul_le_mono_r; lia). nia. Qed.

(** ** Arrays with a halo. [a]: place of the tile along the side, [b]: across *)
Definition reach (e p : nat) : Prop := (e <= N + 1 /\ p < 2 * m /\ (e = 0 -> m <= p) /\ (e = N + 1 -> p < m))%nat.
Lemma fill_cut fill (a b : nat) (lo hi lo' hi' : slab R) (f f' : nat -> nat -> face) l x e p : (b < k)%nat ->
  (forall x e p, (x < N)%nat -> (1 <= e <= N)%nat -> f l x e p = f' l (a * N + x)%nat (b * N + e)%nat p) ->
  (forall x z y, (x < N)%nat -> (z < ns)%nat -> (y < ns)%nat -> lo l x z y = if (b =? 0)%nat then lo' l (a * N + x)%nat z y else f' l (a * N + x)%nat (b * N)%nat (m + (z * ns + y))%nat) ->
  (forall x z y, (x < N)%nat -> (z < ns)%nat -> (y < ns)%nat -> hi l x z y = if (b =? k - 1)%nat then hi' l (a * N + x)%nat z y else f' l (a * N + x)%nat (b * N + (N + 1))%nat (z * ns + y)%nat) ->
  (x < N)%nat -> reach e p -> fill_halo N ns fill lo hi f l x e p = fill_halo (k * N) ns fill lo' hi' f' l (a * N + x)%nat (b * N + e)%nat p.
Proof.
  intros Hb Hin Hlo Hhi Hx (He & Hp & H0 & H1). unfold fill_halo. change (itf_size ns) with m.
  destruct (Nat.eq_dec e 0) as [->|N0]; [|destruct (Nat.eq_dec e (N + 1)) as [->|N1]].
  - specialize (H0 eq_refl). destruct (m_pt (p - m) ltac:(lia)) as (Pz & Py & Pj). change ((1 <=? 0)%nat && (0 <=? N)%nat) with false. change (0 =? 0)%nat with true. replace (m <=? p)%nat with true by lia. cbv iota. rewrite Hlo by assumption. rewrite Nat.add_0_r.
    destruct (Nat.eqb_spec b 0) as [->|Nb]; [reflexivity|]. assert (1 * 1 <= b * N)%nat by (apply Nat.mul_le_mono; lia). pose proof (panel_le b 0 Hb ltac:(lia)).
    replace ((1 <=? b * N)%nat && (b * N <=? k * N)%nat) with true by lia. rewrite Pj. replace (m + (p - m))%nat with p by lia. reflexivity.
  - specialize (H1 eq_refl). destruct (m_pt p H1) as (Pz & Py & Pj). replace ((1 <=? N + 1)%nat && (N + 1 <=? N)%nat) with false by lia. replace (N + 1 =? 0)%nat with false by lia. replace (p <? m)%nat with true by lia. rewrite Hhi by assumption.
    destruct (Nat.eqb_spec b (k - 1)) as [->|Nb].
    + replace ((k - 1) * N + (N + 1))%nat with (k * N + 1)%nat by nia. replace ((1 <=? k * N + 1)%nat && (k * N + 1 <=? k * N)%nat) with false by lia. replace (k * N + 1 =? 0)%nat with false by lia. reflexivity.
    + pose proof (panel_le (b + 1) 1 ltac:(lia) HN). replace ((1 <=? b * N + (N + 1))%nat && (b * N + (N + 1) <=? k * N)%nat) with true by nia. rewrite Pj. reflexivity.
  - pose proof (panel_le b e Hb ltac:(lia)). replace ((1 <=? e)%nat && (e <=? N)%nat) with true by lia. replace ((1 <=? b * N + e)%nat && (b * N + e <=? k * N)%nat) with true by lia. apply Hin; lia.
Qed.
Lemma new_cut (b : nat) (f f' : nat -> nat -> R) e p : (b < k)%nat -> (forall c p, (c <= N)%nat -> (p < m)%nat -> f c p = f' (b * N + c)%nat p) -> reach e p ->
  to_new_itf ns N f e p = to_new_itf ns (k * N) f' (b * N + e)%nat p.
Proof.
  intros Hb Hf (He & Hp & H0 & H1). unfold to_new_itf. change (itf_size ns) with m.
  replace ((e =? 0)%nat && (p <? m)%nat || (e =? N + 1)%nat && (m <=? p)%nat) with false by (destruct (Nat.eqb_spec e 0); destruct (Nat.eqb_spec e (N + 1)); lia).
  assert ((b + 1) * N <= k * N)%nat by (apply Nat.mul_le_mono_r; lia).
  replace ((b * N + e =? 0)%nat && (p <? m)%nat || (b * N + e =? k * N + 1)%nat && (m <=? p)%nat) with false.
  2:{ symmetry. apply Bool.orb_false_iff. split; apply Bool.andb_false_iff; [destruct (Nat.eq_dec e 0) as [->|]; [right|left]|destruct (Nat.eq_dec e (N + 1)) as [->|]; [right|left]]; nia. }
  destruct (Nat.ltb_spec p m).
  - assert (1 <= e)%nat by (destruct e; [specialize (H0 eq_refl)|]; lia). rewrite Hf by lia. f_equal. lia.
  - rewrite Hf; [reflexivity| |lia]. destruct (Nat.eq_dec e (N + 1)) as [E|]; [specialize (H1 E)|]; lia.
Qed.

Lemma X_lt t d x : tile_ok K t -> (x < n)%nat -> (Z.to_nat (along_tile t d) * n + x < k * N * ns)%nat.
Proof. intros Ht Hx. destruct (RC t Ht) as [H1 H2]. assert (H3 : (Z.to_nat (along_tile t d) < k)%nat) by (unfold along_tile; destruct d; assumption). replace (k * N * ns)%nat with (k * n)%nat by (unfold n; ring). nia. Qed.
Lemma whole_tile t : tile_ok K t -> tile_ok 1 (whole (panel t)).
Proof. intros (Hp & _). unfold whole, tile_ok. cbn [panel row col]. lia. Qed.
Lemma whole_rank p : rank_of_tile 1 (whole p) = p.
Proof. unfold rank_of_tile, whole. cbn [panel row col]. ring. Qed.
(** ** What is received *)
Section Side.
Variables (ei ej ei' ej' : Z -> nat -> nat -> nat -> face) (bound : nat -> Prop) (layer : nat -> Prop).
Hypothesis cut_ei : forall t v l x e p, tile_ok K t -> bound v -> layer l -> (x < N)%nat -> (1 <= e <= N)%nat -> ei (rank_of_tile K t) v l x e p = ei' (panel t) v l (R_ t * N + x)%nat (C_ t * N + e)%nat p.
Hypothesis cut_ej : forall t v l x e p, tile_ok K t -> bound v -> layer l -> (x < N)%nat -> (1 <= e <= N)%nat -> ej (rank_of_tile K t) v l x e p = ej' (panel t) v l (C_ t * N + x)%nat (R_ t * N + e)%nat p.
Definition snt t v d := sent_slab N ns (ei (rank_of_tile K t) v) (ej (rank_of_tile K t) v) d.
Definition snt' c v d := sent_slab (k * N) ns (ei' c v) (ej' c v) d.
Lemma side_at_edge t d v l y z : tile_ok K t -> bound v -> layer l -> at_edge K t d = true -> (y < n)%nat ->
  at_slab ns (snt t v d) l y z = at_slab ns (snt' (panel t) v d) l (Z.to_nat (along_tile t d) * n + y) z.
Proof.
  intros Ht Hv Hl E Hy. assert (Hq : (y / ns < N)%nat) by (apply Nat.div_lt_upper_bound; unfold n in Hy; lia).
  unfold at_slab, snt, snt', sent_slab. change (itf_size ns) with m.
  assert (D : ((Z.to_nat (along_tile t d) * n + y) / ns = Z.to_nat (along_tile t d) * N + y / ns /\ (Z.to_nat (along_tile t d) * n + y) mod ns = y mod ns)%nat).
  { unfold n. replace (Z.to_nat (along_tile t d) * (N * ns) + y)%nat with (y + (Z.to_nat (along_tile t d) * N) * ns)%nat by ring. rewrite Nat.div_add, Nat.mod_add by lia. split; [apply Nat.add_comm|reflexivity]. }
  destruct D as [-> ->]. unfold at_edge in E. pose proof Ht as (Hp & Hr & Hc).
  assert (Hk1 : (Z.to_nat (K - 1) = k - 1)%nat) by (unfold K; lia).
  destruct d; unfold along_tile; [rewrite cut_ej|rewrite cut_ej|rewrite cut_ei|rewrite cut_ei]; try lia; try assumption; f_equal.
  - replace (row t) with 0%Z by lia. reflexivity.
  - replace (row t) with (K - 1)%Z by lia. rewrite Hk1. nia.
  - replace (col t) with 0%Z by lia. reflexivity.
  - replace (col t) with (K - 1)%Z by lia. rewrite Hk1. nia.
Qed.
(** at the edge of a panel *)
Section Edge.
Variables (t : tile) (d : side) (x : nat).
Hypothesis Ht : tile_ok K t.
Hypothesis E : at_edge K t d = true.
Hypothesis Hx : (x < n)%nat.
Let X := (Z.to_nat (along_tile t d) * n + x)%nat.
Let w := whole (panel t).
Lemma back_X : back_index (k * N * ns) (nb_flip 1 w d) X = (Z.to_nat (along_tile (nb K t d) (back_side K t d)) * n + back_index n (nb_flip K t d) x)%nat.
Proof.
  destruct (nb_edge K t d HKp Ht E) as (_ & _ & _ & F & A). rewrite A. unfold w. rewrite <- F. unfold X. rewrite <- Nat.mul_assoc. fold n.
  assert (La : (Z.to_nat (along_tile t d) < k)%nat) by (destruct (RC t Ht); unfold along_tile; destruct d; assumption).
  rewrite <- back_serial by assumption. f_equal. f_equal. destruct (nb_flip K t d); [|reflexivity]. assert (0 <= along_tile t d)%Z by (destruct Ht as (_ & G1 & G2); unfold along_tile; destruct d; lia). clear - H. unfold K. lia.
Qed.
Lemma same_neighbour : rank_of_tile 1 (nb 1 w d) = panel (nb K t d).
Proof. destruct (nb_edge K t d HKp Ht E) as (P & _). rewrite P. fold w. pose proof (nb_ok 1 w d ltac:(lia) (whole_tile t Ht)) as (_ & Q1 & Q2). unfold rank_of_tile. lia. Qed.
Lemma edge_value v l z : bound v -> layer l -> side_val k N ns t d ei ej v l x z = side_val 1 (k * N) ns w d ei' ej' v l X z.
Proof.
  intros Hv Hl. destruct (nb_edge K t d HKp Ht E) as (P & B & E' & F & A). unfold side_val. change (Z.of_nat 1) with 1%Z. fold K. fold w in B. rewrite <- B, same_neighbour. change (N * ns)%nat with n. rewrite back_X.
  apply side_at_edge; try assumption; [apply nb_ok; [exact HKp|exact Ht]|apply back_lt, Hx].
Qed.
End Edge.
Definition halo_any (kk NN : nat) (eii ejj : Z -> nat -> nat -> nat -> face) (r : Z) (v : nat) (d : side) : slab R := halo_q kk NN ns pts eii ejj r v d.
Lemma halo_at_edge t d v l x z : tile_ok K t -> (forall v, v <= 4 -> bound v)%nat -> (v <= 4)%nat -> layer l -> at_edge K t d = true -> (x < n)%nat ->
  at_slab ns (halo_q k N ns pts ei ej (rank_of_tile K t) v d) l x z = at_slab ns (halo_q 1 (k * N) ns pts ei' ej' (panel t) v d) l (Z.to_nat (along_tile t d) * n + x) z.
Proof.
  intros Ht Hb Hv Hl E Hx. pose proof (X_lt t d x Ht Hx) as HX. set (X := (Z.to_nat (along_tile t d) * n + x)%nat) in *.
  pose proof (whole_tile t Ht) as HW. pose proof (fun v Hv => edge_value t d x Ht E Hx v l z (Hb v Hv) Hl) as S. cbv zeta in S. fold X in S.
  assert (V : at_slab ns (halo_vector k N ns pts ei ej (rank_of_tile K t) d) l x z = at_slab ns (halo_vector 1 (k * N) ns pts ei' ej' (panel t) d) l X z).
  { rewrite <- (whole_rank (panel t)) at 1. change 1%Z with (Z.of_nat 1) at 1. rewrite (received_vector 1 (k * N) ns pts (whole (panel t)) d (le_n 1) Hns HW ei' ej' l X z HX).
    unfold K at 1. rewrite (received_vector k N ns pts t d Hk Hns Ht ei ej l x z Hx). cbv zeta. change (Z.of_nat 1) with 1%Z. fold K.
    destruct (nb_edge K t d HKp Ht E) as (P & B & E' & F & A). rewrite E', !S, <- B, <- P by lia.
    pose proof (nb_ok 1 (whole (panel t)) d ltac:(lia) HW) as (_ & Q1 & Q2).
    assert (at_edge 1 (nb 1 (whole (panel t)) d) (back_side K t d) = true) as -> by (unfold at_edge; destruct (back_side K t d); lia).
    change (N * ns)%nat with n. pose proof (back_X t d x Ht E Hx) as Bk. fold X in Bk. rewrite Bk. rewrite (line_serial k N) by assumption.
    replace (Z.to_nat (along_tile (nb 1 (whole (panel t)) d) (back_side K t d))) with 0%nat by (unfold along_tile; destruct (back_side K t d); lia).
    replace (Z.to_nat (along_tile (nb K t d) (back_side K t d)) * N * ns + back_index n (nb_flip K t d) x)%nat with (Z.to_nat (along_tile (nb K t d) (back_side K t d)) * n + back_index n (nb_flip K t d) x)%nat by (unfold n; ring). reflexivity. }
  assert (Sc : forall v, (v <= 4)%nat -> at_slab ns (halo_scalar k N ns ei ej v (rank_of_tile K t) d) l x z = at_slab ns (halo_scalar 1 (k * N) ns ei' ej' v (panel t) d) l X z).
  { intros v' Hv'. unfold halo_scalar. rewrite <- (whole_rank (panel t)) at 1. change 1%Z with (Z.of_nat 1) at 1.
    rewrite (received_scalar 1 (k * N) ns pts (whole (panel t)) d (le_n 1) Hns HW _ _ l X z (fun b f l x z Hx => flip_slab_at (k * N) ns Hns b f l x z Hx) HX).
    unfold K at 1. rewrite (received_scalar k N ns pts t d Hk Hns Ht _ _ l x z (fun b f l x z Hx => flip_slab_at N ns Hns b f l x z Hx) Hx). exact (S v' Hv'). }
  destruct v as [|[|[|[|v]]]]; cbn [halo_q]; try (apply Sc; lia).
  - exact (f_equal (fun c => fst (fst c)) V).
  - exact (f_equal (fun c => snd (fst c)) V).
  - exact (f_equal snd V).
Qed.
Lemma halo_at_inside t d v l x z : tile_ok K t -> at_edge K t d = false -> (x < n)%nat ->
  at_slab ns (halo_q k N ns pts ei ej (rank_of_tile K t) v d) l x z = at_slab ns (snt (nb K t d) v (opposite d)) l x z.
Proof.
  intros Ht E Hx. destruct (nb_inside K t d HKp Ht E) as (B & F & E' & _).
  assert (S : forall v, side_val k N ns t d ei ej v l x z = at_slab ns (snt (nb K t d) v (opposite d)) l x z) by (intro v'; unfold side_val, snt; fold K; rewrite B, F; reflexivity).
  assert (V : at_slab ns (halo_vector k N ns pts ei ej (rank_of_tile K t) d) l x z = (side_val k N ns t d ei ej 1 l x z, side_val k N ns t d ei ej 2 l x z, side_val k N ns t d ei ej 3 l x z)).
  { unfold K. rewrite (received_vector k N ns pts t d Hk Hns Ht ei ej l x z Hx). fold K. rewrite B, E'. reflexivity. }
  assert (Sc : forall v, at_slab ns (halo_scalar k N ns ei ej v (rank_of_tile K t) d) l x z = side_val k N ns t d ei ej v l x z).
  { intro v'. unfold halo_scalar, K. rewrite (received_scalar k N ns pts t d Hk Hns Ht _ _ l x z (fun b f l x z Hx => flip_slab_at N ns Hns b f l x z Hx) Hx). reflexivity. }
  rewrite <- S. destruct v as [|[|[|[|v]]]]; cbn [halo_q]; try apply Sc.
  - exact (f_equal (fun c => fst (fst c)) V).
  - exact (f_equal (fun c => snd (fst c)) V).
  - exact (f_equal snd V).
Qed.
(** the four sides of a tile in the form of [fill_cut] *)
Section Fill.
Variables (t : tile) (v l : nat) (H H' : side -> slab R).
Hypothesis Ht : tile_ok K t.
Hypothesis Hv : bound v.
Hypothesis Hl : layer l.
Hypothesis edge : forall d x z, at_edge K t d = true -> (x < n)%nat -> at_slab ns (H d) l x z = at_slab ns (H' d) l (Z.to_nat (along_tile t d) * n + x) z.
Hypothesis inner : forall d x z, at_edge K t d = false -> (x < n)%nat -> at_slab ns (H d) l x z = at_slab ns (snt (nb K t d) v (opposite d)) l x z.
Lemma slab_at (f : slab R) x z y : (y < ns)%nat -> at_slab ns f l (x * ns + y) z = f l x z y.
Proof. intro Hy. unfold at_slab. destruct (split_pt ns x y Hy) as [-> ->]. reflexivity. Qed.
Lemma slab_cut (f : slab R) a x z y : (y < ns)%nat -> at_slab ns f l (a * n + (x * ns + y)) z = f l (a * N + x)%nat z y.
Proof. intro Hy. unfold n. replace (a * (N * ns) + (x * ns + y))%nat with ((a * N + x) * ns + y)%nat by ring. apply slab_at, Hy. Qed.
Lemma fill_i fill x e p : (x < N)%nat -> reach e p ->
  fill_halo N ns fill (H West) (H East) (ei (rank_of_tile K t) v) l x e p = fill_halo (k * N) ns fill (H' West) (H' East) (ei' (panel t) v) l (R_ t * N + x)%nat (C_ t * N + e)%nat p.
Proof.
  intros Hx He. destruct (RC t Ht) as [HR HC]. apply fill_cut; try assumption.
  - intros. apply cut_ei; assumption.
  - intros x' z y Hx' Hz Hy. rewrite <- (slab_at (H West) x' z y Hy). pose proof (pt_n x' y Hx' Hy) as Hn. pose proof (nb_inside K t West HKp Ht) as NI.
    destruct (at_edge K t West) eqn:E; unfold at_edge in E.
    + replace (C_ t =? 0)%nat with true by lia. rewrite edge by (assumption || exact E). unfold along_tile. apply slab_cut, Hy.
    + specialize (NI eq_refl). destruct NI as (_ & _ & _ & E3). replace (C_ t =? 0)%nat with false by (destruct Ht as (_ & _ & Hc); lia). rewrite inner by (assumption || exact E). rewrite slab_at by exact Hy. unfold snt, sent_slab, opposite. change (itf_size ns) with m.
      rewrite cut_ei; [|apply nb_ok; [exact HKp|exact Ht]|assumption|assumption|assumption|lia]. rewrite E3. cbn [panel row col]. f_equal. destruct Ht as (_ & _ & Hc). nia.
  - intros x' z y Hx' Hz Hy. rewrite <- (slab_at (H East) x' z y Hy). pose proof (pt_n x' y Hx' Hy) as Hn. pose proof (nb_inside K t East HKp Ht) as NI.
    destruct (at_edge K t East) eqn:E; unfold at_edge in E.
    + replace (C_ t =? k - 1)%nat with true by (unfold K in E; lia). rewrite edge by (assumption || exact E). unfold along_tile. apply slab_cut, Hy.
    + specialize (NI eq_refl). destruct NI as (_ & _ & _ & E3). replace (C_ t =? k - 1)%nat with false by (destruct Ht as (_ & _ & Hc); unfold K in *; lia). rewrite inner by (assumption || exact E). rewrite slab_at by exact Hy. unfold snt, sent_slab, opposite.
      rewrite cut_ei; [|apply nb_ok; [exact HKp|exact Ht]|assumption|assumption|assumption|lia]. rewrite E3. cbn [panel row col]. f_equal. destruct Ht as (_ & _ & Hc). nia.
Qed.
Lemma fill_j fill x e p : (x < N)%nat -> reach e p ->
  fill_halo N ns fill (H South) (H North) (ej (rank_of_tile K t) v) l x e p = fill_halo (k * N) ns fill (H' South) (H' North) (ej' (panel t) v) l (C_ t * N + x)%nat (R_ t * N + e)%nat p.
Proof.
  intros Hx He. destruct (RC t Ht) as [HR HC]. apply fill_cut; try assumption.
  - intros. apply cut_ej; assumption.
  - intros x' z y Hx' Hz Hy. rewrite <- (slab_at (H South) x' z y Hy). pose proof (pt_n x' y Hx' Hy) as Hn. pose proof (nb_inside K t South HKp Ht) as NI.
    destruct (at_edge K t South) eqn:E; unfold at_edge in E.
    + replace (R_ t =? 0)%nat with true by lia. rewrite edge by (assumption || exact E). unfold along_tile. apply slab_cut, Hy.
    + specialize (NI eq_refl). destruct NI as (_ & _ & _ & E3). replace (R_ t =? 0)%nat with false by (destruct Ht as (_ & Hc & _); lia). rewrite inner by (assumption || exact E). rewrite slab_at by exact Hy. unfold snt, sent_slab, opposite. change (itf_size ns) with m.
      rewrite cut_ej; [|apply nb_ok; [exact HKp|exact Ht]|assumption|assumption|assumption|lia]. rewrite E3. cbn [panel row col]. f_equal. destruct Ht as (_ & Hc & _). nia.
  - intros x' z y Hx' Hz Hy. rewrite <- (slab_at (H North) x' z y Hy). pose proof (pt_n x' y Hx' Hy) as Hn. pose proof (nb_inside K t North HKp Ht) as NI.
    destruct (at_edge K t North) eqn:E; unfold at_edge in E.
    + replace (R_ t =? k - 1)%nat with true by (unfold K in E; lia). rewrite edge by (assumption || exact E). unfold along_tile. apply slab_cut, Hy.
    + specialize (NI eq_refl). destruct NI as (_ & _ & _ & E3). replace (R_ t =? k - 1)%nat with false by (destruct Ht as (_ & Hc & _); unfold K in *; lia). rewrite inner by (assumption || exact E). rewrite slab_at by exact Hy. unfold snt, sent_slab, opposite.
      rewrite cut_ej; [|apply nb_ok; [exact HKp|exact Ht]|assumption|assumption|assumption|lia]. rewrite E3. cbn [panel row col]. f_equal. destruct Ht as (_ & Hc & _). nia.
Qed.
End Fill.
End Side.

(** ** The layers *)
Section Layers.
Variables (dR_i dR_j dR_k dR_i' dR_j' dR_k' : Z -> nat -> nat -> face).
Hypothesis cut_dR_i : forall t l x e p, tile_ok K t -> (l < NZ)%nat -> (x < N)%nat -> (1 <= e <= N)%nat -> dR_i (rank_of_tile K t) l x e p = dR_i' (panel t) l (R_ t * N + x)%nat (C_ t * N + e)%nat p.
Hypothesis cut_dR_j : forall t l x e p, tile_ok K t -> (l < NZ)%nat -> (x < N)%nat -> (1 <= e <= N)%nat -> dR_j (rank_of_tile K t) l x e p = dR_j' (panel t) l (C_ t * N + x)%nat (R_ t * N + e)%nat p.
Hypothesis cut_dR_k : forall t row col e p, tile_ok K t -> (row < N)%nat -> (col < N)%nat -> (1 <= e <= NZ)%nat -> dR_k (rank_of_tile K t) row col e p = dR_k' (panel t) (R_ t * N + row)%nat (C_ t * N + col)%nat e p.
Let any (v : nat) : Prop := True.
Let inl (l : nat) : Prop := (l < NZ)%nat.
Let di (r : Z) (v : nat) := dR_i r.
Let dj (r : Z) (v : nat) := dR_j r.
Let di' (r : Z) (v : nat) := dR_i' r.
Let dj' (r : Z) (v : nat) := dR_j' r.
Lemma di_cut t v l x e p : tile_ok K t -> any v -> inl l -> (x < N)%nat -> (1 <= e <= N)%nat -> di (rank_of_tile K t) v l x e p = di' (panel t) v l (R_ t * N + x)%nat (C_ t * N + e)%nat p.
Proof. intros Ht _ Hl Hx He. apply cut_dR_i; assumption. Qed.
Lemma dj_cut t v l x e p : tile_ok K t -> any v -> inl l -> (x < N)%nat -> (1 <= e <= N)%nat -> dj (rank_of_tile K t) v l x e p = dj' (panel t) v l (C_ t * N + x)%nat (R_ t * N + e)%nat p.
Proof. intros Ht _ Hl Hx He. apply cut_dR_j; assumption. Qed.
Lemma dR_edge t l d x z : tile_ok K t -> inl l -> at_edge K t d = true -> (x < n)%nat ->
  at_slab ns (halo_dR k N ns dR_i dR_j (rank_of_tile K t) d) l x z = at_slab ns (halo_dR 1 (k * N) ns dR_i' dR_j' (panel t) d) l (Z.to_nat (along_tile t d) * n + x) z.
Proof.
  intros Ht Hl E Hx. pose proof (X_lt t d x Ht Hx) as HX. pose proof (whole_tile t Ht) as HW. unfold halo_dR. rewrite <- (whole_rank (panel t)) at 1. change 1%Z with (Z.of_nat 1) at 1.
  rewrite (received_scalar 1 (k * N) ns pts (whole (panel t)) d (le_n 1) Hns HW _ _ l _ z (fun b f l x z Hx => flip_lines_at' (k * N) ns Hns b f l x z Hx) HX).
  unfold K at 1. rewrite (received_scalar k N ns pts t d Hk Hns Ht _ _ l x z (fun b f l x z Hx => flip_lines_at' N ns Hns b f l x z Hx) Hx).
  exact (edge_value di dj di' dj' any inl di_cut dj_cut t d x Ht E Hx 0%nat l z I Hl).
Qed.
Lemma dR_inner t l d x z : tile_ok K t -> at_edge K t d = false -> (x < n)%nat ->
  at_slab ns (halo_dR k N ns dR_i dR_j (rank_of_tile K t) d) l x z = at_slab ns (snt di dj (nb K t d) 0 (opposite d)) l x z.
Proof.
  intros Ht E Hx. destruct (nb_inside K t d HKp Ht E) as (B & F & E' & _). unfold halo_dR.
  unfold K at 1. rewrite (received_scalar k N ns pts t d Hk Hns Ht _ _ l x z (fun b f l x z Hx => flip_lines_at' N ns Hns b f l x z Hx) Hx).
  unfold snt. fold K. cbv beta. rewrite B, F. reflexivity.
Qed.
Lemma full_dR_i_cut t l x e p : tile_ok K t -> (l < NZ)%nat -> (x < N)%nat -> reach e p ->
  full_dR_i k N ns dR_i dR_j (rank_of_tile K t) l x e p = full_dR_i 1 (k * N) ns dR_i' dR_j' (panel t) l (R_ t * N + x)%nat (C_ t * N + e)%nat p.
Proof.
  intros Ht Hl Hx He. unfold full_dR_i.
  exact (fill_i di dj di' dj' any inl di_cut dj_cut t 0 l (halo_dR k N ns dR_i dR_j (rank_of_tile K t)) (halo_dR 1 (k * N) ns dR_i' dR_j' (panel t)) Ht I Hl
    (fun d x z E Hx => dR_edge t l d x z Ht Hl E Hx) (fun d x z E Hx => dR_inner t l d x z Ht E Hx) 0 x e p Hx He).
Qed.
Lemma full_dR_j_cut t l x e p : tile_ok K t -> (l < NZ)%nat -> (x < N)%nat -> reach e p ->
  full_dR_j k N ns dR_i dR_j (rank_of_tile K t) l x e p = full_dR_j 1 (k * N) ns dR_i' dR_j' (panel t) l (C_ t * N + x)%nat (R_ t * N + e)%nat p.
Proof.
  intros Ht Hl Hx He. unfold full_dR_j.
  exact (fill_j di dj di' dj' any inl di_cut dj_cut t 0 l (halo_dR k N ns dR_i dR_j (rank_of_tile K t)) (halo_dR 1 (k * N) ns dR_i' dR_j' (panel t)) Ht I Hl
    (fun d x z E Hx => dR_edge t l d x z Ht Hl E Hx) (fun d x z E Hx => dR_inner t l d x z Ht E Hx) 0 x e p Hx He).
Qed.
Lemma reach_lo b p : (b <= N)%nat -> (p < m)%nat -> reach b (m + p).
Proof. unfold reach. lia. Qed.
Lemma reach_hi b p : (b <= N)%nat -> (p < m)%nat -> reach (S b) p.
Proof. unfold reach. lia. Qed.
Lemma dRdeta_i_cut t l x b p : tile_ok K t -> (l < NZ)%nat -> (x < N)%nat -> (b <= N)%nat -> (p < m)%nat ->
  dRdeta_itf_i k N ns dR_i dR_j (rank_of_tile K t) l x b p = dRdeta_itf_i 1 (k * N) ns dR_i' dR_j' (panel t) l (R_ t * N + x)%nat (C_ t * N + b)%nat p.
Proof. intros Ht Hl Hx Hb Hp. unfold dRdeta_itf_i. change (itf_size ns) with m. rewrite (full_dR_i_cut t l x b (m + p)%nat Ht Hl Hx (reach_lo b p Hb Hp)), (full_dR_i_cut t l x (S b) p Ht Hl Hx (reach_hi b p Hb Hp)). rewrite Nat.add_succ_r. reflexivity. Qed.
Lemma dRdeta_j_cut t l x b p : tile_ok K t -> (l < NZ)%nat -> (x < N)%nat -> (b <= N)%nat -> (p < m)%nat ->
  dRdeta_itf_j k N ns dR_i dR_j (rank_of_tile K t) l x b p = dRdeta_itf_j 1 (k * N) ns dR_i' dR_j' (panel t) l (C_ t * N + x)%nat (R_ t * N + b)%nat p.
Proof. intros Ht Hl Hx Hb Hp. unfold dRdeta_itf_j. change (itf_size ns) with m. rewrite (full_dR_j_cut t l x b (m + p)%nat Ht Hl Hx (reach_lo b p Hb Hp)), (full_dR_j_cut t l x (S b) p Ht Hl Hx (reach_hi b p Hb Hp)). rewrite Nat.add_succ_r. reflexivity. Qed.
Lemma dRdeta_k_cut t row col b p : tile_ok K t -> (row < N)%nat -> (col < N)%nat -> (1 <= NZ)%nat -> (b <= NZ)%nat ->
  dRdeta_itf_k NZ ns dR_k (rank_of_tile K t) row col b p = dRdeta_itf_k NZ ns dR_k' (panel t) (R_ t * N + row)%nat (C_ t * N + col)%nat b p.
Proof.
  intros Ht Hr Hc Hz Hb. unfold dRdeta_itf_k. destruct (Nat.eqb_spec b 0); [apply cut_dR_k; (assumption || lia)|]. destruct (Nat.eqb_spec b NZ); [apply cut_dR_k; (assumption || lia)|].
  rewrite !cut_dR_k by (assumption || lia). reflexivity.
Qed.

(** heights and slopes *)
Hypothesis cut_i_geo : forall f, (f = z_i \/ f = s1_i \/ f = s2_i) -> forall t l x b p, tile_ok K t -> (l < NZ)%nat -> (x < N)%nat -> (b <= N)%nat -> (p < m)%nat -> f geo (rank_of_tile K t) l x b p = f geo' (panel t) l (R_ t * N + x)%nat (C_ t * N + b)%nat p.
Hypothesis cut_j_geo : forall f, (f = z_j \/ f = s1_j \/ f = s2_j) -> forall t l x b p, tile_ok K t -> (l < NZ)%nat -> (x < N)%nat -> (b <= N)%nat -> (p < m)%nat -> f geo (rank_of_tile K t) l x b p = f geo' (panel t) l (C_ t * N + x)%nat (R_ t * N + b)%nat p.
Hypothesis cut_k_geo : forall f, (f = z_k \/ f = s1_k \/ f = s2_k) -> forall t row col b p, tile_ok K t -> (row < N)%nat -> (col < N)%nat -> (b <= NZ)%nat -> (p < m)%nat -> f geo (rank_of_tile K t) row col b p = f geo' (panel t) (R_ t * N + row)%nat (C_ t * N + col)%nat b p.
Hypothesis HZ : (1 <= NZ)%nat.
Lemma my_place t : tile_ok K t -> my_row k (rank_of_tile K t) = R_ t /\ my_col k (rank_of_tile K t) = C_ t /\ my_row 1 (panel t) = 0%nat /\ my_col 1 (panel t) = 0%nat.
Proof. intro Ht. destruct (rows_at k t Hk Ht) as [E1 E2]. destruct (rows_at 1 (whole (panel t)) (le_n 1) (whole_tile t Ht)) as [E3 E4]. change (Z.of_nat 1) with 1%Z in E3, E4. rewrite whole_rank in E3, E4. auto. Qed.
Lemma line_cut c x y : line k N ns pts c (x * ns + y) = line 1 (k * N) ns pts 0 ((c * N + x) * ns + y).
Proof. rewrite (line_serial k N) by assumption. f_equal. ring. Qed.
Lemma sG_i_cut t l x e p : tile_ok K t -> (l < NZ)%nat -> (x < N)%nat -> reach e p ->
  sqrtG_i k N ns pts earth deta deep geo dR_i dR_j (rank_of_tile K t) l x e p = sqrtG_i 1 (k * N) ns pts earth deta deep geo' dR_i' dR_j' (panel t) l (R_ t * N + x)%nat (C_ t * N + e)%nat p.
Proof.
  intros Ht Hl Hx He. destruct (RC t Ht) as [HR HC]. destruct (my_place t Ht) as (M1 & M2 & M3 & M4). apply new_cut; try assumption. intros c p' Hc Hp'.
  unfold X_i, Y_i. rewrite M1, M2, M3, M4, dRdeta_i_cut, (cut_i_geo z_i), line_cut, (itf_serial k N), (dx_serial k N) by auto. reflexivity.
Qed.
Lemma h_i_cut t l x a c e p : tile_ok K t -> (l < NZ)%nat -> (x < N)%nat -> reach e p ->
  h_i k N ns pts earth deta deep geo dR_i dR_j (rank_of_tile K t) l x a c e p = h_i 1 (k * N) ns pts earth deta deep geo' dR_i' dR_j' (panel t) l (R_ t * N + x)%nat a c (C_ t * N + e)%nat p.
Proof.
  intros Ht Hl Hx He. destruct (RC t Ht) as [HR HC]. destruct (my_place t Ht) as (M1 & M2 & M3 & M4). apply new_cut; try assumption. intros b p' Hb Hp'.
  unfold X_i, Y_i. rewrite M1, M2, M3, M4, dRdeta_i_cut, (cut_i_geo z_i), (cut_i_geo s1_i), (cut_i_geo s2_i), line_cut, (itf_serial k N), (dx_serial k N) by auto. reflexivity.
Qed.
Lemma sG_j_cut t l x e p : tile_ok K t -> (l < NZ)%nat -> (x < N)%nat -> reach e p ->
  sqrtG_j k N ns pts earth deta deep geo dR_i dR_j (rank_of_tile K t) l x e p = sqrtG_j 1 (k * N) ns pts earth deta deep geo' dR_i' dR_j' (panel t) l (C_ t * N + x)%nat (R_ t * N + e)%nat p.
Proof.
  intros Ht Hl Hx He. destruct (RC t Ht) as [HR HC]. destruct (my_place t Ht) as (M1 & M2 & M3 & M4). apply new_cut; try assumption. intros c p' Hc Hp'.
  unfold X_j, Y_j. rewrite M1, M2, M3, M4, dRdeta_j_cut, (cut_j_geo z_j), line_cut, (itf_serial k N), (dx_serial k N) by auto. reflexivity.
Qed.
Lemma h_j_cut t l x a c e p : tile_ok K t -> (l < NZ)%nat -> (x < N)%nat -> reach e p ->
  h_j k N ns pts earth deta deep geo dR_i dR_j (rank_of_tile K t) l x a c e p = h_j 1 (k * N) ns pts earth deta deep geo' dR_i' dR_j' (panel t) l (C_ t * N + x)%nat a c (R_ t * N + e)%nat p.
Proof.
  intros Ht Hl Hx He. destruct (RC t Ht) as [HR HC]. destruct (my_place t Ht) as (M1 & M2 & M3 & M4). apply new_cut; try assumption. intros b p' Hb Hp'.
  unfold X_j, Y_j. rewrite M1, M2, M3, M4, dRdeta_j_cut, (cut_j_geo z_j), (cut_j_geo s1_j), (cut_j_geo s2_j), line_cut, (itf_serial k N), (dx_serial k N) by auto. reflexivity.
Qed.
(** in a column *)
Definition reach_k (e p : nat) : Prop := meets (NZ + 2) m e p.
Lemma new_same (f f' : nat -> nat -> R) e p : (forall c p, (c <= NZ)%nat -> (p < m)%nat -> f c p = f' c p) -> reach_k e p -> to_new_itf ns NZ f e p = to_new_itf ns NZ f' e p.
Proof.
  intros Hf (He & Hp & H0 & H1). unfold to_new_itf. change (itf_size ns) with m. destruct ((e =? 0)%nat && (p <? m)%nat || (e =? NZ + 1)%nat && (m <=? p)%nat); [reflexivity|].
  destruct (Nat.ltb_spec p m); apply Hf; lia.
Qed.
Lemma sG_k_cut t row col e p : tile_ok K t -> (row < N)%nat -> (col < N)%nat -> reach_k e p ->
  sqrtG_k k N NZ ns pts earth deta deep geo dR_k (rank_of_tile K t) row col e p = sqrtG_k 1 (k * N) NZ ns pts earth deta deep geo' dR_k' (panel t) (R_ t * N + row)%nat (C_ t * N + col)%nat e p.
Proof.
  intros Ht Hr Hc He. destruct (my_place t Ht) as (M1 & M2 & M3 & M4). apply new_same; [|exact He]. intros b p' Hb Hp'.
  unfold X_k, Y_k. rewrite M1, M2, M3, M4, dRdeta_k_cut, (cut_k_geo z_k), !line_cut, (dx_serial k N) by auto. reflexivity.
Qed.
Lemma h_k_cut t row col a c e p : tile_ok K t -> (row < N)%nat -> (col < N)%nat -> reach_k e p ->
  h_k k N NZ ns pts earth deta deep geo dR_k (rank_of_tile K t) row col a c e p = h_k 1 (k * N) NZ ns pts earth deta deep geo' dR_k' (panel t) (R_ t * N + row)%nat (C_ t * N + col)%nat a c e p.
Proof.
  intros Ht Hr Hc He. destruct (my_place t Ht) as (M1 & M2 & M3 & M4). apply new_same; [|exact He]. intros b p' Hb Hp'.
  unfold X_k, Y_k. rewrite M1, M2, M3, M4, dRdeta_k_cut, (cut_k_geo z_k), (cut_k_geo s1_k), (cut_k_geo s2_k), !line_cut, (dx_serial k N) by auto. reflexivity.
Qed.

(** ** Fluxes *)
Variables (adv : bool) (ext_i ext_j ext_k ext_i' ext_j' ext_k' : Z -> nat -> nat -> nat -> face).
Hypothesis cut_ext_i : forall t v l x e p, tile_ok K t -> (v <= 4)%nat -> (l < NZ)%nat -> (x < N)%nat -> (1 <= e <= N)%nat -> ext_i (rank_of_tile K t) v l x e p = ext_i' (panel t) v l (R_ t * N + x)%nat (C_ t * N + e)%nat p.
Hypothesis cut_ext_j : forall t v l x e p, tile_ok K t -> (v <= 4)%nat -> (l < NZ)%nat -> (x < N)%nat -> (1 <= e <= N)%nat -> ext_j (rank_of_tile K t) v l x e p = ext_j' (panel t) v l (C_ t * N + x)%nat (R_ t * N + e)%nat p.
Hypothesis cut_ext_k : forall t v row col e p, tile_ok K t -> (v <= 4)%nat -> (row < N)%nat -> (col < N)%nat -> (1 <= e <= NZ)%nat -> ext_k (rank_of_tile K t) v row col e p = ext_k' (panel t) v (R_ t * N + row)%nat (C_ t * N + col)%nat e p.
Let five (v : nat) : Prop := (v <= 4)%nat.
Lemma full_i_cut t v l x e p : tile_ok K t -> (v <= 4)%nat -> (l < NZ)%nat -> (x < N)%nat -> reach e p ->
  full_i k N ns pts ext_i ext_j (rank_of_tile K t) v l x e p = full_i 1 (k * N) ns pts ext_i' ext_j' (panel t) v l (R_ t * N + x)%nat (C_ t * N + e)%nat p.
Proof.
  intros Ht Hv Hl Hx He. unfold full_i.
  exact (fill_i ext_i ext_j ext_i' ext_j' five inl cut_ext_i cut_ext_j t v l (halo_q k N ns pts ext_i ext_j (rank_of_tile K t) v) (halo_q 1 (k * N) ns pts ext_i' ext_j' (panel t) v) Ht Hv Hl
    (fun d x z E Hx => halo_at_edge ext_i ext_j ext_i' ext_j' five inl cut_ext_i cut_ext_j t d v l x z Ht (fun v H => H) Hv Hl E Hx) (fun d x z E Hx => halo_at_inside ext_i ext_j t d v l x z Ht E Hx) 1 x e p Hx He).
Qed.
Lemma full_j_cut t v l x e p : tile_ok K t -> (v <= 4)%nat -> (l < NZ)%nat -> (x < N)%nat -> reach e p ->
  full_j k N ns pts ext_i ext_j (rank_of_tile K t) v l x e p = full_j 1 (k * N) ns pts ext_i' ext_j' (panel t) v l (C_ t * N + x)%nat (R_ t * N + e)%nat p.
Proof.
  intros Ht Hv Hl Hx He. unfold full_j.
  exact (fill_j ext_i ext_j ext_i' ext_j' five inl cut_ext_i cut_ext_j t v l (halo_q k N ns pts ext_i ext_j (rank_of_tile K t) v) (halo_q 1 (k * N) ns pts ext_i' ext_j' (panel t) v) Ht Hv Hl
    (fun d x z E Hx => halo_at_edge ext_i ext_j ext_i' ext_j' five inl cut_ext_i cut_ext_j t d v l x z Ht (fun v H => H) Hv Hl E Hx) (fun d x z E Hx => halo_at_inside ext_i ext_j t d v l x z Ht E Hx) 1 x e p Hx He).
Qed.
Lemma full_k_cut t v row col e p : tile_ok K t -> (v <= 4)%nat -> (row < N)%nat -> (col < N)%nat ->
  full_k NZ ns ext_k (rank_of_tile K t) row col v e p = full_k NZ ns ext_k' (panel t) (R_ t * N + row)%nat (C_ t * N + col)%nat v e p.
Proof.
  intros Ht Hv Hr Hc. unfold full_k, column_states. cbv zeta.
  assert (Mid : forall e p, put (range 1 (NZ + 2 - 1), range 0 (2 * itf_size ns)) (fun i j => ext_k (rank_of_tile K t) v row col (S i) j) (fun _ _ => 1) e p =
    put (range 1 (NZ + 2 - 1), range 0 (2 * itf_size ns)) (fun i j => ext_k' (panel t) v (R_ t * N + row)%nat (C_ t * N + col)%nat (S i) j) (fun _ _ => 1) e p).
  { intros e' p'. unfold put. cbn [fst snd]. destruct (inside (range 1 (NZ + 2 - 1)) e') eqn:Ee; [|reflexivity]. destruct (inside (range 0 (2 * itf_size ns)) p'); [|reflexivity]. cbn [andb].
    unfold inside, range in Ee. cbn [sl_start sl_stop sl_step] in Ee. apply andb_prop in Ee. destruct Ee as [Ee _]. apply cut_ext_k; try assumption. unfold position, range. cbn [sl_start sl_step]. rewrite Nat.div_1_r. lia. }
  let rec go := first [apply Mid | apply put_same; [intros ? ?; go | intros ? ?; unfold get; go]] in go.
Qed.
Lemma reach_meets e p : meets (N + 2) m e p -> reach e p.
Proof. intros (He & Hp & H0 & H1). unfold reach. lia. Qed.
Lemma itf_i_cut t l x e p : tile_ok K t -> (l < NZ)%nat -> (x < N)%nat -> (1 <= e <= N)%nat -> (p < 2 * m)%nat ->
  let f := itf_i k N ns pts earth deta deep geo dR_i dR_j adv ext_i ext_j (rank_of_tile K t) l x in let f' := itf_i 1 (k * N) ns pts earth deta deep geo' dR_i' dR_j' adv ext_i' ext_j' (panel t) l (R_ t * N + x)%nat in
  (forall v, (v <= 4)%nat -> fst (fst f) v e p = fst (fst f') v (C_ t * N + e)%nat p) /\ snd (fst f) e p = snd (fst f') (C_ t * N + e)%nat p /\ snd f e p = snd f' (C_ t * N + e)%nat p.
Proof.
  intros Ht Hl Hx He Hp. cbv zeta. destruct (RC t Ht) as [HR HC]. pose proof (panel_le (C_ t) N HC (le_n N)). unfold itf_i. change (itf_size ns) with m.
  apply (local (N + 2) (k * N + 2) m (C_ t * N)); try lia; intros; try apply full_i_cut; try apply sG_i_cut; try apply h_i_cut; try assumption; try (apply reach_meets; assumption).
  - rewrite !full_i_cut by (assumption || lia || (apply reach_meets; assumption)). reflexivity.
  - rewrite full_i_cut by (assumption || lia || (apply reach_meets; assumption)). reflexivity.
Qed.
Lemma itf_j_cut t l x e p : tile_ok K t -> (l < NZ)%nat -> (x < N)%nat -> (1 <= e <= N)%nat -> (p < 2 * m)%nat ->
  let f := itf_j k N ns pts earth deta deep geo dR_i dR_j adv ext_i ext_j (rank_of_tile K t) l x in let f' := itf_j 1 (k * N) ns pts earth deta deep geo' dR_i' dR_j' adv ext_i' ext_j' (panel t) l (C_ t * N + x)%nat in
  (forall v, (v <= 4)%nat -> fst (fst f) v e p = fst (fst f') v (R_ t * N + e)%nat p) /\ snd (fst f) e p = snd (fst f') (R_ t * N + e)%nat p /\ snd f e p = snd f' (R_ t * N + e)%nat p.
Proof.
  intros Ht Hl Hx He Hp. cbv zeta. destruct (RC t Ht) as [HR HC]. pose proof (panel_le (R_ t) N HR (le_n N)). unfold itf_j. change (itf_size ns) with m.
  apply (local (N + 2) (k * N + 2) m (R_ t * N)); try lia; intros; try apply full_j_cut; try apply sG_j_cut; try apply h_j_cut; try assumption; try (apply reach_meets; assumption).
  - rewrite !full_j_cut by (assumption || lia || (apply reach_meets; assumption)). reflexivity.
  - rewrite full_j_cut by (assumption || lia || (apply reach_meets; assumption)). reflexivity.
Qed.
Lemma velocity_k_cut t row col e p : tile_ok K t -> (row < N)%nat -> (col < N)%nat ->
  column_velocity (NZ + 2) m (full_k NZ ns ext_k (rank_of_tile K t) row col) e p = column_velocity (NZ + 2) m (full_k NZ ns ext_k' (panel t) (R_ t * N + row)%nat (C_ t * N + col)%nat) e p.
Proof.
  intros Ht Hr Hc. unfold column_velocity. cbv zeta.
  assert (W : forall e p, full_k NZ ns ext_k (rank_of_tile K t) row col 3 e p / full_k NZ ns ext_k (rank_of_tile K t) row col 0 e p =
    full_k NZ ns ext_k' (panel t) (R_ t * N + row)%nat (C_ t * N + col)%nat 3 e p / full_k NZ ns ext_k' (panel t) (R_ t * N + row)%nat (C_ t * N + col)%nat 0 e p) by (intros; rewrite !(full_k_cut t) by (assumption || lia); reflexivity).
  let rec go := first [apply W | reflexivity | apply put_same; [intros ? ?; go | intros ? ?; unfold get; go] | apply (f_equal Ropp); go] in go.
Qed.
Lemma itf_k_cut t row col e p : tile_ok K t -> (row < N)%nat -> (col < N)%nat -> (1 <= e <= NZ)%nat -> (p < 2 * m)%nat ->
  let f := itf_k k N NZ ns pts earth deta deep geo dR_k adv ext_k (rank_of_tile K t) row col in let f' := itf_k 1 (k * N) NZ ns pts earth deta deep geo' dR_k' adv ext_k' (panel t) (R_ t * N + row)%nat (C_ t * N + col)%nat in
  (forall v, (v <= 4)%nat -> fst (fst f) v e p = fst (fst f') v e p) /\ snd (fst f) e p = snd (fst f') e p /\ snd f e p = snd f' e p.
Proof.
  intros Ht Hr Hc He Hp. cbv zeta. unfold itf_k. change (itf_size ns) with m.
  apply (local (NZ + 2) (NZ + 2) m 0); try lia; intros; cbn [Nat.add]; try apply full_k_cut; try apply sG_k_cut; try apply h_k_cut; try apply velocity_k_cut; try assumption.
  rewrite full_k_cut by (assumption || lia). reflexivity.
Qed.

(** ** At the points *)
Hypothesis cut_pt_geo : forall f, (f = z_pt \/ f = s1_pt \/ f = s2_pt \/ f = dRdeta_pt) -> forall t l row col p, tile_ok K t -> (l < NZ)%nat -> (row < N)%nat -> (col < N)%nat -> (p < ns ^ 3)%nat -> f geo (rank_of_tile K t) l row col p = f geo' (panel t) l (R_ t * N + row)%nat (C_ t * N + col)%nat p.
Lemma sG_pt_cut t l row col p : tile_ok K t -> (l < NZ)%nat -> (row < N)%nat -> (col < N)%nat -> (p < ns ^ 3)%nat ->
  sqrtG_pt3 k N ns pts earth deta deep geo (rank_of_tile K t) l row col p = sqrtG_pt3 1 (k * N) ns pts earth deta deep geo' (panel t) l (R_ t * N + row)%nat (C_ t * N + col)%nat p.
Proof.
  intros Ht Hl Hr Hc Hp. destruct (my_place t Ht) as (M1 & M2 & M3 & M4). unfold sqrtG_pt3, X_pt3, Y_pt3. rewrite M1, M2, M3, M4, (cut_pt_geo z_pt), (cut_pt_geo dRdeta_pt), !line_cut, (dx_serial k N) by auto. reflexivity.
Qed.
Lemma h_pt_cut t l row col p a c : tile_ok K t -> (l < NZ)%nat -> (row < N)%nat -> (col < N)%nat -> (p < ns ^ 3)%nat ->
  h_pt3 k N ns pts earth deta deep geo (rank_of_tile K t) l row col p a c = h_pt3 1 (k * N) ns pts earth deta deep geo' (panel t) l (R_ t * N + row)%nat (C_ t * N + col)%nat p a c.
Proof.
  intros Ht Hl Hr Hc Hp. destruct (my_place t Ht) as (M1 & M2 & M3 & M4). unfold h_pt3, X_pt3, Y_pt3. rewrite M1, M2, M3, M4, (cut_pt_geo z_pt), (cut_pt_geo s1_pt), (cut_pt_geo s2_pt), (cut_pt_geo dRdeta_pt), !line_cut, (dx_serial k N) by auto. reflexivity.
Qed.
Lemma inv_cut t l row col p : tile_ok K t -> (l < NZ)%nat -> (row < N)%nat -> (col < N)%nat -> (p < ns ^ 3)%nat ->
  inv_dzdeta deta geo (rank_of_tile K t) l row col p = inv_dzdeta deta geo' (panel t) l (R_ t * N + row)%nat (C_ t * N + col)%nat p.
Proof. intros Ht Hl Hr Hc Hp. unfold inv_dzdeta. rewrite (cut_pt_geo dRdeta_pt) by auto. reflexivity. Qed.
End Layers.
End Cut.
