(** An atmosphere at rest under one pressure: fluxes at the faces of the elements. *)
From Coq Require Import Reals ZArith Arith List Bool Lia Lra ZifyBool.
From Verif Require Import TopologyModel TopologySpec TopologyProofs ExchangeProofs GeoModel FluxModel FluxProofs FluxFaces SwModel SwSpec SwEdges SwRest EulModel EulSpec EulEdges EulParallel EulCutSpec.
Import ListNotations.
Local Open Scope R_scope.

(** ** One line of elements *)
Section Line.
Variables (n m d : nat) (adv : bool) (vel pres sG : face) (q : nat -> face) (h : nat -> nat -> face) (f : nat -> face) (wa wp : face) (T P : R).
Hypothesis HP : P <> 0.
Hypothesis Hvel : forall e p, meets n m e p -> vel e p = 0.
Hypothesis Hpres : forall e p, meets n m e p -> pres e p = P.
Hypothesis HsG : forall e p, (S e < n)%nat -> (p < m)%nat -> sG e (m + p)%nat = sG (S e) p.
Hypothesis Hh : forall a c e p, (S e < n)%nat -> (p < m)%nat -> h a c e (m + p)%nat = h a c (S e) p.
Hypothesis Hq : forall v e p, (1 <= v <= 3)%nat -> meets n m e p -> q v e p = 0.
Hypothesis HT : forall e p, meets n m e p -> q 4%nat e p = T.
Notation res := (rusanov_3d_new n m d adv vel q pres sG h f wa wp).
Definition rest_flux (v e p : nat) : R := match v with 1%nat => sG e p * h d 0%nat e p * P | 2%nat => sG e p * h d 1%nat e p * P | 3%nat => sG e p * h d 2%nat e p * P | _ => 0 end.
Lemma rest_lo e p : (S e < n)%nat -> (p < m)%nat ->
  (forall v, (1 <= v <= 4)%nat -> fst (fst res) v e (m + p)%nat = rest_flux v e (m + p)) /\ (q 0%nat e (m + p)%nat = q 0%nat (S e) p -> fst (fst res) 0%nat e (m + p)%nat = 0) /\
  snd (fst res) e (m + p)%nat = 0 /\ snd res e (m + p)%nat = sG e (m + p)%nat * h d 2%nat e (m + p)%nat /\ snd res (S e) p = sG (S e) p * h d 2%nat (S e) p.
Proof.
  intros He Hp. assert (M1 : meets n m e (m + p)) by (unfold meets; lia). assert (M2 : meets n m (S e) p) by (unfold meets; lia).
  split; [|split; [|split; [|split]]].
  - intros v Hv. rewrite sphere_value by assumption. unfold side_flux, side_adv, side_pres, rest_flux.
    destruct v as [|[|[|[|[|v]]]]]; try lia; rewrite ?get_low, ?get_high, !Hvel by assumption; rewrite ?Hpres by assumption; rewrite <- ?HsG, <- ?Hh by assumption; rewrite ?Hq by (assumption || lia); rewrite ?HT by assumption; field.
  - intros E. rewrite sphere_value by assumption. unfold side_flux, side_adv. rewrite ?get_low, ?get_high, !Hvel, <- E by assumption. field.
  - unfold rusanov_3d_new. cbv zeta. cbn [fst snd]. rewrite !put_lo_hi, !put_hi by assumption. unfold side_adv. rewrite !get_low, !get_high, !Hvel by assumption. rewrite !Hq by (assumption || lia). field.
  - unfold rusanov_3d_new. cbv zeta. cbn [fst snd]. rewrite !put_lo_hi, !put_hi by assumption. unfold side_pres. rewrite !get_low, !get_high, !Hpres by assumption. rewrite <- HsG, <- Hh by assumption. field. exact HP.
  - unfold rusanov_3d_new. cbv zeta. cbn [fst snd]. rewrite !put_lo_lo by assumption. unfold side_pres. rewrite !get_low, !get_high, !Hpres by assumption. rewrite HsG, Hh by assumption. field. exact HP.
Qed.
Lemma rest_line e p : (1 <= e <= n - 2)%nat -> (p < 2 * m)%nat ->
  (forall v, (1 <= v <= 4)%nat -> fst (fst res) v e p = rest_flux v e p) /\
  ((forall e p, (S e < n)%nat -> (p < m)%nat -> q 0%nat e (m + p)%nat = q 0%nat (S e) p) -> fst (fst res) 0%nat e p = 0) /\
  snd (fst res) e p = 0 /\ snd res e p = sG e p * h d 2%nat e p.
Proof.
  intros He Hp. destruct (Nat.lt_ge_cases p m) as [Hl|Hg].
  - destruct e as [|e]; [lia|]. destruct (rest_lo e p ltac:(lia) Hl) as (L1 & L0 & L2 & _ & L4). split; [|split; [|split; [|exact L4]]].
    + intros v Hv. rewrite <- (sphere_single n m d adv vel q pres sG h f wa wp v e p) by lia. rewrite (L1 v Hv). unfold rest_flux. rewrite HsG, !Hh by lia. reflexivity.
    + intro E. rewrite <- (sphere_single n m d adv vel q pres sG h f wa wp 0%nat e p) by lia. apply L0, E; lia.
    + rewrite <- (sphere_adv_single n m d adv vel q pres sG h f wa wp e p) by lia. exact L2.
  - replace p with (m + (p - m))%nat by lia. destruct (rest_lo e (p - m)%nat ltac:(lia) ltac:(lia)) as (L1 & L0 & L2 & L3 & _). split; [exact L1|split; [|split; assumption]]. intro E. apply L0, E; lia.
Qed.
End Line.

(** ** The tiles *)
Lemma zero_slab {A} (ns : nat) (f : slab A) l x z y : (1 <= ns)%nat -> (y < ns)%nat -> f l x z y = at_slab ns f l (x * ns + y) z.
Proof. intros H Hy. unfold at_slab. destruct (split_pt ns x y Hy) as [-> ->]. reflexivity. Qed.
Section Tiles.
Variables (k N NZ ns : nat) (pts : nat -> R) (earth deta : R) (deep : bool) (geo : layers) (dR_i dR_j dR_k : Z -> nat -> nat -> face) (adv : bool) (ext_i ext_j ext_k : Z -> nat -> nat -> nat -> face) (T : R).
Hypothesis Hk : (1 <= k)%nat.
Hypothesis HN : (1 <= N)%nat.
Hypothesis HZ : (1 <= NZ)%nat.
Hypothesis Hns : (1 <= ns)%nat.
Let K := Z.of_nat k.
Let m := (ns * ns)%nat.
Let P := pressure_itf T.
(** value of a variable: none but rho_theta and rho is present *)
Definition still_value (v : nat) : R := if (v =? 4)%nat then T else 0.
Hypothesis rest_i : forall r v l x e p, is_rank k r -> (1 <= v <= 4)%nat -> (l < NZ)%nat -> (x < N)%nat -> (1 <= e <= N)%nat -> (p < 2 * m)%nat -> ext_i r v l x e p = still_value v.
Hypothesis rest_j : forall r v l x e p, is_rank k r -> (1 <= v <= 4)%nat -> (l < NZ)%nat -> (x < N)%nat -> (1 <= e <= N)%nat -> (p < 2 * m)%nat -> ext_j r v l x e p = still_value v.
Hypothesis rest_k : forall r v x y e p, is_rank k r -> (1 <= v <= 4)%nat -> (x < N)%nat -> (y < N)%nat -> (1 <= e <= NZ)%nat -> (p < 2 * m)%nat -> ext_k r v x y e p = still_value v.
Lemma rest_K : (1 <= K)%Z. Proof. unfold K. lia. Qed.
Lemma rest_rank t : tile_ok K t -> is_rank k (rank_of_tile K t).
Proof. unfold is_rank, tile_ok, rank_of_tile. fold K. pose proof rest_K. nia. Qed.
Lemma sent_rest r v d l x z y : is_rank k r -> (1 <= v <= 4)%nat -> (l < NZ)%nat -> (x < N)%nat -> (z < ns)%nat -> (y < ns)%nat -> sent_slab N ns (ext_i r v) (ext_j r v) d l x z y = still_value v.
Proof.
  intros Hr Hv Hl Hx Hz Hy. assert (z * ns + y < m)%nat by (unfold m; nia). assert (itf_size ns = m) by reflexivity.
  unfold sent_slab. destruct d; first [apply rest_i|apply rest_j]; try assumption; lia.
Qed.
Lemma halo_still t v d l x z y : tile_ok K t -> (1 <= v <= 4)%nat -> (l < NZ)%nat -> (x < N)%nat -> (z < ns)%nat -> (y < ns)%nat -> halo_q k N ns pts ext_i ext_j (rank_of_tile K t) v d l x z y = still_value v.
Proof.
  intros Ht Hv Hl Hx Hz Hy. pose proof rest_K as HK. pose proof (nb_ok K t d HK Ht) as Hs.
  assert (Hxx : (x * ns + y < N * ns)%nat) by nia. pose proof (back_lt (N * ns) (nb_flip K t d) _ Hxx) as Hb.
  assert (D : (forall b, b < N * ns -> b / ns < N /\ b mod ns < ns)%nat).
  { intros b Hb'. split; [apply Nat.div_lt_upper_bound; nia|apply Nat.mod_upper_bound; lia]. }
  assert (S_ : forall w, (1 <= w <= 4)%nat -> at_slab ns (sent_slab N ns (ext_i (rank_of_tile K (nb K t d)) w) (ext_j (rank_of_tile K (nb K t d)) w) (back_side K t d)) l (back_index (N * ns) (nb_flip K t d) (x * ns + y)) z = still_value w).
  { intros w Hw. unfold at_slab. destruct (D _ Hb). apply sent_rest; try assumption. apply rest_rank, Hs. }
  assert (V : at_slab ns (halo_vector k N ns pts ext_i ext_j (rank_of_tile K t) d) l (x * ns + y) z = (0, 0, 0)).
  { unfold K. rewrite received_vector by assumption. cbv zeta. unfold side_val. fold K. rewrite !S_ by lia. unfold still_value. cbn [Nat.eqb].
    destruct Hs as (Hp & _). assert (Z : forall y, (if at_edge K (nb K t d) (back_side K t d) then lookup2 convert_contras (panel (nb K t d)) (back_side K t d) convert_default else convert_default) 0 0 y = (0, 0)).
    { intro y'. destruct (at_edge _ _ _); [apply convert_zero, Hp|reflexivity]. } rewrite Z. reflexivity. }
  assert (Es : halo_scalar k N ns ext_i ext_j v (rank_of_tile K t) d l x z y = still_value v).
  { rewrite (zero_slab ns) by assumption. unfold halo_scalar. unfold K. rewrite (received_scalar k N ns); try assumption; [fold K; apply S_; lia|]. intros. apply flip_slab_at; assumption. }
  destruct v as [|[|[|[|v]]]]; try lia; unfold halo_q; cbv beta; try exact Es; rewrite (zero_slab ns (halo_vector _ _ _ _ _ _ _ _)) by assumption; rewrite V; reflexivity.
Qed.
Lemma m_split p : (p < m)%nat -> (p / ns < ns /\ p mod ns < ns)%nat.
Proof. intro Hp. unfold m in Hp. split; [apply Nat.div_lt_upper_bound; nia|apply Nat.mod_upper_bound; lia]. Qed.
Lemma full_i_still t v l x e p : tile_ok K t -> (1 <= v <= 4)%nat -> (l < NZ)%nat -> (x < N)%nat -> meets (N + 2) m e p -> full_i k N ns pts ext_i ext_j (rank_of_tile K t) v l x e p = still_value v.
Proof.
  intros Ht Hv Hl Hx (He & Hp & H0 & H1). unfold full_i, fill_halo. change (itf_size ns) with m.
  destruct ((1 <=? e) && (e <=? N))%nat eqn:C; [apply rest_i; try assumption; try lia; apply rest_rank, Ht|].
  destruct (e =? 0)%nat eqn:E0.
  - replace (m <=? p)%nat with true by lia. destruct (m_split (p - m) ltac:(lia)). apply halo_still; assumption.
  - replace (p <? m)%nat with true by lia. destruct (m_split p ltac:(lia)). apply halo_still; assumption.
Qed.
Lemma full_j_still t v l x e p : tile_ok K t -> (1 <= v <= 4)%nat -> (l < NZ)%nat -> (x < N)%nat -> meets (N + 2) m e p -> full_j k N ns pts ext_i ext_j (rank_of_tile K t) v l x e p = still_value v.
Proof.
  intros Ht Hv Hl Hx (He & Hp & H0 & H1). unfold full_j, fill_halo. change (itf_size ns) with m.
  destruct ((1 <=? e) && (e <=? N))%nat eqn:C; [apply rest_j; try assumption; try lia; apply rest_rank, Ht|].
  destruct (e =? 0)%nat eqn:E0.
  - replace (m <=? p)%nat with true by lia. destruct (m_split (p - m) ltac:(lia)). apply halo_still; assumption.
  - replace (p <? m)%nat with true by lia. destruct (m_split p ltac:(lia)). apply halo_still; assumption.
Qed.
Lemma full_k_still t v x y e p : tile_ok K t -> (1 <= v <= 4)%nat -> (x < N)%nat -> (y < N)%nat -> meets (NZ + 2) m e p -> full_k NZ ns ext_k (rank_of_tile K t) x y v e p = still_value v.
Proof.
  intros Ht Hv Hx Hy (He & Hp & H0 & H1). unfold full_k. change (itf_size ns) with m. pose proof (rest_rank t Ht).
  destruct (Nat.eq_dec e 0) as [->|Ne].
  - replace p with (m + (p - m))%nat by lia. rewrite (proj1 (column_ground (NZ + 2) m _ _ ltac:(lia) v (p - m)%nat ltac:(lia))). apply rest_k; try assumption; lia.
  - destruct (Nat.eq_dec e (NZ + 1)) as [->|Ne'].
    + replace (NZ + 1)%nat with (NZ + 2 - 1)%nat by lia. rewrite (proj1 (column_lid (NZ + 2) m _ _ ltac:(lia) v p ltac:(lia))). apply rest_k; try assumption; lia.
    + rewrite column_inner by lia. apply rest_k; try assumption; lia.
Qed.
Lemma vel_k_still t x y e p : tile_ok K t -> (x < N)%nat -> (y < N)%nat -> meets (NZ + 2) m e p -> column_velocity (NZ + 2) m (full_k NZ ns ext_k (rank_of_tile K t) x y) e p = 0.
Proof.
  intros Ht Hx Hy M. pose proof (rest_rank t Ht) as Hr. destruct M as (He & Hp & H0 & H1).
  assert (Z : forall e p, (1 <= e <= NZ)%nat -> (p < 2 * m)%nat -> ext_k (rank_of_tile K t) 3%nat x y e p = 0). { intros. rewrite rest_k by (assumption || lia). reflexivity. }
  unfold full_k. change (itf_size ns) with m.
  destruct (Nat.eq_dec e 0) as [->|Ne].
  - replace p with (m + (p - m))%nat by lia. rewrite (proj1 (velocity_ground (NZ + 2) m _ _ ltac:(lia) (p - m)%nat ltac:(lia))). rewrite Z by lia. unfold Rdiv. ring.
  - destruct (Nat.eq_dec e (NZ + 1)) as [->|Ne'].
    + replace (NZ + 1)%nat with (NZ + 2 - 1)%nat by lia. rewrite (proj1 (velocity_lid (NZ + 2) m _ _ ltac:(lia) p ltac:(lia))). rewrite Z by lia. unfold Rdiv. ring.
    + pose proof (full_k_still t 3 x y e p Ht ltac:(lia) Hx Hy ltac:(unfold meets; lia)) as E. unfold full_k in E. change (itf_size ns) with m in E. change (still_value 3) with 0 in E.
      unfold column_velocity. cbv zeta. repeat first [rewrite put_out_range by lia | rewrite put_in_range by lia]. rewrite E. unfold Rdiv. ring.
Qed.
Lemma P_pos : P <> 0.
Proof. unfold P, pressure_itf. pose proof (exp_pos (cpd / cvd * ln (T * (Rd / p0)))). unfold p0 in *. lra. Qed.
Lemma new_meets (nn : nat) (f : nat -> nat -> R) e p : (S e < nn + 2)%nat -> (p < m)%nat -> to_new_itf ns nn f e (m + p)%nat = to_new_itf ns nn f (S e) p.
Proof. intros He Hp. unfold m. change (ns * ns)%nat with (itf_size ns). rewrite new_high, new_low by (unfold itf_size; unfold m in Hp; lia). reflexivity. Qed.
(** fluxes of the three directions *)
Lemma itf_i_still t l x e p : tile_ok K t -> (l < NZ)%nat -> (x < N)%nat -> (1 <= e <= N)%nat -> (p < 2 * m)%nat ->
  let f := itf_i k N ns pts earth deta deep geo dR_i dR_j adv ext_i ext_j (rank_of_tile K t) l x in
  let sG := sqrtG_i k N ns pts earth deta deep geo dR_i dR_j (rank_of_tile K t) l x in let h := h_i k N ns pts earth deta deep geo dR_i dR_j (rank_of_tile K t) l x in
  (forall v, (1 <= v <= 4)%nat -> fst (fst f) v e p = rest_flux 0 sG h P v e p) /\
  ((forall e p, (S e < N + 2)%nat -> (p < m)%nat -> full_i k N ns pts ext_i ext_j (rank_of_tile K t) 0 l x e (m + p)%nat = full_i k N ns pts ext_i ext_j (rank_of_tile K t) 0 l x (S e) p) -> fst (fst f) 0%nat e p = 0) /\
  snd (fst f) e p = 0 /\ snd f e p = sG e p * h 0%nat 2%nat e p.
Proof.
  intros Ht Hl Hx He Hp. cbv zeta. unfold itf_i. change (itf_size ns) with m. apply (rest_line (N + 2) m 0 adv) with (T := T); try lia; try exact P_pos.
  - intros. rewrite full_i_still by (assumption || lia). unfold still_value. cbn [Nat.eqb]. unfold Rdiv. ring.
  - intros. rewrite full_i_still by (assumption || lia). reflexivity.
  - intros. apply new_meets; assumption.
  - intros. apply new_meets; assumption.
  - intros v e' p' Hv M. rewrite full_i_still by (assumption || lia). unfold still_value. replace (v =? 4)%nat with false by lia. reflexivity.
  - intros. rewrite full_i_still by (assumption || lia). reflexivity.
Qed.
Lemma itf_j_still t l x e p : tile_ok K t -> (l < NZ)%nat -> (x < N)%nat -> (1 <= e <= N)%nat -> (p < 2 * m)%nat ->
  let f := itf_j k N ns pts earth deta deep geo dR_i dR_j adv ext_i ext_j (rank_of_tile K t) l x in
  let sG := sqrtG_j k N ns pts earth deta deep geo dR_i dR_j (rank_of_tile K t) l x in let h := h_j k N ns pts earth deta deep geo dR_i dR_j (rank_of_tile K t) l x in
  (forall v, (1 <= v <= 4)%nat -> fst (fst f) v e p = rest_flux 1 sG h P v e p) /\
  ((forall e p, (S e < N + 2)%nat -> (p < m)%nat -> full_j k N ns pts ext_i ext_j (rank_of_tile K t) 0 l x e (m + p)%nat = full_j k N ns pts ext_i ext_j (rank_of_tile K t) 0 l x (S e) p) -> fst (fst f) 0%nat e p = 0) /\
  snd (fst f) e p = 0 /\ snd f e p = sG e p * h 1%nat 2%nat e p.
Proof.
  intros Ht Hl Hx He Hp. cbv zeta. unfold itf_j. change (itf_size ns) with m. apply (rest_line (N + 2) m 1 adv) with (T := T); try lia; try exact P_pos.
  - intros. rewrite full_j_still by (assumption || lia). unfold still_value. cbn [Nat.eqb]. unfold Rdiv. ring.
  - intros. rewrite full_j_still by (assumption || lia). reflexivity.
  - intros. apply new_meets; assumption.
  - intros. apply new_meets; assumption.
  - intros v e' p' Hv M. rewrite full_j_still by (assumption || lia). unfold still_value. replace (v =? 4)%nat with false by lia. reflexivity.
  - intros. rewrite full_j_still by (assumption || lia). reflexivity.
Qed.
Lemma itf_k_still t x y e p : tile_ok K t -> (x < N)%nat -> (y < N)%nat -> (1 <= e <= NZ)%nat -> (p < 2 * m)%nat ->
  let f := itf_k k N NZ ns pts earth deta deep geo dR_k adv ext_k (rank_of_tile K t) x y in
  let sG := sqrtG_k k N NZ ns pts earth deta deep geo dR_k (rank_of_tile K t) x y in let h := h_k k N NZ ns pts earth deta deep geo dR_k (rank_of_tile K t) x y in
  (forall v, (1 <= v <= 4)%nat -> fst (fst f) v e p = rest_flux 2 sG h P v e p) /\
  ((forall e p, (S e < NZ + 2)%nat -> (p < m)%nat -> full_k NZ ns ext_k (rank_of_tile K t) x y 0 e (m + p)%nat = full_k NZ ns ext_k (rank_of_tile K t) x y 0 (S e) p) -> fst (fst f) 0%nat e p = 0) /\
  snd (fst f) e p = 0 /\ snd f e p = sG e p * h 2%nat 2%nat e p.
Proof.
  intros Ht Hx Hy He Hp. cbv zeta. unfold itf_k. change (itf_size ns) with m. apply (rest_line (NZ + 2) m 2 adv) with (T := T); try lia; try exact P_pos.
  - intros. apply vel_k_still; assumption.
  - intros. rewrite full_k_still by (assumption || lia). reflexivity.
  - intros. apply new_meets; assumption.
  - intros. apply new_meets; assumption.
  - intros v e' p' Hv M. rewrite full_k_still by (assumption || lia). unfold still_value. replace (v =? 4)%nat with false by lia. reflexivity.
  - intros. rewrite full_k_still by (assumption || lia). reflexivity.
Qed.
End Tiles.
