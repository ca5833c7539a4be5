(** The fluxes do not depend on how the panels are cut into tiles. *)
From Coq Require Import Reals ZArith Arith List Bool Lia Lra ZifyBool Permutation.
From Verif Require Import TopologyModel TopologySpec TopologyProofs ExchangeProofs GeoModel GeoProofs GeoArea GeoTiles FluxModel FluxProofs SwModel SwSpec SwEdges.
Import ListNotations.
Local Open Scope R_scope.

(** ** Coordinates *)
Lemma dx_serial k N : (1 <= k)%nat -> (1 <= N)%nat -> dx k N = dx 1 (k * N).
Proof.
  intros Hk HN. unfold dx. rewrite !delta_x_value by nia. rewrite mult_INR. cbn [INR].
  assert (INR k <> 0) by (apply not_0_INR; lia). assert (INR N <> 0) by (apply not_0_INR; lia). field. auto.
Qed.
Lemma line_serial k N ns pts c i : (1 <= k)%nat -> (1 <= N)%nat -> (1 <= ns)%nat -> line k N ns pts c i = line 1 (k * N) ns pts 0 (c * N * ns + i).
Proof.
  intros Hk HN Hns. unfold line. rewrite x_solpt_global by assumption. rewrite (Nat.add_comm (c * N * ns) i). rewrite Nat.div_add, Nat.mod_add by lia.
  rewrite (Nat.add_comm (i / ns)). reflexivity.
Qed.
Lemma itf_serial k N c e : (1 <= k)%nat -> (1 <= N)%nat -> itf k N c e = itf 1 (k * N) 0 (c * N + e).
Proof. intros Hk HN. unfold itf. now rewrite x_itf_global by assumption. Qed.

(** ** Tiles at the edge of a panel *)
Definition along_tile (t : tile) (d : side) : Z := match d with East | West => row t | _ => col t end.
Definition whole (p : Z) : tile := Tile p 0 0.
Lemma nb_edge k t d : (1 <= k)%Z -> tile_ok k t -> at_edge k t d = true ->
  let s := nb k t d in let e := back_side k t d in let w := whole (panel t) in
  panel s = panel (nb 1 w d) /\ e = back_side 1 w d /\ at_edge k s e = true /\ nb_flip k t d = nb_flip 1 w d /\
  along_tile s e = if nb_flip k t d then (k - 1 - along_tile t d)%Z else along_tile t d.
Proof.
  intros Hk (Hp & Hr & Hc) E s e w. destruct t as [p r c]; cbn [panel row col] in *. unfold s, e, w. clear s e w. unfold whole. cbn [panel].
  unfold nb, back_side, nb_flip. rewrite E. replace (at_edge 1 (Tile p 0 0) d) with true by (destruct d; reflexivity).
  split_panel p Hp; destruct d; unfold at_edge in E; cbn [row col] in E; unfold wrap; tbl; decide_tests; unfold at_edge, along_tile; tbl; repeat split; lia.
Qed.
Lemma nb_inside k t d : (1 <= k)%Z -> tile_ok k t -> at_edge k t d = false ->
  back_side k t d = opposite d /\ nb_flip k t d = false /\ at_edge k (nb k t d) (opposite d) = false /\
  nb k t d = match d with South => Tile (panel t) (row t - 1) (col t) | North => Tile (panel t) (row t + 1) (col t) | West => Tile (panel t) (row t) (col t - 1) | East => Tile (panel t) (row t) (col t + 1) end.
Proof.
  intros Hk (Hp & Hr & Hc) E. destruct t as [p r c]; cbn [panel row col] in *.
  unfold nb, back_side, nb_flip. rewrite E. unfold at_edge in *. destruct d; cbn [row col panel opposite] in *; unfold wrap; repeat split; decide_tests; try lia; f_equal; lia.
Qed.
Lemma back_serial (b : bool) k n a x : (a < k)%nat -> (x < n)%nat -> ((if b then k - 1 - a else a) * n + back_index n b x = back_index (k * n) b (a * n + x))%nat.
Proof. intros Ha Hx. unfold back_index. destruct b; [|reflexivity]. replace k with ((k - 1 - a) + a + 1)%nat at 2 by lia. nia. Qed.

(** ** Arrays with a halo *)
Section Arrays.
Variables (k N ns : nat).
Ltac test :=
  repeat match goal with
  | |- context [(?a =? ?b)%nat] => first [replace (a =? b)%nat with true by lia | replace (a =? b)%nat with false by lia]
  | |- context [(?a <? ?b)%nat] => first [replace (a <? b)%nat with true by lia | replace (a <? b)%nat with false by lia]
  | |- context [(?a <=? ?b)%nat] => first [replace (a <=? b)%nat with true by lia | replace (a <=? b)%nat with false by lia]
  end; cbn [andb orb].
Lemma mod_hi p : (p < ns)%nat -> ((ns + p) mod ns = p)%nat.
Proof. intro H. rewrite Nat.add_comm. rewrite <- (Nat.mul_1_l ns) at 1. rewrite Nat.mod_add by lia. apply Nat.mod_small, H. Qed.
Lemma across_hi_ c p e : (p < ns)%nat -> (e <= N)%nat -> across k N ns c e (ns + p) = itf k N c e.
Proof. intros. unfold across, outer. test. destruct (e =? 0)%nat; reflexivity. Qed.
Lemma across_lo_ c p e : (p < ns)%nat -> (1 <= e <= N + 1)%nat -> across k N ns c e p = itf k N c (e - 1).
Proof. intros. unfold across, outer. test. destruct (e =? N + 1)%nat; reflexivity. Qed.
Variable pts : nat -> R.
Lemma along_hi_ c x p e : (p < ns)%nat -> (e <= N)%nat -> along k N ns pts c x e (ns + p) = line k N ns pts c (x * ns + p).
Proof. intros. unfold along, outer. test. rewrite mod_hi by assumption. destruct (e =? 0)%nat; reflexivity. Qed.
Lemma along_lo_ c x p e : (p < ns)%nat -> (1 <= e <= N + 1)%nat -> along k N ns pts c x e p = line k N ns pts c (x * ns + p).
Proof. intros. unfold along, outer. test. rewrite Nat.mod_small by assumption. destruct (e =? N + 1)%nat; reflexivity. Qed.
Variables ext_i ext_j : Z -> nat -> nat -> face.
Lemma halo_lo_ r v lo_ hi_ f x p : (p < ns)%nat -> with_halo k N ns pts ext_i ext_j r v lo_ hi_ f x 0 (ns + p) = halo k N ns pts ext_i ext_j r v lo_ (x * ns + p).
Proof. intros. unfold with_halo. test. replace (ns + p - ns)%nat with p by lia. reflexivity. Qed.
Lemma halo_hi_ r v lo_ hi_ f x p : (p < ns)%nat -> with_halo k N ns pts ext_i ext_j r v lo_ hi_ f x (N + 1) p = halo k N ns pts ext_i ext_j r v hi_ (x * ns + p).
Proof. intros. unfold with_halo. test. reflexivity. Qed.
Lemma no_halo_ r v lo_ hi_ f x e p : (1 <= e <= N)%nat -> with_halo k N ns pts ext_i ext_j r v lo_ hi_ f x e p = f x e p.
Proof. intros. unfold with_halo. test. reflexivity. Qed.
End Arrays.

Section Cut.
Variables (k N ns : nat) (pts : nat -> R) (radius : R).
(** values at the sides of the elements: on the tiles, and on whole panels *)
Variables (ext_i ext_j ext_i' ext_j' : Z -> nat -> nat -> face).
Hypothesis Hk : (1 <= k)%nat.
Hypothesis HN : (1 <= N)%nat.
Hypothesis Hns : (1 <= ns)%nat.
Let K := Z.of_nat k.
Let n := (N * ns)%nat.
Definition R_ (t : tile) : nat := Z.to_nat (row t).
Definition C_ (t : tile) : nat := Z.to_nat (col t).
Hypothesis cut_ext_i : forall t v x e p, tile_ok K t -> (v < 3)%nat -> (x < N)%nat -> (1 <= e <= N)%nat -> ext_i (rank_of_tile K t) v x e p = ext_i' (panel t) v (R_ t * N + x)%nat (C_ t * N + e)%nat p.
Hypothesis cut_ext_j : forall t v x e p, tile_ok K t -> (v < 3)%nat -> (x < N)%nat -> (1 <= e <= N)%nat -> ext_j (rank_of_tile K t) v x e p = ext_j' (panel t) v (C_ t * N + x)%nat (R_ t * N + e)%nat p.
Lemma HK_ : (1 <= K)%Z. Proof. unfold K. lia. Qed.
Lemma Hone : (1 <= 1)%Z. Proof. lia. Qed.
Lemma whole_ok t : tile_ok K t -> tile_ok 1 (whole (panel t)).
Proof. intros (Hp & _). unfold whole, tile_ok. cbn [panel row col]. lia. Qed.
Lemma rank_whole p : rank_of_tile 1 (whole p) = p.
Proof. unfold rank_of_tile, whole. cbn [panel row col]. ring. Qed.
Lemma rows_ t : tile_ok K t -> my_row k (rank_of_tile K t) = R_ t /\ my_col k (rank_of_tile K t) = C_ t.
Proof. intro Ht. destruct (built_fields K HK_ t Ht) as (_ & Er & Ec & _). unfold my_row, my_col, size. fold K. rewrite Er, Ec. split; reflexivity. Qed.
Lemma rows_whole p : (0 <= p < 6)%Z -> my_row 1 p = 0%nat /\ my_col 1 p = 0%nat.
Proof.
  intro Hp. assert (W : tile_ok 1 (whole p)) by (unfold whole, tile_ok; cbn [panel row col]; lia).
  destruct (built_fields 1 Hone (whole p) W) as (_ & Er & Ec & _). rewrite rank_whole in Er, Ec. unfold my_row, my_col, size. change (6 * Z.of_nat 1 * Z.of_nat 1)%Z with (6 * 1 * 1)%Z. rewrite Er, Ec. split; reflexivity.
Qed.

(** the halo, with the coordinate of the conversion *)
Section Halo.
Variables (kk NN : nat) (ei ej : Z -> nat -> nat -> face) (t : tile) (d : side).
Hypothesis Hkk : (1 <= kk)%nat.
Let KK := Z.of_nat kk.
Hypothesis Ht : tile_ok KK t.
Let s := nb KK t d.
Let e := back_side KK t d.
Let back_ (x : nat) : nat := back_index (NN * ns) (nb_flip KK t d) x.
Definition side_value (v : nat) (x : nat) : R := at_side NN ns (ei (rank_of_tile KK s) v) (ej (rank_of_tile KK s) v) e (back_ x).
Lemma halo_h_at x : (x < NN * ns)%nat -> halo kk NN ns pts ei ej (rank_of_tile KK t) 0 d x = side_value 0 x.
Proof.
  intro Hx. assert (HKK : (1 <= KK)%Z) by (unfold KK; lia). assert (Hs_ : tile_ok KK s) by (apply nb_ok; assumption).
  unfold halo, halo_h, exchange_scalars, size. fold KK. rewrite alltoall_spec by assumption. cbn [received].
  fold s e. rewrite built_flip by assumption. unfold s at 1, e at 1. rewrite (proj2 (nb_back KK t d HKK Ht)).
  unfold sent_h, sent. rewrite nth_flip by exact Hx. reflexivity.
Qed.
Lemma halo_u_at x : (x < NN * ns)%nat ->
  (halo kk NN ns pts ei ej (rank_of_tile KK t) 1 d x, halo kk NN ns pts ei ej (rank_of_tile KK t) 2 d x) =
  (if at_edge KK s e then lookup2 convert_contras (panel s) e convert_default else convert_default) (side_value 1 x) (side_value 2 x) (line kk NN ns pts (Z.to_nat (along_tile s e)) (back_ x)).
Proof.
  intro Hx. assert (HKK : (1 <= KK)%Z) by (unfold KK; lia). assert (Hs_ : tile_ok KK s) by (apply nb_ok; assumption).
  unfold halo, halo_u, exchange_vectors, size. fold KK. rewrite alltoall_spec by assumption. cbn [received].
  fold s e. cbv zeta. rewrite built_flip, built_contra by assumption. assert (F : nb_flip KK s e = nb_flip KK t d) by (exact (proj2 (nb_back KK t d HKK Ht))). rewrite F. set (cv := if at_edge KK s e then _ else _).
  unfold sent_u, sent.
  assert (boundary_of (boundary_sn kk NN ns pts (rank_of_tile KK s)) (boundary_we kk NN ns pts (rank_of_tile KK s)) e = map (line kk NN ns pts (Z.to_nat (along_tile s e))) (seq 0 (NN * ns))) as ->.
  { destruct (built_fields KK HKK s Hs_) as (_ & Er & Ec & _). unfold boundary_of, boundary_sn, boundary_we, my_row, my_col, size. fold KK. rewrite Er, Ec. unfold along_tile. destruct e; reflexivity. }
  rewrite convert_seq. rewrite !nth_flip by exact Hx. cbn [fst snd]. 
  unfold side_value, at_side. symmetry. apply surjective_pairing.
Qed.
End Halo.
Lemma div_mod_cut a y : ((a * n + y) / ns = a * N + y / ns /\ (a * n + y) mod ns = y mod ns)%nat.
Proof. unfold n. replace (a * (N * ns) + y)%nat with (y + (a * N) * ns)%nat by ring. rewrite Nat.div_add, Nat.mod_add by lia. split; [apply Nat.add_comm|reflexivity]. Qed.
Lemma side_cut t d v y : tile_ok K t -> (v < 3)%nat -> at_edge K t d = true -> (y < n)%nat ->
  at_side N ns (ext_i (rank_of_tile K t) v) (ext_j (rank_of_tile K t) v) d y =
  at_side (k * N) ns (ext_i' (panel t) v) (ext_j' (panel t) v) d (Z.to_nat (along_tile t d) * n + y).
Proof.
  intros Ht Hv E Hy. assert (Hq : (y / ns < N)%nat) by (apply Nat.div_lt_upper_bound; unfold n in Hy; lia).
  unfold at_side. destruct (div_mod_cut (Z.to_nat (along_tile t d)) y) as [-> ->]. unfold at_edge in E. pose proof Ht as (Hp & Hr & Hc).
  assert (Z.to_nat (K - 1) = k - 1)%nat by (unfold K; lia).
  destruct d; unfold along_tile; [rewrite cut_ext_j|rewrite cut_ext_j|rewrite cut_ext_i|rewrite cut_ext_i]; try lia; try exact Ht; unfold R_, C_; f_equal.
  - replace (row t) with 0%Z by lia. reflexivity.
  - replace (row t) with (K - 1)%Z by lia. rewrite H. nia.
  - replace (col t) with 0%Z by lia. reflexivity.
  - replace (col t) with (K - 1)%Z by lia. rewrite H. nia.
Qed.
Definition hal' p v d x := halo 1 (k * N) ns pts ext_i' ext_j' p v d x.
Lemma along_lt t d : tile_ok K t -> (Z.to_nat (along_tile t d) < k)%nat.
Proof. intros (_ & Hr & Hc). unfold along_tile. unfold K in *. destruct d; lia. Qed.
Lemma halo_edge t d v x : tile_ok K t -> (v < 3)%nat -> at_edge K t d = true -> (x < n)%nat ->
  halo k N ns pts ext_i ext_j (rank_of_tile K t) v d x = hal' (panel t) v d (Z.to_nat (along_tile t d) * n + x).
Proof.
  intros Ht Hv E Hx. destruct (nb_edge K t d HK_ Ht E) as (P & B & E' & F & A). set (s := nb K t d) in *. set (e := back_side K t d) in *.
  assert (Hs_ : tile_ok K s) by (apply nb_ok; [exact HK_|exact Ht]). pose proof (along_lt t d Ht) as La. set (a := Z.to_nat (along_tile t d)) in *.
  set (X := (a * n + x)%nat). assert (HX : (X < k * N * ns)%nat) by (unfold X, n in *; nia).
  pose proof (whole_ok t Ht) as HW. set (w := whole (panel t)) in *. 
  assert (Bk : back_index (k * N * ns) (nb_flip 1 w d) X = (Z.to_nat (along_tile s e) * n + back_index n (nb_flip K t d) x)%nat).
  { rewrite <- F, A. unfold X. rewrite <- Nat.mul_assoc. fold n. rewrite <- back_serial by assumption. f_equal. f_equal. destruct (nb_flip K t d); [|reflexivity]. assert (0 <= along_tile t d)%Z by (destruct Ht as (_ & G1 & G2); unfold along_tile; destruct d; lia). clear - H. unfold a, K. lia. }
  assert (By : (back_index n (nb_flip K t d) x < n)%nat) by (unfold back_index; destruct (nb_flip K t d); lia).
  assert (S : forall v, (v < 3)%nat -> side_value k N ext_i ext_j t d v x = side_value 1 (k * N) ext_i' ext_j' w d v X).
  { intros v' Hv'. unfold side_value. change (Z.of_nat 1) with 1%Z. fold K. fold s e. rewrite <- B.
    assert (rank_of_tile 1 (nb 1 w d) = panel s) as -> by (rewrite P; pose proof (nb_ok 1 w d Hone HW) as (_ & Q1 & Q2); unfold rank_of_tile; lia).
    change (N * ns)%nat with n. rewrite Bk. apply side_cut; assumption. }
  assert (H2 : forall i, (halo k N ns pts ext_i ext_j (rank_of_tile K t) 1 d x, halo k N ns pts ext_i ext_j (rank_of_tile K t) 2 d x) = i -> (hal' (panel t) 1 d X, hal' (panel t) 2 d X) = i).
  { intros i <-. unfold hal'. rewrite <- (rank_whole (panel t)) at 1 2. fold w. change 1%Z with (Z.of_nat 1) at 1 2. rewrite (halo_u_at 1 (k * N) ext_i' ext_j' w d (le_n 1) HW X HX).
    unfold K. rewrite (halo_u_at k N ext_i ext_j t d Hk Ht x Hx). change (Z.of_nat 1) with 1%Z. fold K. fold s e. rewrite E', !S, <- B, <- P by lia.
    pose proof (nb_ok 1 w d Hone HW) as (_ & Q1 & Q2).
    assert (at_edge 1 (nb 1 w d) e = true) as -> by (unfold at_edge; destruct e; lia).
    f_equal. rewrite Bk. rewrite (line_serial k N) by assumption. change (N * ns)%nat with n.
    replace (Z.to_nat (along_tile (nb 1 w d) e)) with 0%nat by (unfold along_tile; destruct e; lia). f_equal. unfold n. ring. }
  specialize (H2 _ eq_refl). apply pair_equal_spec in H2. destruct H2 as [U1 U2].
  destruct v as [|[|v]].
  - unfold hal'. rewrite <- (rank_whole (panel t)) at 1. fold w. change 1%Z with (Z.of_nat 1) at 1. rewrite (halo_h_at 1 (k * N) ext_i' ext_j' w d (le_n 1) HW X HX).
    unfold K. rewrite (halo_h_at k N ext_i ext_j t d Hk Ht x Hx). apply S. lia.
  - symmetry. exact U1.
  - symmetry. exact U2.
Qed.
Lemma halo_inside t d v x : tile_ok K t -> at_edge K t d = false -> (x < n)%nat -> (v < 3)%nat ->
  halo k N ns pts ext_i ext_j (rank_of_tile K t) v d x = at_side N ns (ext_i (rank_of_tile K (nb K t d)) v) (ext_j (rank_of_tile K (nb K t d)) v) (opposite d) x.
Proof.
  intros Ht E Hx Hv. destruct (nb_inside K t d HK_ Ht E) as (B & F & E' & _).
  assert (S : forall v, side_value k N ext_i ext_j t d v x = at_side N ns (ext_i (rank_of_tile K (nb K t d)) v) (ext_j (rank_of_tile K (nb K t d)) v) (opposite d) x).
  { intro v'. unfold side_value. fold K. rewrite B, F. reflexivity. }
  pose proof (halo_u_at k N ext_i ext_j t d Hk Ht x Hx) as U. fold K in U. rewrite B, E' in U. unfold convert_default in U. apply pair_equal_spec in U. destruct U as [U1 U2].
  destruct v as [|[|[|v]]]; [| | |lia].
  - unfold K at 1. rewrite (halo_h_at k N ext_i ext_j t d Hk Ht x Hx). apply S.
  - rewrite U1. apply S.
  - rewrite U2. apply S.
Qed.
Lemma div_mod_pt x q : (q < ns)%nat -> ((x * ns + q) / ns = x /\ (x * ns + q) mod ns = q)%nat.
Proof. intro Hq. rewrite Nat.div_add_l by lia. rewrite Nat.div_small by exact Hq. rewrite (Nat.add_comm (x * ns)), Nat.mod_add by lia. rewrite Nat.mod_small by exact Hq. lia. Qed.
Definition wh_i t v x e p := with_halo k N ns pts ext_i ext_j (rank_of_tile K t) v West East (ext_i (rank_of_tile K t) v) x e p.
Definition wh_i' c v x e p := with_halo 1 (k * N) ns pts ext_i' ext_j' c v West East (ext_i' c v) x e p.
Definition wh_j t v x e p := with_halo k N ns pts ext_i ext_j (rank_of_tile K t) v South North (ext_j (rank_of_tile K t) v) x e p.
Definition wh_j' c v x e p := with_halo 1 (k * N) ns pts ext_i' ext_j' c v South North (ext_j' c v) x e p.
Lemma in_panel c e : (c < k)%nat -> (e <= N)%nat -> (c * N + e <= k * N)%nat.
Proof. intros. assert ((c + 1) * N <= k * N)%nat by (apply Nat.mul_le_mono_r; lia). nia. Qed.
Lemma pt_lt x q : (x < N)%nat -> (q < ns)%nat -> (x * ns + q < n)%nat.
Proof. intros. unfold n. nia. Qed.
Lemma wh_i_in t v x e p : tile_ok K t -> (v < 3)%nat -> (x < N)%nat -> (1 <= e <= N)%nat -> wh_i t v x e p = wh_i' (panel t) v (R_ t * N + x) (C_ t * N + e) p.
Proof.
  intros Ht Hv Hx He. unfold wh_i, wh_i'. pose proof Ht as (_ & Hr & Hc). assert (Hct : (C_ t < k)%nat) by (unfold C_, K in *; lia).
  pose proof (in_panel (C_ t) e Hct ltac:(lia)). rewrite !no_halo_ by lia. apply cut_ext_i; assumption.
Qed.
Lemma wh_i_lo t v x q : tile_ok K t -> (v < 3)%nat -> (x < N)%nat -> (q < ns)%nat -> wh_i t v x 0 (ns + q) = wh_i' (panel t) v (R_ t * N + x) (C_ t * N + 0) (ns + q).
Proof.
  intros Ht Hv Hx Hq. unfold wh_i, wh_i'. pose proof Ht as (_ & Hr & Hc). assert (C_ t < k)%nat by (unfold C_, K in *; lia).
  rewrite halo_lo_ by exact Hq. pose proof (pt_lt x q Hx Hq) as Hy. destruct (at_edge K t West) eqn:E.
  - rewrite halo_edge by assumption. unfold at_edge in E. assert (C_ t = 0)%nat as -> by (unfold C_; lia). change (0 * N + 0)%nat with 0%nat. rewrite halo_lo_ by exact Hq.
    unfold hal', along_tile. fold (R_ t). f_equal. unfold n. ring.
  - rewrite halo_inside by assumption. pose proof (nb_ok K t West HK_ Ht) as Hs_. destruct (nb_inside K t West HK_ Ht E) as (_ & _ & _ & E3).
    unfold at_side, opposite. destruct (div_mod_pt x q Hq) as [-> ->]. rewrite cut_ext_i by (try lia; assumption). unfold at_edge in E.
    assert (1 <= C_ t)%nat by (unfold C_; lia). pose proof (in_panel (C_ t) 0 H ltac:(lia)). assert (1 * 1 <= C_ t * N)%nat by (apply Nat.mul_le_mono; lia). rewrite no_halo_ by lia. rewrite E3. unfold R_, C_. cbn [panel row col]. f_equal. nia.
Qed.
Lemma wh_i_hi t v x q : tile_ok K t -> (v < 3)%nat -> (x < N)%nat -> (q < ns)%nat -> wh_i t v x (N + 1) q = wh_i' (panel t) v (R_ t * N + x) (C_ t * N + (N + 1)) q.
Proof.
  intros Ht Hv Hx Hq. unfold wh_i, wh_i'. pose proof Ht as (_ & Hr & Hc). assert (C_ t < k)%nat by (unfold C_, K in *; lia).
  rewrite halo_hi_ by exact Hq. pose proof (pt_lt x q Hx Hq) as Hy. destruct (at_edge K t East) eqn:E.
  - rewrite halo_edge by assumption. unfold at_edge in E. assert (C_ t = k - 1)%nat as -> by (unfold C_, K in *; lia). replace ((k - 1) * N + (N + 1))%nat with (k * N + 1)%nat by nia. rewrite halo_hi_ by exact Hq.
    unfold hal', along_tile. fold (R_ t). f_equal. unfold n. ring.
  - rewrite halo_inside by assumption. pose proof (nb_ok K t East HK_ Ht) as Hs_. destruct (nb_inside K t East HK_ Ht E) as (_ & _ & _ & E3).
    unfold at_side, opposite. destruct (div_mod_pt x q Hq) as [-> ->]. rewrite cut_ext_i by (try lia; assumption). unfold at_edge in E.
    assert (Hct : (C_ t + 1 < k)%nat) by (unfold C_, K in *; lia).
    pose proof (in_panel (C_ t + 1) 1 Hct HN). rewrite no_halo_ by lia. rewrite E3. unfold R_, C_. cbn [panel row col]. f_equal. nia.
Qed.
Lemma wh_j_in t v x e p : tile_ok K t -> (v < 3)%nat -> (x < N)%nat -> (1 <= e <= N)%nat -> wh_j t v x e p = wh_j' (panel t) v (C_ t * N + x) (R_ t * N + e) p.
Proof.
  intros Ht Hv Hx He. unfold wh_j, wh_j'. pose proof Ht as (_ & Hr & Hc). assert (Hct : (R_ t < k)%nat) by (unfold R_, K in *; lia).
  pose proof (in_panel (R_ t) e Hct ltac:(lia)). rewrite !no_halo_ by lia. apply cut_ext_j; assumption.
Qed.
Lemma wh_j_lo t v x q : tile_ok K t -> (v < 3)%nat -> (x < N)%nat -> (q < ns)%nat -> wh_j t v x 0 (ns + q) = wh_j' (panel t) v (C_ t * N + x) (R_ t * N + 0) (ns + q).
Proof.
  intros Ht Hv Hx Hq. unfold wh_j, wh_j'. pose proof Ht as (_ & Hr & Hc). assert (R_ t < k)%nat by (unfold R_, K in *; lia).
  rewrite halo_lo_ by exact Hq. pose proof (pt_lt x q Hx Hq) as Hy. destruct (at_edge K t South) eqn:E.
  - rewrite halo_edge by assumption. unfold at_edge in E. assert (R_ t = 0)%nat as -> by (unfold R_; lia). change (0 * N + 0)%nat with 0%nat. rewrite halo_lo_ by exact Hq.
    unfold hal', along_tile. fold (C_ t). f_equal. unfold n. ring.
  - rewrite halo_inside by assumption. pose proof (nb_ok K t South HK_ Ht) as Hs_. destruct (nb_inside K t South HK_ Ht E) as (_ & _ & _ & E3).
    unfold at_side, opposite. destruct (div_mod_pt x q Hq) as [-> ->]. rewrite cut_ext_j by (try lia; assumption). unfold at_edge in E.
    assert (1 <= R_ t)%nat by (unfold R_; lia). pose proof (in_panel (R_ t) 0 H ltac:(lia)). assert (1 * 1 <= R_ t * N)%nat by (apply Nat.mul_le_mono; lia). rewrite no_halo_ by lia. rewrite E3. unfold R_, C_. cbn [panel row col]. f_equal. nia.
Qed.
Lemma wh_j_hi t v x q : tile_ok K t -> (v < 3)%nat -> (x < N)%nat -> (q < ns)%nat -> wh_j t v x (N + 1) q = wh_j' (panel t) v (C_ t * N + x) (R_ t * N + (N + 1)) q.
Proof.
  intros Ht Hv Hx Hq. unfold wh_j, wh_j'. pose proof Ht as (_ & Hr & Hc). assert (R_ t < k)%nat by (unfold R_, K in *; lia).
  rewrite halo_hi_ by exact Hq. pose proof (pt_lt x q Hx Hq) as Hy. destruct (at_edge K t North) eqn:E.
  - rewrite halo_edge by assumption. unfold at_edge in E. assert (R_ t = k - 1)%nat as -> by (unfold R_, K in *; lia). replace ((k - 1) * N + (N + 1))%nat with (k * N + 1)%nat by nia. rewrite halo_hi_ by exact Hq.
    unfold hal', along_tile. fold (C_ t). f_equal. unfold n. ring.
  - rewrite halo_inside by assumption. pose proof (nb_ok K t North HK_ Ht) as Hs_. destruct (nb_inside K t North HK_ Ht E) as (_ & _ & _ & E3).
    unfold at_side, opposite. destruct (div_mod_pt x q Hq) as [-> ->]. rewrite cut_ext_j by (try lia; assumption). unfold at_edge in E.
    assert (Hct : (R_ t + 1 < k)%nat) by (unfold R_, K in *; lia).
    pose proof (in_panel (R_ t + 1) 1 Hct HN). rewrite no_halo_ by lia. rewrite E3. unfold R_, C_. cbn [panel row col]. f_equal. nia.
Qed.
Variables (topo_i topo_j topo_i' topo_j' : Z -> nat -> face).
Hypothesis cut_topo_i : forall t x e p, tile_ok K t -> (x < N)%nat -> (e <= N + 1)%nat -> outer N ns e p = false -> topo_i (rank_of_tile K t) x e p = topo_i' (panel t) (R_ t * N + x)%nat (C_ t * N + e)%nat p.
Hypothesis cut_topo_j : forall t x e p, tile_ok K t -> (x < N)%nat -> (e <= N + 1)%nat -> outer N ns e p = false -> topo_j (rank_of_tile K t) x e p = topo_j' (panel t) (C_ t * N + x)%nat (R_ t * N + e)%nat p.
Definition va_i t v x e p := var_itf_i k N ns pts ext_i ext_j topo_i (rank_of_tile K t) v x e p.
Definition va_i' c v x e p := var_itf_i 1 (k * N) ns pts ext_i' ext_j' topo_i' c v x e p.
Lemma va_i_hi t v x e q : tile_ok K t -> (v < 3)%nat -> (x < N)%nat -> (e <= N)%nat -> (q < ns)%nat -> va_i t v x e (ns + q) = va_i' (panel t) v (R_ t * N + x) (C_ t * N + e) (ns + q).
Proof.
  intros Ht Hv Hx He Hq. unfold va_i, va_i', var_itf_i. fold (wh_i t v x e (ns + q)). fold (wh_i' (panel t) v (R_ t * N + x) (C_ t * N + e) (ns + q)).
  rewrite cut_topo_i; [|exact Ht|exact Hx|lia|unfold outer; lia]. f_equal.
  destruct e as [|e]; [apply wh_i_lo; assumption|apply wh_i_in; [exact Ht|exact Hv|exact Hx|lia]].
Qed.
Lemma va_i_lo t v x e q : tile_ok K t -> (v < 3)%nat -> (x < N)%nat -> (1 <= e <= N + 1)%nat -> (q < ns)%nat -> va_i t v x e q = va_i' (panel t) v (R_ t * N + x) (C_ t * N + e) q.
Proof.
  intros Ht Hv Hx He Hq. unfold va_i, va_i', var_itf_i. fold (wh_i t v x e q). fold (wh_i' (panel t) v (R_ t * N + x) (C_ t * N + e) q).
  rewrite cut_topo_i; [|exact Ht|exact Hx|lia|unfold outer; lia]. f_equal.
  destruct (Nat.eq_dec e (N + 1)) as [->|Ne]; [apply wh_i_hi; assumption|apply wh_i_in; [exact Ht|exact Hv|exact Hx|lia]].
Qed.
Definition fl_i t v x e p := flux_i k N ns pts radius ext_i ext_j topo_i (rank_of_tile K t) v x e p.
Definition fl_i' c v x e p := flux_i 1 (k * N) ns pts radius ext_i' ext_j' topo_i' c v x e p.
Lemma fl_i_hi t v x e q : tile_ok K t -> (v < 3)%nat -> (x < N)%nat -> (e <= N)%nat -> (q < ns)%nat -> fl_i t v x e (ns + q) = fl_i' (panel t) v (R_ t * N + x) (C_ t * N + e) (ns + q).
Proof.
  intros Ht Hv Hx He Hq. pose proof Ht as (Hp & Hr & Hc). assert (Hct : (C_ t < k)%nat) by (unfold C_, K in *; lia). pose proof (in_panel (C_ t) e Hct He) as Hin.
  unfold fl_i, fl_i', flux_i. rewrite !sw_value_x1 by (try assumption; lia). cbv zeta.
  change (var_itf_i k N ns pts ext_i ext_j topo_i (rank_of_tile K t) ?v x) with (va_i t v x).
  change (var_itf_i 1 (k * N) ns pts ext_i' ext_j' topo_i' (panel t) ?v (R_ t * N + x)%nat) with (va_i' (panel t) v (R_ t * N + x)%nat).
  replace (S (C_ t * N + e)) with (C_ t * N + S e)%nat by lia.
  rewrite !va_i_hi, !va_i_lo by (try assumption; lia).
  unfold sqrtG_itf_i, H_itf_i, X_itf_i, Y_itf_i. destruct (rows_ t Ht) as [-> ->]. destruct (rows_whole (panel t) Hp) as [-> ->].
  rewrite !across_hi_, !along_hi_, !across_lo_, !along_lo_ by lia. replace (S e - 1)%nat with e by lia. replace (C_ t * N + S e - 1)%nat with (C_ t * N + e)%nat by lia.
  rewrite dx_serial, (itf_serial k N), (line_serial k N) by assumption.
  replace (R_ t * N * ns + (x * ns + q))%nat with ((R_ t * N + x) * ns + q)%nat by ring. reflexivity.
Qed.
Lemma flux_i_cut t v x e p : tile_ok K t -> (v < 3)%nat -> (x < N)%nat -> (1 <= e <= N)%nat -> (p < ns + ns)%nat ->
  flux_i k N ns pts radius ext_i ext_j topo_i (rank_of_tile K t) v x e p = flux_i 1 (k * N) ns pts radius ext_i' ext_j' topo_i' (panel t) v (R_ t * N + x)%nat (C_ t * N + e)%nat p.
Proof.
  intros Ht Hv Hx He Hp. fold (fl_i t v x e p). fold (fl_i' (panel t) v (R_ t * N + x) (C_ t * N + e) p).
  assert (Hct : (C_ t < k)%nat) by (destruct Ht as (_ & Hr & Hc); unfold C_, K in *; lia). pose proof (in_panel (C_ t) e Hct ltac:(lia)) as Hin.
  destruct (Nat.lt_ge_cases p ns) as [Hl|Hg].
  - destruct e as [|e]; [lia|]. replace (C_ t * N + S e)%nat with (S (C_ t * N + e)) by lia.
    assert (fl_i t v x (S e) p = fl_i t v x e (ns + p)) as -> by (symmetry; apply (sw_single_x1 (N + 2) ns); lia).
    assert (fl_i' (panel t) v (R_ t * N + x) (S (C_ t * N + e)) p = fl_i' (panel t) v (R_ t * N + x) (C_ t * N + e) (ns + p)) as -> by (symmetry; apply (sw_single_x1 (k * N + 2) ns); lia).
    apply fl_i_hi; (assumption || lia).
  - replace p with (ns + (p - ns))%nat by lia. apply fl_i_hi; (assumption || lia).
Qed.
Definition va_j t v x e p := var_itf_j k N ns pts ext_i ext_j topo_j (rank_of_tile K t) v x e p.
Definition va_j' c v x e p := var_itf_j 1 (k * N) ns pts ext_i' ext_j' topo_j' c v x e p.
Lemma va_j_hi t v x e q : tile_ok K t -> (v < 3)%nat -> (x < N)%nat -> (e <= N)%nat -> (q < ns)%nat -> va_j t v x e (ns + q) = va_j' (panel t) v (C_ t * N + x) (R_ t * N + e) (ns + q).
Proof.
  intros Ht Hv Hx He Hq. unfold va_j, va_j', var_itf_j. fold (wh_j t v x e (ns + q)). fold (wh_j' (panel t) v (C_ t * N + x) (R_ t * N + e) (ns + q)).
  rewrite cut_topo_j; [|exact Ht|exact Hx|lia|unfold outer; lia]. f_equal.
  destruct e as [|e]; [apply wh_j_lo; assumption|apply wh_j_in; [exact Ht|exact Hv|exact Hx|lia]].
Qed.
Lemma va_j_lo t v x e q : tile_ok K t -> (v < 3)%nat -> (x < N)%nat -> (1 <= e <= N + 1)%nat -> (q < ns)%nat -> va_j t v x e q = va_j' (panel t) v (C_ t * N + x) (R_ t * N + e) q.
Proof.
  intros Ht Hv Hx He Hq. unfold va_j, va_j', var_itf_j. fold (wh_j t v x e q). fold (wh_j' (panel t) v (C_ t * N + x) (R_ t * N + e) q).
  rewrite cut_topo_j; [|exact Ht|exact Hx|lia|unfold outer; lia]. f_equal.
  destruct (Nat.eq_dec e (N + 1)) as [->|Ne]; [apply wh_j_hi; assumption|apply wh_j_in; [exact Ht|exact Hv|exact Hx|lia]].
Qed.
Definition fl_j t v x e p := flux_j k N ns pts radius ext_i ext_j topo_j (rank_of_tile K t) v x e p.
Definition fl_j' c v x e p := flux_j 1 (k * N) ns pts radius ext_i' ext_j' topo_j' c v x e p.
Lemma fl_j_hi t v x e q : tile_ok K t -> (v < 3)%nat -> (x < N)%nat -> (e <= N)%nat -> (q < ns)%nat -> fl_j t v x e (ns + q) = fl_j' (panel t) v (C_ t * N + x) (R_ t * N + e) (ns + q).
Proof.
  intros Ht Hv Hx He Hq. pose proof Ht as (Hp & Hr & Hc). assert (Hct : (R_ t < k)%nat) by (unfold R_, K in *; lia). pose proof (in_panel (R_ t) e Hct He) as Hin.
  unfold fl_j, fl_j', flux_j. rewrite !sw_value_x2 by (try assumption; lia). cbv zeta.
  change (var_itf_j k N ns pts ext_i ext_j topo_j (rank_of_tile K t) ?v x) with (va_j t v x).
  change (var_itf_j 1 (k * N) ns pts ext_i' ext_j' topo_j' (panel t) ?v (C_ t * N + x)%nat) with (va_j' (panel t) v (C_ t * N + x)%nat).
  replace (S (R_ t * N + e)) with (R_ t * N + S e)%nat by lia.
  rewrite !va_j_hi, !va_j_lo by (try assumption; lia).
  unfold sqrtG_itf_j, H_itf_j, X_itf_j, Y_itf_j. destruct (rows_ t Ht) as [-> ->]. destruct (rows_whole (panel t) Hp) as [-> ->].
  rewrite !across_hi_, !along_hi_, !across_lo_, !along_lo_ by lia. replace (S e - 1)%nat with e by lia. replace (R_ t * N + S e - 1)%nat with (R_ t * N + e)%nat by lia.
  rewrite dx_serial, (itf_serial k N), (line_serial k N) by assumption.
  replace (C_ t * N * ns + (x * ns + q))%nat with ((C_ t * N + x) * ns + q)%nat by ring. reflexivity.
Qed.
Lemma flux_j_cut t v x e p : tile_ok K t -> (v < 3)%nat -> (x < N)%nat -> (1 <= e <= N)%nat -> (p < ns + ns)%nat ->
  flux_j k N ns pts radius ext_i ext_j topo_j (rank_of_tile K t) v x e p = flux_j 1 (k * N) ns pts radius ext_i' ext_j' topo_j' (panel t) v (C_ t * N + x)%nat (R_ t * N + e)%nat p.
Proof.
  intros Ht Hv Hx He Hp. fold (fl_j t v x e p). fold (fl_j' (panel t) v (C_ t * N + x) (R_ t * N + e) p).
  assert (Hct : (R_ t < k)%nat) by (destruct Ht as (_ & Hr & Hc); unfold R_, K in *; lia). pose proof (in_panel (R_ t) e Hct ltac:(lia)) as Hin.
  destruct (Nat.lt_ge_cases p ns) as [Hl|Hg].
  - destruct e as [|e]; [lia|]. replace (R_ t * N + S e)%nat with (S (R_ t * N + e)) by lia.
    assert (fl_j t v x (S e) p = fl_j t v x e (ns + p)) as -> by (symmetry; apply (sw_single_x2 (N + 2) ns); lia).
    assert (fl_j' (panel t) v (C_ t * N + x) (S (R_ t * N + e)) p = fl_j' (panel t) v (C_ t * N + x) (R_ t * N + e) (ns + p)) as -> by (symmetry; apply (sw_single_x2 (k * N + 2) ns); lia).
    apply fl_j_hi; (assumption || lia).
  - replace p with (ns + (p - ns))%nat by lia. apply fl_j_hi; (assumption || lia).
Qed.
End Cut.

(** ** At the points *)
Lemma rows_at k t : (1 <= k)%nat -> tile_ok (Z.of_nat k) t -> my_row k (rank_of_tile (Z.of_nat k) t) = Z.to_nat (row t) /\ my_col k (rank_of_tile (Z.of_nat k) t) = Z.to_nat (col t).
Proof. intros Hk Ht. destruct (built_fields (Z.of_nat k) ltac:(lia) t Ht) as (_ & Er & Ec & _). unfold my_row, my_col, size. rewrite Er, Ec. split; reflexivity. Qed.
Lemma rows_one p : (0 <= p < 6)%Z -> my_row 1 p = 0%nat /\ my_col 1 p = 0%nat.
Proof.
  intro Hp. assert (W : tile_ok (Z.of_nat 1) (whole p)) by (unfold whole, tile_ok; cbn [panel row col]; lia).
  pose proof (rows_at 1 (whole p) (le_n 1) W) as E. replace (rank_of_tile (Z.of_nat 1) (whole p)) with p in E by (unfold rank_of_tile, whole; cbn [panel row col]; ring). exact E.
Qed.
Section Points.
Variables (k N ns : nat) (pts : nat -> R) (radius Omega : R) (t : tile).
Variables (q q' : Z -> nat -> nat -> nat -> nat -> R) (rot rot' : Z -> rotation) (d1 d2 d1' d2' : Z -> nat -> nat -> nat -> R).
Hypothesis Hk : (1 <= k)%nat.
Hypothesis HN : (1 <= N)%nat.
Hypothesis Hns : (1 <= ns)%nat.
Let K := Z.of_nat k.
Hypothesis Ht : tile_ok K t.
Let r := rank_of_tile K t.
Let a := Z.to_nat (row t).
Let b := Z.to_nat (col t).
Lemma pt_cut row_ col_ p : X_pt k N ns pts r row_ col_ p = X_pt 1 (k * N) ns pts (panel t) (a * N + row_) (b * N + col_) p /\ Y_pt k N ns pts r row_ col_ p = Y_pt 1 (k * N) ns pts (panel t) (a * N + row_) (b * N + col_) p.
Proof.
  unfold X_pt, Y_pt. destruct (rows_at k t Hk Ht) as [E1 E2]. fold K in E1, E2. fold r in E1, E2. rewrite E1, E2. destruct Ht as (Hp & _). destruct (rows_one (panel t) Hp) as [-> ->].
  split; rewrite (line_serial k N) by assumption; f_equal; unfold a, b; ring.
Qed.
Lemma sqrtG_pt_cut row_ col_ p : sqrtG_pt k N ns pts radius r row_ col_ p = sqrtG_pt 1 (k * N) ns pts radius (panel t) (a * N + row_) (b * N + col_) p.
Proof. unfold sqrtG_pt. destruct (pt_cut row_ col_ p) as [-> ->]. rewrite dx_serial by assumption. reflexivity. Qed.
Lemma H_pt_cut row_ col_ p : H_pt k N ns pts radius r row_ col_ p = H_pt 1 (k * N) ns pts radius (panel t) (a * N + row_) (b * N + col_) p.
Proof. unfold H_pt. destruct (pt_cut row_ col_ p) as [-> ->]. rewrite dx_serial by assumption. reflexivity. Qed.
Variables row_ col_ p : nat.
Hypothesis cut_q : forall v, (v < 3)%nat -> q r v row_ col_ p = q' (panel t) v (a * N + row_)%nat (b * N + col_)%nat p.
Hypothesis cut_rot : rot r = rot' (panel t).
Hypothesis cut_d1 : d1 r row_ col_ p = d1' (panel t) (a * N + row_)%nat (b * N + col_)%nat p.
Hypothesis cut_d2 : d2 r row_ col_ p = d2' (panel t) (a * N + row_)%nat (b * N + col_)%nat p.
Lemma flux_x1_cut v : flux_x1 k N ns pts radius q r v row_ col_ p = flux_x1 1 (k * N) ns pts radius q' (panel t) v (a * N + row_) (b * N + col_) p.
Proof. unfold flux_x1. now rewrite sqrtG_pt_cut, H_pt_cut, !cut_q by lia. Qed.
Lemma flux_x2_cut v : flux_x2 k N ns pts radius q r v row_ col_ p = flux_x2 1 (k * N) ns pts radius q' (panel t) v (a * N + row_) (b * N + col_) p.
Proof. unfold flux_x2. now rewrite sqrtG_pt_cut, H_pt_cut, !cut_q by lia. Qed.
Lemma forcing_cut v : forcing k N ns pts radius q Omega rot d1 d2 r v row_ col_ p = forcing 1 (k * N) ns pts radius q' Omega rot' d1' d2' (panel t) v (a * N + row_) (b * N + col_) p.
Proof. unfold forcing. cbv zeta. rewrite H_pt_cut, !cut_q, cut_rot, cut_d1, cut_d2 by lia. destruct (pt_cut row_ col_ p) as [-> ->]. rewrite dx_serial by assumption. reflexivity. Qed.
End Points.
