(** Exchange of vectors without horizontal components, and of constants. *)
From Coq Require Import Reals ZArith Arith List Bool Lia Lra ZifyBool.
From Verif Require Import TopologyModel TopologySpec TopologyProofs ExchangeProofs GeoModel FluxModel FluxProofs FluxFaces SwModel SwSpec SwEdges SwRest EulModel EulSpec EulEdges EulParallel EulCutSpec EulRest.
Import ListNotations.
Local Open Scope R_scope.

Section Tiles.
Variables (k N NZ ns : nat) (pts : nat -> R).
Hypothesis Hk : (1 <= k)%nat.
Hypothesis HN : (1 <= N)%nat.
Hypothesis Hns : (1 <= ns)%nat.
Let K := Z.of_nat k.
Let m := (ns * ns)%nat.
Lemma flat_K : (1 <= K)%Z. Proof. unfold K. lia. Qed.
Lemma flat_rank t : tile_ok K t -> is_rank k (rank_of_tile K t).
Proof. unfold is_rank, tile_ok, rank_of_tile. fold K. pose proof flat_K. nia. Qed.
Lemma line_split b : (b < N * ns)%nat -> (b / ns < N /\ b mod ns < ns)%nat.
Proof. intro Hb. split; [apply Nat.div_lt_upper_bound; nia|apply Nat.mod_upper_bound; lia]. Qed.
Lemma flat_split p : (p < m)%nat -> (p / ns < ns /\ p mod ns < ns)%nat.
Proof. intro Hp. unfold m in Hp. split; [apply Nat.div_lt_upper_bound; nia|apply Nat.mod_upper_bound; lia]. Qed.

Section Vector.
Variables (ext_i ext_j : Z -> nat -> nat -> nat -> face).
Hypothesis zero_i : forall r v l x e p, is_rank k r -> (1 <= v <= 2)%nat -> (l < NZ)%nat -> (x < N)%nat -> (1 <= e <= N)%nat -> (p < 2 * m)%nat -> ext_i r v l x e p = 0.
Hypothesis zero_j : forall r v l x e p, is_rank k r -> (1 <= v <= 2)%nat -> (l < NZ)%nat -> (x < N)%nat -> (1 <= e <= N)%nat -> (p < 2 * m)%nat -> ext_j r v l x e p = 0.
Lemma sent_zero r v d l x z y : is_rank k r -> (1 <= v <= 2)%nat -> (l < NZ)%nat -> (x < N)%nat -> (z < ns)%nat -> (y < ns)%nat -> sent_slab N ns (ext_i r v) (ext_j r v) d l x z y = 0.
Proof.
  intros Hr Hv Hl Hx Hz Hy. assert (z * ns + y < m)%nat by (unfold m; nia). assert (itf_size ns = m) by reflexivity.
  unfold sent_slab. destruct d; first [apply zero_i|apply zero_j]; try assumption; lia.
Qed.
Lemma vector_zero t v d l x z : tile_ok K t -> (1 <= v <= 2)%nat -> (l < NZ)%nat -> (x < N * ns)%nat -> (z < ns)%nat -> at_slab ns (halo_q k N ns pts ext_i ext_j (rank_of_tile K t) v d) l x z = 0.
Proof.
  intros Ht Hv Hl Hx Hz. pose proof flat_K as HK. pose proof (nb_ok K t d HK Ht) as Hs. pose proof (back_lt (N * ns) (nb_flip K t d) _ Hx) as Hb.
  assert (S_ : forall w, (1 <= w <= 2)%nat -> at_slab ns (sent_slab N ns (ext_i (rank_of_tile K (nb K t d)) w) (ext_j (rank_of_tile K (nb K t d)) w) (back_side K t d)) l (back_index (N * ns) (nb_flip K t d) x) z = 0).
  { intros w Hw. unfold at_slab. destruct (line_split _ Hb). apply sent_zero; try assumption. apply flat_rank, Hs. }
  assert (V : exists w, at_slab ns (halo_vector k N ns pts ext_i ext_j (rank_of_tile K t) d) l x z = (0, 0, w)).
  { unfold K. rewrite received_vector by assumption. cbv zeta. unfold side_val. fold K. rewrite !S_ by lia.
    destruct Hs as (Hp & _). assert (Z : forall y, (if at_edge K (nb K t d) (back_side K t d) then lookup2 convert_contras (panel (nb K t d)) (back_side K t d) convert_default else convert_default) 0 0 y = (0, 0)).
    { intro y'. destruct (at_edge _ _ _); [apply convert_zero, Hp|reflexivity]. } rewrite Z. eexists. reflexivity. }
  destruct V as [w V]. unfold halo_q, at_slab. unfold at_slab in V. destruct v as [|[|[|v]]]; try lia; rewrite V; reflexivity.
Qed.
End Vector.

Section Scalar.
Variables (f_i f_j : Z -> nat -> nat -> face) (c : R).
Hypothesis const_i : forall r l x e p, is_rank k r -> (l < NZ)%nat -> (x < N)%nat -> (1 <= e <= N)%nat -> (p < 2 * m)%nat -> f_i r l x e p = c.
Hypothesis const_j : forall r l x e p, is_rank k r -> (l < NZ)%nat -> (x < N)%nat -> (1 <= e <= N)%nat -> (p < 2 * m)%nat -> f_j r l x e p = c.
Lemma sent_const r d l x z y : is_rank k r -> (l < NZ)%nat -> (x < N)%nat -> (z < ns)%nat -> (y < ns)%nat -> sent_slab N ns (f_i r) (f_j r) d l x z y = c.
Proof.
  intros Hr Hl Hx Hz Hy. assert (z * ns + y < m)%nat by (unfold m; nia). assert (itf_size ns = m) by reflexivity.
  unfold sent_slab. destruct d; first [apply const_i|apply const_j]; try assumption; lia.
Qed.
Lemma scalar_const t d l x z : tile_ok K t -> (l < NZ)%nat -> (x < N * ns)%nat -> (z < ns)%nat -> at_slab ns (halo_dR k N ns f_i f_j (rank_of_tile K t) d) l x z = c.
Proof.
  intros Ht Hl Hx Hz. pose proof flat_K as HK. pose proof (nb_ok K t d HK Ht) as Hs. pose proof (back_lt (N * ns) (nb_flip K t d) _ Hx) as Hb.
  unfold halo_dR. unfold K. rewrite (received_scalar k N ns pts t d Hk Hns Ht _ _ l x z (fun b f l x z Hx => flip_lines_at' N ns Hns b f l x z Hx) Hx). fold K.
  unfold at_slab. destruct (line_split _ Hb). apply sent_const; try assumption. apply flat_rank, Hs.
Qed.
End Scalar.

(** an array with its halo, and the average at a boundary *)
Lemma average_const (fill : R) (lo hi : slab R) (inside : nat -> nat -> face) (c : R) l x b p : (b <= N)%nat -> (p < m)%nat -> (x < N)%nat ->
  (forall y z, (y < ns)%nat -> (z < ns)%nat -> at_slab ns lo l (x * ns + y) z = c) -> (forall y z, (y < ns)%nat -> (z < ns)%nat -> at_slab ns hi l (x * ns + y) z = c) ->
  (forall e p, (1 <= e <= N)%nat -> (p < 2 * m)%nat -> inside l x e p = c) ->
  1 / 2 * fill_halo N ns fill lo hi inside l x b (m + p)%nat + 1 / 2 * fill_halo N ns fill lo hi inside l x (S b) p = c.
Proof.
  intros Hb Hp Hx Hlo Hhi Hin.
  assert (A : fill_halo N ns fill lo hi inside l x b (m + p)%nat = c).
  { unfold fill_halo. change (itf_size ns) with m. destruct ((1 <=? b) && (b <=? N))%nat eqn:C; [apply Hin; lia|]. replace (b =? 0)%nat with true by lia. replace (m <=? m + p)%nat with true by lia.
    replace (m + p - m)%nat with p by lia. destruct (flat_split p Hp). rewrite (zero_slab ns) by assumption. apply Hlo; assumption. }
  assert (B : fill_halo N ns fill lo hi inside l x (S b) p = c).
  { unfold fill_halo. change (itf_size ns) with m. destruct ((1 <=? S b) && (S b <=? N))%nat eqn:C; [apply Hin; lia|]. replace (S b =? 0)%nat with false by lia. replace (p <? m)%nat with true by lia.
    destruct (flat_split p Hp). rewrite (zero_slab ns) by assumption. apply Hhi; assumption. }
  rewrite A, B. lra.
Qed.
End Tiles.
