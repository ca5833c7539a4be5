(** The slopes of the layers and the Christoffel symbols do not depend on how the panels are cut into tiles. *)
From Coq Require Import Reals ZArith Lia Arith.
From Verif Require Import TopologyModel TopologySpec TopologyProofs GeoModel SwModel SwSpec SwParallel EulModel EulSpec EulEdges EulParallel EulCutSpec.
From mathcomp Require Import all_ssreflect all_algebra.
From Verif Require Import RField OpModel OpTensor FluxModel RhsModel SwRhs SwCutSpec SwParRhs EulRhs EulParRhs EulSlopes EulSlopeSpec.
Set Implicit Arguments.
Unset Strict Implicit.
Unset Printing Implicit Defensive.
Import GRing.Theory.
Delimit Scope R_scope with re.
Delimit Scope Z_scope with zz.
Local Open Scope ring_scope.

(** ** What a tile receives: the lines give the same as the slabs *)
Section Lines.
Variables (kk NN ns : nat) (pts : seq R) (deta : R) (H : heights) (t : tile) (d : side).
Hypothesis Hkk : (0 < kk)%coq_nat.
Hypothesis Hns : (0 < ns)%coq_nat.
Let KK := Z.of_nat kk.
Hypothesis Ht : tile_ok KK t.
Notation ei := (exch_i kk NN ns pts deta H).
Notation ej := (exch_j kk NN ns pts deta H).
Lemma lines_slabs l x z : (x < (NN * ns)%coq_nat)%coq_nat ->
  at_slab ns (halo_lines kk NN ns pts deta H (rank_of_tile KK t) d) l x z = at_slab ns (halo_vector kk NN ns (point pts) ei ej (rank_of_tile KK t) d) l x z.
Proof.
  move=> Hx. have HKK : (1 <= KK)%zz by rewrite /KK; lia.
  have A (T : Type) (o o' : slab T) b : (forall l x z, at_slab ns o l x z = at_slab ns o' l x z) -> at_slab ns (flip_if b (flip_lines NN ns) o) l x z = at_slab ns (flip_if b (flip_slab NN ns) o') l x z.
    move=> E. rewrite (@flip_lines_at' NN ns Hns _ b o l x z Hx) (@flip_slab_at NN ns Hns _ b o' l x z Hx). exact: E.
  rewrite /halo_lines /halo_vector /SwModel.size -/KK. rewrite !(alltoall_spec KK) //. cbn [received_slab]. exact: A.
Qed.
Lemma slope_halo v l x z : (1 <= v)%coq_nat /\ (v <= 3)%coq_nat -> (x < (NN * ns)%coq_nat)%coq_nat ->
  at_slab ns (halo_slope kk NN ns pts deta H (rank_of_tile KK t) v d) l x z = at_slab ns (halo_q kk NN ns (point pts) ei ej (rank_of_tile KK t) v d) l x z.
Proof.
  move=> Hv Hx. have E := lines_slabs l z Hx. case: v Hv => [|[|[|[|v]]]] Hv; try (exfalso; lia).
  - exact: (f_equal (fun c => c.1.1) E).
  - exact: (f_equal (fun c => c.1.2) E).
  - exact: (f_equal snd E).
Qed.
End Lines.

Lemma reach_low N ns b p : (b <= N)%coq_nat -> (p < (ns * ns)%coq_nat)%coq_nat -> reach N ns b ((ns * ns)%coq_nat + p)%coq_nat.
Proof. rewrite /reach. move: (ns * ns)%coq_nat => m. lia. Qed.
Lemma reach_high N ns b p : (b <= N)%coq_nat -> (p < (ns * ns)%coq_nat)%coq_nat -> reach N ns b.+1 p.
Proof. rewrite /reach. move: (ns * ns)%coq_nat => m. lia. Qed.

Section Cut.
Variables (k N NZ ns : nat) (pts : seq R) (deta : R) (H H' : heights).
Hypothesis Hk : (0 < k)%coq_nat.
Hypothesis HN : (0 < N)%coq_nat.
Hypothesis HZ : (0 < NZ)%coq_nat.
Hypothesis Hns : (0 < ns)%coq_nat.
Hypothesis EH : same_heights k N NZ ns H H'.
Let K := Z.of_nat k.
Let a t := Z.to_nat (TopologySpec.row t).
Let b t := Z.to_nat (TopologySpec.col t).
Let m := (ns * ns)%coq_nat.
Notation rk t := (rank_of_tile K t).
Lemma sides_at (f f' : nat -> nat -> R) o j p : (forall c p, (c <= N)%coq_nat -> (p < m)%coq_nat -> f c p = f' (o + c)%coq_nat p) -> (j < N)%coq_nat -> (p < (2 * m)%coq_nat)%coq_nat -> sides ns f j.+1 p = sides ns f' (o + j)%coq_nat.+1 p.
Proof.
  move=> E Hj Hp. rewrite /sides. change (itf_size ns) with m. cbn [Nat.pred]. case: (Nat.ltb_spec p m) => Hm.
  - apply: E => //. lia.
  - have -> : (o + j)%coq_nat.+1 = (o + j.+1)%coq_nat by lia. apply: E; lia.
Qed.
Lemma slope_cut c t l i j p : tile_ok K t -> (l < NZ)%coq_nat -> (i < N)%coq_nat -> (j < N)%coq_nat ->
  slope k N ns pts deta H c (rk t) l i j p = slope 1 (k * N)%coq_nat ns pts deta H' c (panel t) l (a t * N + i)%coq_nat (b t * N + j)%coq_nat p.
Proof.
  move: EH => [E0 [E1 [E2 E3]]] Ht Hl Hi Hj. rewrite /slope (dx_serial k N Hk HN).
  have P p' : (p' < Nat.pow ns 3)%coq_nat -> hz_pt H (rk t) l i j p' = hz_pt H' (panel t) l (a t * N + i)%coq_nat (b t * N + j)%coq_nat p' by move=> Hp'; exact: (pt_at Hk HN HZ Hns E0).
  case: c => [|[|c]]; congr (_ * _ / _).
  - apply: (df1_ext pts Hk HN HZ Hns) => p' Hp'; first exact: P. apply: (@sides_at _ _ (b t * N)%coq_nat) => // x y Hx Hy. exact: (i_at Hk HN HZ Hns E1).
  - apply: (df2_ext pts Hk HN HZ Hns) => p' Hp'; first exact: P. apply: (@sides_at _ _ (a t * N)%coq_nat) => // x y Hx Hy. exact: (j_at Hk HN HZ Hns E2).
  - apply: (df3_ext pts Hk HN HZ Hns) => p' Hp'; first exact: P. rewrite /sides. change (itf_size ns) with m. case: (Nat.ltb_spec p' m) => Hm; apply: (k_at Hk HN HZ Hns E3) => //; cbn [Nat.pred]; rewrite -?/m; lia.
Qed.
Lemma pred_cut o e : (1 <= e)%coq_nat -> (o + e)%coq_nat.-1 = (o + e.-1)%coq_nat.
Proof. lia. Qed.
Lemma ex_i_cut c t l x e p : tile_ok K t -> (l < NZ)%coq_nat -> (x < N)%coq_nat -> (1 <= e)%coq_nat /\ (e <= N)%coq_nat ->
  slope_ex_i k N ns pts deta H c (rk t) l x e p = slope_ex_i 1 (k * N)%coq_nat ns pts deta H' c (panel t) l (a t * N + x)%coq_nat (b t * N + e)%coq_nat p.
Proof. move=> Ht Hl Hx [H1 H2]. rewrite /slope_ex_i pred_cut //. apply: apply_op_ext => i _. apply: slope_cut => //. lia. Qed.
Lemma ex_j_cut c t l x e p : tile_ok K t -> (l < NZ)%coq_nat -> (x < N)%coq_nat -> (1 <= e)%coq_nat /\ (e <= N)%coq_nat ->
  slope_ex_j k N ns pts deta H c (rk t) l x e p = slope_ex_j 1 (k * N)%coq_nat ns pts deta H' c (panel t) l (b t * N + x)%coq_nat (a t * N + e)%coq_nat p.
Proof. move=> Ht Hl Hx [H1 H2]. rewrite /slope_ex_j pred_cut //. apply: apply_op_ext => i _. apply: slope_cut => //. lia. Qed.
Lemma ex_k_cut c t i j e p : tile_ok K t -> (i < N)%coq_nat -> (j < N)%coq_nat -> (1 <= e)%coq_nat /\ (e <= NZ)%coq_nat ->
  slope_ex_k k N ns pts deta H c (rk t) i j e p = slope_ex_k 1 (k * N)%coq_nat ns pts deta H' c (panel t) (a t * N + i)%coq_nat (b t * N + j)%coq_nat e p.
Proof. move=> Ht Hi Hj [H1 H2]. rewrite /slope_ex_k. apply: apply_op_ext => p' _. apply: slope_cut => //. lia. Qed.
Lemma at_i t x e p p' : tile_ok K t -> X_i k N (rk t) e p = X_i 1 (k * N)%coq_nat (panel t) (b t * N + e)%coq_nat p /\ Y_i k N ns (point pts) (rk t) x p' = Y_i 1 (k * N)%coq_nat ns (point pts) (panel t) (a t * N + x)%coq_nat p'.
Proof.
  move=> Ht. have [M1 [M2 [M3 M4]]] := my_place k N ns (point pts) Hk HN Hns t Ht. rewrite /X_i /Y_i. rewrite M1 M2 M3 M4. split; first exact: (itf_serial k N _ _ Hk HN). exact: (line_cut k N ns (point pts) Hk HN Hns).
Qed.
Lemma at_j t x e p p' : tile_ok K t -> X_j k N ns (point pts) (rk t) x p' = X_j 1 (k * N)%coq_nat ns (point pts) (panel t) (b t * N + x)%coq_nat p' /\ Y_j k N (rk t) e p = Y_j 1 (k * N)%coq_nat (panel t) (a t * N + e)%coq_nat p.
Proof.
  move=> Ht. have [M1 [M2 [M3 M4]]] := my_place k N ns (point pts) Hk HN Hns t Ht. rewrite /X_j /Y_j. rewrite M1 M2 M3 M4. split; last exact: (itf_serial k N _ _ Hk HN). exact: (line_cut k N ns (point pts) Hk HN Hns).
Qed.
Lemma beside_cut o e p : (1 <= e)%coq_nat -> beside ns (o + e)%coq_nat p = (o + beside ns e p)%coq_nat.
Proof. move=> He. rewrite /beside. case: (Nat.ltb_spec p (itf_size ns)) => _ //. lia. Qed.
Lemma exch_i_cut t v l x e p : tile_ok K t -> True -> (l < NZ)%coq_nat -> (x < N)%coq_nat -> (1 <= e)%coq_nat /\ (e <= N)%coq_nat ->
  exch_i k N ns pts deta H (rk t) v l x e p = exch_i 1 (k * N)%coq_nat ns pts deta H' (panel t) v l (a t * N + x)%coq_nat (b t * N + e)%coq_nat p.
Proof.
  move=> Ht _ Hl Hx He. rewrite /exch_i. rewrite !ex_i_cut // (beside_cut _ _ (proj1 He)).
  have [-> ->] := at_i x (beside ns e p) p (if Nat.ltb p (itf_size ns) then p else Nat.sub p (itf_size ns)) Ht. by [].
Qed.
Lemma exch_j_cut t v l x e p : tile_ok K t -> True -> (l < NZ)%coq_nat -> (x < N)%coq_nat -> (1 <= e)%coq_nat /\ (e <= N)%coq_nat ->
  exch_j k N ns pts deta H (rk t) v l x e p = exch_j 1 (k * N)%coq_nat ns pts deta H' (panel t) v l (b t * N + x)%coq_nat (a t * N + e)%coq_nat p.
Proof.
  move=> Ht _ Hl Hx He. rewrite /exch_j. rewrite !ex_j_cut // (beside_cut _ _ (proj1 He)).
  have [-> ->] := at_j x (beside ns e p) p (if Nat.ltb p (itf_size ns) then p else Nat.sub p (itf_size ns)) Ht. by [].
Qed.
Let any (v : nat) : Prop := True.
Let inl (l : nat) : Prop := (l < NZ)%coq_nat.
Section Halo.
Variables (t : tile) (v l : nat).
Hypothesis Ht : tile_ok K t.
Hypothesis Hv : (1 <= v)%coq_nat /\ (v <= 3)%coq_nat.
Hypothesis Hl : (l < NZ)%coq_nat.
Let S_ := halo_slope k N ns pts deta H (rk t) v.
Let S' := halo_slope 1 (k * N)%coq_nat ns pts deta H' (panel t) v.
Lemma slope_edge d x z : at_edge K t d = true -> (x < (N * ns)%coq_nat)%coq_nat -> at_slab ns (S_ d) l x z = at_slab ns (S' d) l (Z.to_nat (along_tile t d) * (N * ns)%coq_nat + x)%coq_nat z.
Proof.
  move=> E Hx. rewrite /S_ (slope_halo pts deta H d Hk Hns Ht l z Hv Hx).
  have HX := @X_lt k N ns (point pts) Hk HN Hns t d x Ht Hx. have HW := @whole_tile k N ns (point pts) Hk HN Hns t Ht.
  have EW := @slope_halo 1 (k * N)%coq_nat ns pts deta H' (whole (panel t)) d (le_n 1) Hns HW v l _ z Hv HX. change (Z.of_nat 1) with 1%zz in EW. rewrite whole_rank in EW. rewrite /S' EW.
  have Hv4 : (v <= 4)%coq_nat by lia.
  exact: (@halo_at_edge k N ns (point pts) Hk HN Hns _ _ _ _ any inl exch_i_cut exch_j_cut t d v l x z Ht (fun _ _ => I) Hv4 Hl E Hx).
Qed.
Lemma slope_inner d x z : at_edge K t d = false -> (x < (N * ns)%coq_nat)%coq_nat -> at_slab ns (S_ d) l x z = at_slab ns (snt k N ns (exch_i k N ns pts deta H) (exch_j k N ns pts deta H) (nb K t d) v (opposite d)) l x z.
Proof. move=> E Hx. rewrite /S_ (slope_halo pts deta H d Hk Hns Ht l z Hv Hx). exact: (@halo_at_inside k N ns (point pts) Hk HN Hns _ _ t d v l x z Ht E Hx). Qed.
Lemma full_slope_i_cut x e p : (x < N)%coq_nat -> reach N ns e p -> full_slope_i k N ns pts deta H (rk t) v l x e p = full_slope_i 1 (k * N)%coq_nat ns pts deta H' (panel t) v l (a t * N + x)%coq_nat (b t * N + e)%coq_nat p.
Proof. move=> Hx He. exact: (@fill_i k N ns (point pts) Hk HN Hns _ _ _ _ any inl exch_i_cut exch_j_cut t v l S_ S' Ht I Hl slope_edge slope_inner R0 x e p Hx He). Qed.
Lemma full_slope_j_cut x e p : (x < N)%coq_nat -> reach N ns e p -> full_slope_j k N ns pts deta H (rk t) v l x e p = full_slope_j 1 (k * N)%coq_nat ns pts deta H' (panel t) v l (b t * N + x)%coq_nat (a t * N + e)%coq_nat p.
Proof. move=> Hx He. exact: (@fill_j k N ns (point pts) Hk HN Hns _ _ _ _ any inl exch_i_cut exch_j_cut t v l S_ S' Ht I Hl slope_edge slope_inner R0 x e p Hx He). Qed.
Lemma half_i_cut x e p : (x < N)%coq_nat -> (e <= N)%coq_nat -> (p < m)%coq_nat -> half_i k N ns pts deta H (rk t) v l x e p = half_i 1 (k * N)%coq_nat ns pts deta H' (panel t) v l (a t * N + x)%coq_nat (b t * N + e)%coq_nat p.
Proof.
  move=> Hx He Hp. rewrite /half_i. change (itf_size ns) with m. have E1 := full_slope_i_cut Hx (reach_low He Hp). have E2 := full_slope_i_cut Hx (reach_high He Hp). rewrite E1 E2. by rewrite -plus_n_Sm.
Qed.
Lemma half_j_cut x e p : (x < N)%coq_nat -> (e <= N)%coq_nat -> (p < m)%coq_nat -> half_j k N ns pts deta H (rk t) v l x e p = half_j 1 (k * N)%coq_nat ns pts deta H' (panel t) v l (b t * N + x)%coq_nat (a t * N + e)%coq_nat p.
Proof.
  move=> Hx He Hp. rewrite /half_j. change (itf_size ns) with m. have E1 := full_slope_j_cut Hx (reach_low He Hp). have E2 := full_slope_j_cut Hx (reach_high He Hp). rewrite E1 E2. by rewrite -plus_n_Sm.
Qed.
End Halo.
Lemma one_three : ((1 <= 1)%coq_nat /\ (1 <= 3)%coq_nat) /\ ((1 <= 2)%coq_nat /\ (2 <= 3)%coq_nat).
Proof. lia. Qed.
Lemma itf_i_cut3 c t l x e p : tile_ok K t -> (l < NZ)%coq_nat -> (x < N)%coq_nat -> (e <= N)%coq_nat -> (p < m)%coq_nat ->
  slope_itf_i k N ns pts deta H c (rk t) l x e p = slope_itf_i 1 (k * N)%coq_nat ns pts deta H' c (panel t) l (a t * N + x)%coq_nat (b t * N + e)%coq_nat p.
Proof.
  move=> Ht Hl Hx He Hp. have [V1 V2] := one_three. rewrite /slope_itf_i. have [-> ->] := at_i x e p p Ht. by rewrite (half_i_cut Ht V1 Hl Hx He Hp) (half_i_cut Ht V2 Hl Hx He Hp).
Qed.
Lemma itf_j_cut3 c t l x e p : tile_ok K t -> (l < NZ)%coq_nat -> (x < N)%coq_nat -> (e <= N)%coq_nat -> (p < m)%coq_nat ->
  slope_itf_j k N ns pts deta H c (rk t) l x e p = slope_itf_j 1 (k * N)%coq_nat ns pts deta H' c (panel t) l (b t * N + x)%coq_nat (a t * N + e)%coq_nat p.
Proof.
  move=> Ht Hl Hx He Hp. have [V1 V2] := one_three. rewrite /slope_itf_j. have [-> ->] := at_j x e p p Ht. by rewrite (half_j_cut Ht V1 Hl Hx He Hp) (half_j_cut Ht V2 Hl Hx He Hp).
Qed.
Lemma itf_k_cut3 c t i j e p : tile_ok K t -> (i < N)%coq_nat -> (j < N)%coq_nat -> (e <= NZ)%coq_nat ->
  slope_itf_k k N NZ ns pts deta H c (rk t) i j e p = slope_itf_k 1 (k * N)%coq_nat NZ ns pts deta H' c (panel t) (a t * N + i)%coq_nat (b t * N + j)%coq_nat e p.
Proof.
  move=> Ht Hi Hj He. rewrite /slope_itf_k /dRdeta_itf_k. case: Nat.eqb_spec => E0; first by apply: ex_k_cut => //; lia. case: Nat.eqb_spec => E1; first by apply: ex_k_cut => //; lia.
  rewrite !ex_k_cut //; lia.
Qed.
(** ** Back to ranks *)
Lemma Kpos : (1 <= K)%zz.
Proof. rewrite /K. lia. Qed.
Lemma pt_back (f F : at_points) : (forall t l i j p, tile_ok K t -> (l < NZ)%coq_nat -> (i < N)%coq_nat -> (j < N)%coq_nat -> (p < Nat.pow ns 3)%coq_nat -> f (rk t) l i j p = F (panel t) l (a t * N + i)%coq_nat (b t * N + j)%coq_nat p) -> same_points k N NZ ns f F.
Proof. move=> E r l i j p Hr Hl Hi Hj Hp. have Ht := tile_of_rank_ok K r Kpos Hr. rewrite -{1}(@rank_of_tile_of_rank K r Kpos). exact: E. Qed.
Lemma i_back (f F : at_itf) : (forall t l i j p, tile_ok K t -> (l < NZ)%coq_nat -> (i < N)%coq_nat -> (j <= N)%coq_nat -> (p < m)%coq_nat -> f (rk t) l i j p = F (panel t) l (a t * N + i)%coq_nat (b t * N + j)%coq_nat p) -> same_i k N NZ ns f F.
Proof. move=> E r l i j p Hr Hl Hi Hj Hp. have Ht := tile_of_rank_ok K r Kpos Hr. rewrite -{1}(@rank_of_tile_of_rank K r Kpos). exact: E. Qed.
Lemma j_back (f F : at_itf) : (forall t l i j p, tile_ok K t -> (l < NZ)%coq_nat -> (i < N)%coq_nat -> (j <= N)%coq_nat -> (p < m)%coq_nat -> f (rk t) l i j p = F (panel t) l (b t * N + i)%coq_nat (a t * N + j)%coq_nat p) -> same_j k N NZ ns f F.
Proof. move=> E r l i j p Hr Hl Hi Hj Hp. have Ht := tile_of_rank_ok K r Kpos Hr. rewrite -{1}(@rank_of_tile_of_rank K r Kpos). exact: E. Qed.
Lemma k_back (f F : at_itf) : (forall t i j c p, tile_ok K t -> (i < N)%coq_nat -> (j < N)%coq_nat -> (c <= NZ)%coq_nat -> (p < m)%coq_nat -> f (rk t) i j c p = F (panel t) (a t * N + i)%coq_nat (b t * N + j)%coq_nat c p) -> same_k k N NZ ns f F.
Proof. move=> E r i j c p Hr Hi Hj Hc Hp. have Ht := tile_of_rank_ok K r Kpos Hr. rewrite -{1}(@rank_of_tile_of_rank K r Kpos). exact: E. Qed.
Theorem layers_cut : same_layers k N NZ ns (layers_of k N NZ ns pts deta H) (layers_of 1 (k * N)%coq_nat NZ ns pts deta H').
Proof.
  have [E0 [E1 [E2 E3]]] := EH. split; [|split; [|split]]; (split; [assumption|split; try split]).
  - apply: pt_back => t l i j p Ht Hl Hi Hj _. exact: slope_cut.
  - apply: pt_back => t l i j p Ht Hl Hi Hj _. exact: slope_cut.
  - apply: pt_back => t l i j p Ht Hl Hi Hj _. exact: slope_cut.
  - apply: i_back => t l i j p Ht Hl Hi Hj Hp. exact: itf_i_cut3.
  - apply: i_back => t l i j p Ht Hl Hi Hj Hp. exact: itf_i_cut3.
  - apply: j_back => t l i j p Ht Hl Hi Hj Hp. exact: itf_j_cut3.
  - apply: j_back => t l i j p Ht Hl Hi Hj Hp. exact: itf_j_cut3.
  - apply: k_back => t i j c p Ht Hi Hj Hc Hp. exact: itf_k_cut3.
  - apply: k_back => t i j c p Ht Hi Hj Hc Hp. exact: itf_k_cut3.
Qed.
End Cut.
