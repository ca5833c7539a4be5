(** The right-hand side of the shallow water equations and the global integrals do not depend on how the panels are cut into tiles. *)
From Coq Require Import Reals ZArith Lia Arith.
From Verif Require Import TopologyModel TopologySpec TopologyProofs GeoModel SwModel SwSpec SwParallel.
From mathcomp Require Import all_ssreflect all_algebra.
From Verif Require Import RField OpModel OpTensor FluxModel RhsModel SwRhs SwCutSpec.
Set Implicit Arguments.
Unset Strict Implicit.
Unset Printing Implicit Defensive.
Import GRing.Theory.
Delimit Scope R_scope with re.
Delimit Scope Z_scope with zz.
Local Open Scope ring_scope.

Lemma apply_op_ext m (f g : nat -> R) (M : nat -> nat -> R) j : (forall i, (i < m)%N -> f i = g i) -> apply_op m f M j = apply_op m g M j.
Proof. move=> H. apply: eq_bigr => i _. by rewrite H. Qed.

Section Cut.
Variables (k N ns : nat) (pts : seq R) (radius Omega : R) (rot : Z -> rotation) (Tc T : option topography) (q F : Z -> nat -> nat -> nat -> nat -> R).
Hypothesis Hk : (0 < k)%N.
Hypothesis HN : (0 < N)%N.
Hypothesis Hns : (0 < ns)%N.
Hypothesis E : same_state k N ns q F.
Let K := Z.of_nat k.
Hypothesis ET : same_topography k N ns Tc T.
Let a t := Z.to_nat (TopologySpec.row t).
Let b t := Z.to_nat (TopologySpec.col t).
Lemma Kpos : (1 <= K)%zz.
Proof. rewrite /K. move/ltP: Hk. lia. Qed.
Lemma cut_at (G : Z -> nat -> nat -> nat -> R) t i j p : tile_ok K t -> cut k N G (rank_of_tile K t) i j p = G (panel t) (a t * N + i)%coq_nat (b t * N + j)%coq_nat p.
Proof. move=> Ht. by rewrite /cut (tile_of_rank_of _ _ Kpos Ht). Qed.
Lemma cutj_at (G : Z -> nat -> nat -> nat -> R) t i j p : tile_ok K t -> cut_j k N G (rank_of_tile K t) i j p = G (panel t) (b t * N + i)%coq_nat (a t * N + j)%coq_nat p.
Proof. move=> Ht. by rewrite /cut_j (tile_of_rank_of _ _ Kpos Ht). Qed.
Lemma rank_in t : tile_ok K t -> (0 <= rank_of_tile K t < 6 * Z.of_nat k * Z.of_nat k)%zz.
Proof. rewrite -/K /tile_ok /rank_of_tile. have := Kpos. move: K => K'. nia. Qed.
Lemma q_at t v i j p : tile_ok K t -> (v < 3)%N -> (i < N)%N -> (j < N)%N -> (p < ns * ns)%N -> q (rank_of_tile K t) v i j p = F (panel t) v (a t * N + i)%coq_nat (b t * N + j)%coq_nat p.
Proof. move=> Ht *. by rewrite E ?cut_at //; apply: rank_in. Qed.
Lemma ground_at t i j p : tile_ok K t -> (i < N)%N -> (j < N)%N -> (p < ns * ns)%N ->
  hsurf (ground Tc) (rank_of_tile K t) i j p = hsurf (ground T) (panel t) (a t * N + i)%coq_nat (b t * N + j)%coq_nat p /\
  dzdx1 (ground Tc) (rank_of_tile K t) i j p = dzdx1 (ground T) (panel t) (a t * N + i)%coq_nat (b t * N + j)%coq_nat p /\
  dzdx2 (ground Tc) (rank_of_tile K t) i j p = dzdx2 (ground T) (panel t) (a t * N + i)%coq_nat (b t * N + j)%coq_nat p.
Proof.
  move=> Ht Hi Hj Hp. move: ET. rewrite /same_topography. case: Tc => [A|]; case: T => [B|] //= H.
  have [H1 _] := H _ (rank_in Ht). have := H1 i j p Hi Hj Hp. by rewrite !cut_at.
Qed.
Lemma outside_outer e p : outer N ns e p = false -> ~ outside N ns e p.
Proof. move=> H [[E1 /ltP E2]|[E1 /leP E2]]; move: H E1; rewrite /outer -?plusE => H E1; lia. Qed.
Lemma Q_at t v i j p : tile_ok K t -> (v < 3)%N -> (i < N)%N -> (j < N)%N -> (p < ns * ns)%N -> Q_unpacked Tc q (rank_of_tile K t) v i j p = Q_unpacked T F (panel t) v (a t * N + i)%coq_nat (b t * N + j)%coq_nat p.
Proof. move=> Ht Hv Hi Hj Hp. have [H _] := ground_at Ht Hi Hj Hp. by rewrite /Q_unpacked !q_at // H. Qed.
Lemma pred_add (x y : nat) : (1 <= y)%coq_nat -> ((x + y)%coq_nat).-1 = (x + y.-1)%coq_nat.
Proof. lia. Qed.
Lemma pred_lt (y n : nat) : (1 <= y)%coq_nat /\ (y <= n)%coq_nat -> (y.-1 < n)%N.
Proof. move=> H. apply/ltP. lia. Qed.
Lemma ext_i_cut t v x e p : tile_ok K t -> (v < 3)%coq_nat -> (x < N)%coq_nat -> (1 <= e)%coq_nat /\ (e <= N)%coq_nat ->
  ext_i ns pts Tc q (rank_of_tile K t) v x e p = ext_i ns pts T F (panel t) v (a t * N + x)%coq_nat (b t * N + e)%coq_nat p.
Proof. move=> Ht /ltP Hv /ltP Hx He. rewrite /ext_i. apply: apply_op_ext => i Hi. rewrite pred_add; [|by case: He]. apply: Q_at => //. exact: pred_lt. Qed.
Lemma ext_j_cut t v x e p : tile_ok K t -> (v < 3)%coq_nat -> (x < N)%coq_nat -> (1 <= e)%coq_nat /\ (e <= N)%coq_nat ->
  ext_j ns pts Tc q (rank_of_tile K t) v x e p = ext_j ns pts T F (panel t) v (b t * N + x)%coq_nat (a t * N + e)%coq_nat p.
Proof. move=> Ht /ltP Hv /ltP Hx He. rewrite /ext_j. apply: apply_op_ext => i Hi. rewrite pred_add; [|by case: He]. apply: Q_at => //. exact: pred_lt. Qed.
Lemma topo_i_cut t x e p : tile_ok K t -> (x < N)%coq_nat -> (e <= N + 1)%coq_nat -> outer N ns e p = false ->
  hsurf_itf_i (ground Tc) (rank_of_tile K t) x e p = hsurf_itf_i (ground T) (panel t) (a t * N + x)%coq_nat (b t * N + e)%coq_nat p.
Proof.
  move=> Ht /ltP Hx /leP He /outside_outer Ho. move: ET. rewrite /same_topography. case: Tc => [A|]; case: T => [B|] //= H.
  have [_ H1] := H _ (rank_in Ht). have [-> _] := H1 x e p Hx He Ho. exact: cut_at.
Qed.
Lemma topo_j_cut t x e p : tile_ok K t -> (x < N)%coq_nat -> (e <= N + 1)%coq_nat -> outer N ns e p = false ->
  hsurf_itf_j (ground Tc) (rank_of_tile K t) x e p = hsurf_itf_j (ground T) (panel t) (b t * N + x)%coq_nat (a t * N + e)%coq_nat p.
Proof.
  move=> Ht /ltP Hx /leP He /outside_outer Ho. move: ET. rewrite /same_topography. case: Tc => [A|]; case: T => [B|] //= H.
  have [_ H1] := H _ (rank_in Ht). have [_ ->] := H1 x e p Hx He Ho. exact: cutj_at.
Qed.
Lemma rhs_tile t v i j p : tile_ok K t -> (v < 3)%N -> (i < N)%N -> (j < N)%N -> (p < ns * ns)%N ->
  sw_rhs k N ns pts radius Omega (cut_rotation k rot) Tc q (rank_of_tile K t) v i j p = sw_rhs 1 (k * N)%coq_nat ns pts radius Omega rot T F (panel t) v (a t * N + i)%coq_nat (b t * N + j)%coq_nat p.
Proof.
  move=> Ht Hv Hi Hj Hp. have Hk' := ltP Hk. have HN' := ltP HN. have Hns' := ltP Hns. have Hv' := ltP Hv. have Hi' := ltP Hi. have Hj' := ltP Hj.
  have Hq p' : (p' < ns * ns)%N -> forall v, (v < 3)%coq_nat -> q (rank_of_tile K t) v i j p' = F (panel t) v (a t * N + i)%coq_nat (b t * N + j)%coq_nat p'.
    by move=> Hp' v' /ltP ?; apply: q_at.
  rewrite /sw_rhs /sw_df1 /sw_df2 /itf_flux_i /itf_flux_j. congr (_ * (- (_ + _) - (_ + _)) - _).
  - rewrite (sqrtG_pt_cut k N ns (point pts) radius t) //.
  - apply: apply_op_ext => p' Hp'. apply: flux_x1_cut => //. exact: Hq.
  - apply: apply_op_ext => p' /ltP Hp'. rewrite (@flux_i_cut k N ns (point pts) radius _ _ _ _ Hk' HN' Hns' ext_i_cut ext_j_cut _ (hsurf_itf_j (ground Tc)) _ _ topo_i_cut topo_j_cut) //.
    + congr (flux_i _ _ _ _ _ _ _ _ _ _ _ _ _). exact: Nat.add_succ_r.
    + lia.
  - apply: apply_op_ext => p' Hp'. apply: flux_x2_cut => //. exact: Hq.
  - apply: apply_op_ext => p' /ltP Hp'. rewrite (@flux_j_cut k N ns (point pts) radius _ _ _ _ Hk' HN' Hns' ext_i_cut ext_j_cut (hsurf_itf_i (ground Tc)) _ _ _ topo_i_cut topo_j_cut) //.
    + congr (flux_j _ _ _ _ _ _ _ _ _ _ _ _ _). exact: Nat.add_succ_r.
    + lia.
  - apply: forcing_cut => //.
    + exact: Hq.
    + by rewrite /cut_rotation tile_of_rank_of //; apply: Kpos.
    + by have [_ []] := ground_at Ht Hi Hj Hp.
    + by have [_ []] := ground_at Ht Hi Hj Hp.
Qed.
Lemma rhs_cut : same_state k N ns (sw_rhs k N ns pts radius Omega (cut_rotation k rot) Tc q) (sw_rhs 1 (k * N)%coq_nat ns pts radius Omega rot T F).
Proof.
  move=> r v i j p Hr Hv Hi Hj Hp. have Ht := tile_of_rank_ok K r Kpos Hr. rewrite -{1}(@rank_of_tile_of_rank K r Kpos). exact: rhs_tile.
Qed.
End Cut.

(** ** Global integrals *)
Section Integral.
Variables (k N ns : nat) (pts ws : seq R) (radius : R) (f F : Z -> nat -> nat -> nat -> R).
Hypothesis Hk : (0 < k)%N.
Hypothesis HN : (0 < N)%N.
Hypothesis Hns : (0 < ns)%N.
Let K := Z.of_nat k.
Hypothesis E : forall r i j p, (0 <= r < 6 * K * K)%zz -> (i < N)%N -> (j < N)%N -> (p < ns * ns)%N -> f r i j p = cut k N F r i j p.
Lemma integral_cut : global_integral_2d k N ns pts ws radius f = global_integral_2d 1 (k * N)%N ns pts ws radius F.
Proof.
  rewrite /global_integral_2d.
  pose A r i j : R := \sum_(y < ns) \sum_(x < ns) f r i j (y * ns + x)%N * sqrtG_pt k N ns (point pts) radius r i j (y * ns + x)%N * (ws`_y * ws`_x).
  pose B c i j : R := \sum_(y < ns) \sum_(x < ns) F c i j (y * ns + x)%N * sqrtG_pt 1 (k * N)%N ns (point pts) radius c i j (y * ns + x)%N * (ws`_y * ws`_x).
  rewrite (sum_split (6 * k) k (fun r => \sum_(i < N) \sum_(j < N) A (Z.of_nat r) i j)).
  rewrite (sum_split 6 k (fun ca => \sum_(b < k) \sum_(i < N) \sum_(j < N) A (Z.of_nat (ca * k + b)%N) i j)).
  rewrite -[(6 * 1 * 1)%N]/6%N. apply: eq_bigr => c _.
  rewrite (sum_split k N (fun i => \sum_(j < k * N) B (Z.of_nat c) i j)). apply: eq_bigr => a _. rewrite exchange_big /=. apply: eq_bigr => i _.
  rewrite (sum_split k N (fun j => B (Z.of_nat c) (a * N + i)%N j)). apply: eq_bigr => b _. apply: eq_bigr => j _.
  have Hc := ltP (ltn_ord c). have Ha := ltP (ltn_ord a). have Hb := ltP (ltn_ord b). have Hk' := ltP Hk. have HN' := ltP HN. have Hns' := ltP Hns.
  pose t := Tile (Z.of_nat c) (Z.of_nat a) (Z.of_nat b).
  have Ht : tile_ok K t by rewrite /tile_ok /K /=; lia.
  have -> : Z.of_nat ((c * k + a) * k + b)%N = rank_of_tile K t.
    rewrite /rank_of_tile /K /= -plusE -multE. lia.
  apply: eq_bigr => y _. apply: eq_bigr => x _.
  have Hp : (y * ns + x < ns * ns)%N by apply: (leq_trans (n := (y * ns + ns)%N)); rewrite ?ltn_add2l // -mulSnr leq_mul2r ltn_ord orbT.
  have Hr : (0 <= rank_of_tile K t < 6 * K * K)%zz by exact: rank_in.
  rewrite E // (sqrtG_pt_cut k N ns (point pts) radius t) // /cut (tile_of_rank_of K t) //=; first by rewrite !Nat2Z.id.
  exact: Kpos.
Qed.
End Integral.
