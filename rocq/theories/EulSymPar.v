(** The Christoffel symbols do not depend on how the panels are cut into tiles. *)
From Coq Require Import Reals ZArith Lia Arith.
From Verif Require Import TopologyModel TopologySpec TopologyProofs GeoModel GeoSpec GeoFinal SwModel SwSpec SwParallel EulModel EulSpec EulEdges EulParallel EulCutSpec EulRestSpec.
From mathcomp Require Import all_ssreflect all_algebra.
From Verif Require Import RField OpModel OpTensor FluxModel RhsModel SwRhs SwCutSpec SwParRhs EulRhs EulParRhs EulSymbols EulQuiet EulSlopes EulSlopeSpec EulSlopePar.
Set Implicit Arguments.
Unset Strict Implicit.
Unset Printing Implicit Defensive.
Import GRing.Theory.
Delimit Scope R_scope with re.
Delimit Scope Z_scope with zz.
Local Open Scope ring_scope.

Lemma reach_mid N ns e p : (1 <= e)%coq_nat -> (e <= N)%coq_nat -> (p < (2 * (ns * ns)%coq_nat)%coq_nat)%coq_nat -> reach N ns e p.
Proof. rewrite /reach. move: (ns * ns)%coq_nat => m. lia. Qed.
Lemma reach_mid_k NZ ns l p : (l < NZ)%coq_nat -> (p < (2 * (ns * ns)%coq_nat)%coq_nat)%coq_nat -> reach_k NZ ns l.+1 p.
Proof. rewrite /reach_k /meets. move: (ns * ns)%coq_nat => m. lia. Qed.
Lemma sum3_same f g : (forall i, f i = g i) -> sum3 f = sum3 g.
Proof. by move=> E; rewrite /sum3 !E. Qed.
Lemma system_ext s h h' R_ R_' G : (forall a b, h a b = h' a b) -> (forall a b c, R_ a b c = R_' a b c) -> solves_system s h R_ G -> solves_system s h' R_' G.
Proof.
  move=> E1 E2 S a b c Ha Hb Hc. rewrite -E2 -(S a b c Ha Hb Hc). apply: sum3_same => d. apply: sum3_same => e. apply: sum3_same => f. congr Rmult. apply: sum3_same => x. by rewrite !E1.
Qed.

Section Cut.
Variables (k N NZ ns : nat) (pts : seq R) (earth deta : R) (deep : bool) (geo geo' : layers).
Hypothesis Hk : (0 < k)%coq_nat.
Hypothesis HN : (0 < N)%coq_nat.
Hypothesis HZ : (0 < NZ)%coq_nat.
Hypothesis Hns : (0 < ns)%coq_nat.
Hypothesis EL : same_layers k N NZ ns geo geo'.
Let K := Z.of_nat k.
Notation rk t := (rank_of_tile K t).
Notation I_ t i := (Z.to_nat (TopologySpec.row t) * N + i)%coq_nat.
Notation J_ t j := (Z.to_nat (TopologySpec.col t) * N + j)%coq_nat.
Notation di := (eta_i_cut pts deta Hk HN HZ Hns EL).
Notation dj := (eta_j_cut pts deta Hk HN HZ Hns EL).
Notation dk := (eta_k_cut pts Hk HN HZ Hns EL).
Lemma grad_cut t a b c l i j p : tile_ok K t -> (l < NZ)%coq_nat -> (i < N)%coq_nat -> (j < N)%coq_nat ->
  grad_metric k N NZ ns pts earth deta deep geo (rk t) a b c l i j p = grad_metric 1 (k * N)%coq_nat NZ ns pts earth deta deep geo' (panel t) a b c l (I_ t i) (J_ t j) p.
Proof.
  move=> Ht Hl Hi Hj.
  have P x : (x < Nat.pow ns 3)%coq_nat -> hc k N ns pts earth deta deep geo (rk t) l i j x a b * sG k N ns pts earth deta deep geo (rk t) l i j x = hc 1 (k * N)%coq_nat ns pts earth deta deep geo' (panel t) l (I_ t i) (J_ t j) x a b * sG 1 (k * N)%coq_nat ns pts earth deta deep geo' (panel t) l (I_ t i) (J_ t j) x.
    by move=> Hx; rewrite (hc3 pts earth deta deep Hk HN HZ Hns EL Ht Hl Hi Hj a b Hx) (sG3 pts earth deta deep Hk HN HZ Hns EL Ht Hl Hi Hj Hx).
  have Sj : (J_ t j).+1 = (Z.to_nat (TopologySpec.col t) * N + j.+1)%coq_nat by lia. have Si : (I_ t i).+1 = (Z.to_nat (TopologySpec.row t) * N + i.+1)%coq_nat by lia.
  case: c => [|[|c]]; rewrite /grad_metric.
  - apply: (df1_ext pts Hk HN HZ Hns) => p' Hp'; first exact: P. have Re : reach N ns j.+1 p' by apply: reach_mid => //; lia. rewrite Sj.
    by rewrite (@h_i_cut k N NZ ns (point pts) earth deta deep geo geo' Hk HN Hns _ _ _ _ _ _ di dj dk (geo_i Hk HN HZ Hns EL) t l i a b j.+1 p' Ht Hl Hi Re)
               (@sG_i_cut k N NZ ns (point pts) earth deta deep geo geo' Hk HN Hns _ _ _ _ _ _ di dj dk (geo_i Hk HN HZ Hns EL) t l i j.+1 p' Ht Hl Hi Re).
  - apply: (df2_ext pts Hk HN HZ Hns) => p' Hp'; first exact: P. have Re : reach N ns i.+1 p' by apply: reach_mid => //; lia. rewrite Si.
    by rewrite (@h_j_cut k N NZ ns (point pts) earth deta deep geo geo' Hk HN Hns _ _ _ _ _ _ di dj dk (geo_j Hk HN HZ Hns EL) t l j a b i.+1 p' Ht Hl Hj Re)
               (@sG_j_cut k N NZ ns (point pts) earth deta deep geo geo' Hk HN Hns _ _ _ _ _ _ di dj dk (geo_j Hk HN HZ Hns EL) t l j i.+1 p' Ht Hl Hj Re).
  - apply: (df3_ext pts Hk HN HZ Hns) => p' Hp'; first exact: P. have Re := reach_mid_k Hl Hp'.
    by rewrite (@h_k_cut k N NZ ns (point pts) earth deta deep geo geo' Hk HN Hns _ _ _ _ _ _ di dj dk (geo_k Hk HN HZ Hns EL) HZ t i j a b l.+1 p' Ht Hi Hj Re)
               (@sG_k_cut k N NZ ns (point pts) earth deta deep geo geo' Hk HN Hns _ _ _ _ _ _ di dj dk (geo_k Hk HN HZ Hns EL) HZ t i j l.+1 p' Ht Hi Hj Re).
Qed.
End Cut.

Lemma inside_panel z k N x : (z < k)%coq_nat -> (x < N)%coq_nat -> (((z * N)%coq_nat + x)%coq_nat < (k * N)%coq_nat)%coq_nat.
Proof. move=> Hz Hx. have := Nat.mul_le_mono_r (S z) k N Hz. rewrite Nat.mul_succ_l. move: (z * N)%coq_nat (k * N)%coq_nat => A B. lia. Qed.
Section Symbols.
Variables (k N NZ : nat) (pts : seq R) (earth deta Omega : R) (deep : bool) (rot : Z -> rotation) (geo geo' : layers) (chr chr' : Z -> nat -> nat -> nat -> nat -> nat -> nat -> R).
Notation ns := (size pts).
Hypothesis Hk : (0 < k)%coq_nat.
Hypothesis HN : (0 < N)%coq_nat.
Hypothesis HZ : (0 < NZ)%coq_nat.
Hypothesis Hns : (0 < ns)%coq_nat.
Hypothesis Hdeta : deta <> 0%re.
Hypothesis EL : same_layers k N NZ ns geo geo'.
Hypothesis Hgeo : regular_layers k N NZ ns earth deep geo.
Hypothesis S1 : numeric_symbols k N NZ ns pts earth deta deep geo chr.
Hypothesis S2 : numeric_symbols 1 (k * N)%coq_nat NZ ns pts earth deta deep geo' chr'.
Hypothesis R1_ : rotation_symbols k N NZ ns pts earth deta Omega deep (cut_rotation k rot) geo chr.
Hypothesis R2_ : rotation_symbols 1 (k * N)%coq_nat NZ ns pts earth deta Omega deep rot geo' chr'.
Let K := Z.of_nat k.
Notation rk t := (rank_of_tile K t).
Notation I_ t i := (Z.to_nat (TopologySpec.row t) * N + i)%coq_nat.
Notation J_ t j := (Z.to_nat (TopologySpec.col t) * N + j)%coq_nat.
Lemma whole_in t i j : tile_ok K t -> (i < N)%coq_nat -> (j < N)%coq_nat -> is_rank 1 (panel t) /\ (I_ t i < (k * N)%coq_nat)%coq_nat /\ (J_ t j < (k * N)%coq_nat)%coq_nat.
Proof. move=> [Hp [Hr Hc]] Hi Hj. rewrite /is_rank. split; [lia|]. rewrite /K in Hr Hc. split; apply: (inside_panel (N := N)) => //; lia. Qed.
Theorem symbols_cut : same_symbols k N NZ ns chr chr'.
Proof.
  move=> a c Ha Hc. apply: (pt_back Hk HN HZ Hns) => t l i j p Ht Hl Hi Hj Hp. have [Wr [Wi Wj]] := whole_in Ht Hi Hj. have Tr := is_in Hk HN HZ Hns Ht.
  case: (Nat.lt_ge_cases c 3) => Hc3.
  - rewrite (R1_ Tr Hl Hi Hj Hp Ha Hc3) (R2_ Wr Hl Wi Wj Hp Ha Hc3). have [M1 [M2 [M3 M4]]] := my_place k N ns (point pts) Hk HN Hns t Ht. rewrite /X_pt3 /Y_pt3 M1 M2 M3 M4. rewrite !(line_cut k N ns (point pts) Hk HN Hns).
    rewrite {1}/cut_rotation (tile_of_rank_of _ _ (Kpos Hk HN HZ Hns) Ht). rewrite (dx_serial k N Hk HN).
    have G f Hf := geo_pt Hk HN HZ Hns EL (f := f) Hf Ht Hl Hi Hj Hp. rewrite (G z_pt) ?(G s1_pt) ?(G s2_pt) ?(G dRdeta_pt); tauto.
  - have [G [S E]] := S1 Tr Hl Hi Hj Hp. have [G' [S' E']] := S2 Wr Hl Wi Wj Hp.
    have [Hs [Sh [g [Sg Iv]]]] := metric_point Hk HN Hdeta Hgeo Tr Hl Hi Hj Hp. have [Un _] := system_facts _ _ _ _ _ Hs Sg Sh Iv (fun a b c _ _ _ => grad_sym k N NZ pts earth deta deep geo (rk t) a b c l i j p) S.
    have {}S' : solves_system (sG k N ns pts earth deta deep geo (rk t) l i j p) (hc k N ns pts earth deta deep geo (rk t) l i j p) (fun a b c => grad_metric k N NZ ns pts earth deta deep geo (rk t) a b c l i j p) G'.
      rewrite (sG3 pts earth deta deep Hk HN HZ Hns EL Ht Hl Hi Hj Hp). apply: system_ext S' => *; [symmetry; exact: (hc3 pts earth deta deep Hk HN HZ Hns EL Ht Hl Hi Hj)|symmetry; exact: (grad_cut pts earth deta deep Hk HN HZ Hns EL)].
    have {}Un b d : (b < 3)%coq_nat -> (d < 3)%coq_nat -> G' a b d = G a b d by move=> Hb Hd; apply: Un.
    have [E3 [E4 [E5 [E6 [E7 E8]]]]] := E a Ha. have [F3 [F4 [F5 [F6 [F7 F8]]]]] := E' a Ha. symmetry.
    case: c Hc Hc3 => [|[|[|[|[|[|[|[|[|c]]]]]]]]] Hc Hc3; try (exfalso; lia).
    + rewrite E3 F3. apply: Un; lia.
    + rewrite E4 F4. apply: Un; lia.
    + rewrite E5 F5. apply: Un; lia.
    + rewrite E6 F6. apply: Un; lia.
    + rewrite E7 F7. apply: Un; lia.
    + rewrite E8 F8. apply: Un; lia.
Qed.
End Symbols.
