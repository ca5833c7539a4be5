(** Layers without mountains are level. *)
From Coq Require Import Reals ZArith Lia Lra Arith.
From Verif Require Import TopologyModel TopologySpec TopologyProofs GeoModel SwModel SwSpec EulModel EulSpec EulEdges EulParallel EulCutSpec EulRestSpec EulFlatEdges.
From mathcomp Require Import all_ssreflect all_algebra.
From Verif Require Import RField RNum OpModel OpTensor OpFinal FluxModel RhsModel SwRhs SwParRhs EulRhs EulParRhs EulStill EulSlopes EulSlopeSpec EulSlopePar EulTerrain EulTerrainSpec EulTerrainProofs.
Set Implicit Arguments.
Unset Strict Implicit.
Unset Printing Implicit Defensive.
Import GRing.Theory.
Delimit Scope R_scope with re.
Delimit Scope Z_scope with zz.
Local Open Scope ring_scope.

Section Flat.
Variables (k N NZ : nat) (pts : seq R) (ztop c : R) (T : terrain).
Notation ns := (size pts).
Hypothesis Hk : (0 < k)%coq_nat.
Hypothesis HN : (0 < N)%coq_nat.
Hypothesis HZ : (0 < NZ)%coq_nat.
Hypothesis Hn : (0 < ns)%N.
Hypothesis U : uniq (extension (pts : seq R_fieldType)).
Hypothesis HT : flat k N ns c T.
Let K := Z.of_nat k.
Let m := (ns * ns)%coq_nat.
Let deta := delta_eta NZ.
Notation H := (heights_of NZ ns pts ztop T).
Notation G := (layers_of k N NZ ns pts deta H).
Lemma flat_ns : (1 <= ns)%coq_nat. Proof. exact/ltP. Qed.
Definition flat_value (v : nat) : R := if v is 2%N then (ztop - c)%re else R0.
Lemma floor_lt a b : (a < ns)%N -> (b < ns)%N -> (a * ns + b < (ns * ns)%coq_nat)%coq_nat.
Proof. move=> Ha Hb. apply/ltP. rewrite multE mulnn. exact: face_lt. Qed.
Lemma flat_poly1 r row col y : is_rank k r -> (row < N)%coq_nat -> (col < N)%coq_nat -> (y < ns)%N -> polynomial_x1 ns pts T r row col y c%:P.
Proof.
  move=> Hr Hrow Hcol Hy. case: HT => [Ep [Ei _]]. split; [|split].
  - move=> x Hx. rewrite hornerC Ep //. exact: floor_lt.
  - rewrite hornerC Ei //; [lia|exact/ltP].
  - rewrite hornerC Ei //. exact/ltP.
Qed.
Lemma flat_poly2 r row col x : is_rank k r -> (row < N)%coq_nat -> (col < N)%coq_nat -> (x < ns)%N -> polynomial_x2 ns pts T r row col x c%:P.
Proof.
  move=> Hr Hrow Hcol Hx. case: HT => [Ep [_ Ej]]. split; [|split].
  - move=> y Hy. rewrite hornerC Ep //. exact: floor_lt.
  - rewrite hornerC Ej //; [lia|exact/ltP].
  - rewrite hornerC Ej //. exact/ltP.
Qed.
Lemma no_slope a : ((1 - a) * 0 * 2 / dx k N)%re = R0. Proof. rewrite Rmult_0_r Rmult_0_l /Rdiv Rmult_0_l //. Qed.
Lemma flat_pt a r l row col p : (a < 3)%coq_nat -> is_rank k r -> (row < N)%coq_nat -> (col < N)%coq_nat -> (p < Nat.pow ns 3)%coq_nat -> slope k N ns pts deta H a r l row col p = flat_value a.
Proof.
  move=> Ha Hr Hrow Hcol Hp. have /(solid_point Hn)[z [y [x [Hz [Hy [Hx ->]]]]]] : (p < ns ^ 3)%N by apply/ltP; rewrite pow_pow.
  have S1 : (size (c%:P : {poly R_numFieldType}) <= ns.+2)%N by apply: leq_trans (size_polyC_leq1 _) _.
  case: a Ha => [|[|[|a]]] Ha; last lia.
  - rewrite (slope_x1 k N ztop U HZ l Hz Hy Hx S1 (flat_poly1 Hr Hrow Hcol Hy)) derivC horner0. exact: no_slope.
  - rewrite (slope_x2 k N ztop U HZ l Hz Hy Hx S1 (flat_poly2 Hr Hrow Hcol Hx)) derivC horner0. exact: no_slope.
  - rewrite (thickness k N ztop T U HZ r l row col Hz Hy Hx). case: HT => [-> //]. exact: floor_lt.
Qed.
Lemma ext_const M (f : nat -> R) v p : axis pts M -> (forall i, (i < Nat.pow ns 3)%coq_nat -> f i = v) -> (p < (2 * m)%coq_nat)%coq_nat -> apply_op (F := R_fieldType) (ns ^ 3) f M p = v.
Proof.
  move=> HM Hf Hp. rewrite (apply_op_ext (g := fun _ => v)); first by apply: const_extrap => //; apply/ltP; rewrite !pow_pow (Nat.pow_2_r ns) -/m -plusE; lia. move=> i /ltP. rewrite pow_pow. exact: Hf.
Qed.
Lemma flat_ex_i a r l row e p : (a < 3)%coq_nat -> is_rank k r -> (row < N)%coq_nat -> (1 <= e)%coq_nat /\ (e <= N)%coq_nat -> (p < (2 * m)%coq_nat)%coq_nat -> slope_ex_i k N ns pts deta H a r l row e p = flat_value a.
Proof. move=> Ha Hr Hrow He Hp. apply: ext_const => //; [by left|]. move=> i Hi. apply: flat_pt => //. lia. Qed.
Lemma flat_ex_j a r l col e p : (a < 3)%coq_nat -> is_rank k r -> (col < N)%coq_nat -> (1 <= e)%coq_nat /\ (e <= N)%coq_nat -> (p < (2 * m)%coq_nat)%coq_nat -> slope_ex_j k N ns pts deta H a r l col e p = flat_value a.
Proof. move=> Ha Hr Hrow He Hp. apply: ext_const => //; [by right; left|]. move=> i Hi. apply: flat_pt => //. lia. Qed.
Lemma flat_ex_k a r row col e p : (a < 3)%coq_nat -> is_rank k r -> (row < N)%coq_nat -> (col < N)%coq_nat -> (p < (2 * m)%coq_nat)%coq_nat -> slope_ex_k k N ns pts deta H a r row col e p = flat_value a.
Proof. move=> Ha Hr Hrow Hcol Hp. apply: ext_const => //; [by right; right|]. move=> i Hi. exact: flat_pt. Qed.
Lemma two_zeros (a b : R) : a * R0 + b * R0 = R0 :> R. Proof. change (Rplus (Rmult a R0) (Rmult b R0) = R0). ring. Qed.
Lemma exch_i_zero r v l x e p : is_rank k r -> (1 <= v)%coq_nat /\ (v <= 2)%coq_nat -> (l < NZ)%coq_nat -> (x < N)%coq_nat -> (1 <= e)%coq_nat /\ (e <= N)%coq_nat -> (p < (2 * m)%coq_nat)%coq_nat -> exch_i k N ns pts deta H r v l x e p = R0.
Proof.
  move=> Hr Hv Hl Hx He Hp. have E0 := @flat_ex_i 0 r l x e p ltac:(lia) Hr Hx He Hp. have E1 := @flat_ex_i 1 r l x e p ltac:(lia) Hr Hx He Hp.
  rewrite /exch_i. case: v Hv => [|[|[|v]]] Hv; try (exfalso; lia); rewrite E0 E1; exact: two_zeros.
Qed.
Lemma exch_j_zero r v l x e p : is_rank k r -> (1 <= v)%coq_nat /\ (v <= 2)%coq_nat -> (l < NZ)%coq_nat -> (x < N)%coq_nat -> (1 <= e)%coq_nat /\ (e <= N)%coq_nat -> (p < (2 * m)%coq_nat)%coq_nat -> exch_j k N ns pts deta H r v l x e p = R0.
Proof.
  move=> Hr Hv Hl Hx He Hp. have E0 := @flat_ex_j 0 r l x e p ltac:(lia) Hr Hx He Hp. have E1 := @flat_ex_j 1 r l x e p ltac:(lia) Hr Hx He Hp.
  rewrite /exch_j. case: v Hv => [|[|[|v]]] Hv; try (exfalso; lia); rewrite E0 E1; exact: two_zeros.
Qed.
Lemma rank_tile' r : is_rank k r -> exists t, tile_ok K t /\ r = rank_of_tile K t.
Proof. move=> Hr. exists (tile_of_rank K r). have HK : (1 <= K)%zz by rewrite /K; lia. split; [exact: tile_of_rank_ok|by rewrite rank_of_tile_of_rank]. Qed.
Lemma line_lt x y : (x < N)%coq_nat -> (y < ns)%coq_nat -> (((x * ns)%coq_nat + y)%coq_nat < (N * ns)%coq_nat)%coq_nat.
Proof. move=> Hx Hy. nia. Qed.
Lemma half_re (a b : R) : (1 : R) / (2 : R) * a + (1 : R) / (2 : R) * b = (1 / 2 * a + 1 / 2 * b)%re :> R.
Proof. change (Rplus (Rmult (Rmult R1 (Rinv (Rplus R1 R1))) a) (Rmult (Rmult R1 (Rinv (Rplus R1 R1))) b) = (1 / 2 * a + 1 / 2 * b)%re). have -> : Rplus R1 R1 = 2%re by lra. rewrite /Rdiv. ring. Qed.
Lemma half_i_zero r v l row b p : is_rank k r -> (1 <= v)%coq_nat /\ (v <= 2)%coq_nat -> (l < NZ)%coq_nat -> (row < N)%coq_nat -> (b <= N)%coq_nat -> (p < m)%coq_nat -> half_i k N ns pts deta H r v l row b p = R0.
Proof.
  move=> Hr Hv Hl Hrow Hb Hp. have [t [Ht Er]] := rank_tile' Hr. apply: (eq_trans (half_re _ _)). apply: (@average_const k N ns (point pts) Hk HN flat_ns R0 _ _ (exch_i k N ns pts deta H r v) R0 l row b p Hb Hp Hrow) => [y z Hy Hz|y z Hy Hz|e x He Hx].
  - rewrite Er (@slope_halo k N ns pts deta H t West Hk flat_ns Ht v l _ z) //; [|lia|exact: line_lt]. exact: (@vector_zero k N NZ ns (point pts) Hk HN flat_ns _ _ exch_i_zero exch_j_zero t v West l _ z Ht Hv Hl (line_lt Hrow Hy) Hz).
  - rewrite Er (@slope_halo k N ns pts deta H t East Hk flat_ns Ht v l _ z) //; [|lia|exact: line_lt]. exact: (@vector_zero k N NZ ns (point pts) Hk HN flat_ns _ _ exch_i_zero exch_j_zero t v East l _ z Ht Hv Hl (line_lt Hrow Hy) Hz).
  - exact: exch_i_zero.
Qed.
Lemma half_j_zero r v l col b p : is_rank k r -> (1 <= v)%coq_nat /\ (v <= 2)%coq_nat -> (l < NZ)%coq_nat -> (col < N)%coq_nat -> (b <= N)%coq_nat -> (p < m)%coq_nat -> half_j k N ns pts deta H r v l col b p = R0.
Proof.
  move=> Hr Hv Hl Hcol Hb Hp. have [t [Ht Er]] := rank_tile' Hr. apply: (eq_trans (half_re _ _)). apply: (@average_const k N ns (point pts) Hk HN flat_ns R0 _ _ (exch_j k N ns pts deta H r v) R0 l col b p Hb Hp Hcol) => [y z Hy Hz|y z Hy Hz|e x He Hx].
  - rewrite Er (@slope_halo k N ns pts deta H t South Hk flat_ns Ht v l _ z) //; [|lia|exact: line_lt]. exact: (@vector_zero k N NZ ns (point pts) Hk HN flat_ns _ _ exch_i_zero exch_j_zero t v South l _ z Ht Hv Hl (line_lt Hcol Hy) Hz).
  - rewrite Er (@slope_halo k N ns pts deta H t North Hk flat_ns Ht v l _ z) //; [|lia|exact: line_lt]. exact: (@vector_zero k N NZ ns (point pts) Hk HN flat_ns _ _ exch_i_zero exch_j_zero t v North l _ z Ht Hv Hl (line_lt Hcol Hy) Hz).
  - exact: exch_j_zero.
Qed.
Lemma itf_i_zero a r l row b p : is_rank k r -> (l < NZ)%coq_nat -> (row < N)%coq_nat -> (b <= N)%coq_nat -> (p < m)%coq_nat -> slope_itf_i k N ns pts deta H a r l row b p = R0.
Proof.
  move=> Hr Hl Hrow Hb Hp. rewrite /slope_itf_i (@half_i_zero r 1 l row b p) ?(@half_i_zero r 2 l row b p) //; try lia. case: a => [|a]; exact: two_zeros.
Qed.
Lemma itf_j_zero a r l col b p : is_rank k r -> (l < NZ)%coq_nat -> (col < N)%coq_nat -> (b <= N)%coq_nat -> (p < m)%coq_nat -> slope_itf_j k N ns pts deta H a r l col b p = R0.
Proof.
  move=> Hr Hl Hcol Hb Hp. rewrite /slope_itf_j (@half_j_zero r 1 l col b p) ?(@half_j_zero r 2 l col b p) //; try lia. case: a => [|a]; exact: two_zeros.
Qed.
Lemma half_same (x : R) : (1 / 2 * (x + x))%re = x. Proof. lra. Qed.
Lemma itf_k_flat a r row col b p : (a < 3)%coq_nat -> is_rank k r -> (row < N)%coq_nat -> (col < N)%coq_nat -> (p < m)%coq_nat -> slope_itf_k k N NZ ns pts deta H a r row col b p = flat_value a.
Proof.
  move=> Ha Hr Hrow Hcol Hp. rewrite /slope_itf_k /dRdeta_itf_k. have M : (itf_size ns + p < (2 * m)%coq_nat)%coq_nat by rewrite -plusE; change (itf_size ns) with m; lia. have M' : (p < (2 * m)%coq_nat)%coq_nat by lia.
  case: Nat.eqb_spec => _; first exact: flat_ex_k. case: Nat.eqb_spec => _; first exact: flat_ex_k. rewrite !flat_ex_k //. exact: half_same.
Qed.
(** dRdeta at the interfaces *)
Lemma Ei r l x e p : is_rank k r -> (l < NZ)%coq_nat -> (x < N)%coq_nat -> (1 <= e)%coq_nat /\ (e <= N)%coq_nat -> (p < (2 * m)%coq_nat)%coq_nat -> eta_itf_i ns pts G r l x e p = (ztop - c)%re.
Proof. move=> Hr _ Hx He Hp. exact: (@flat_ex_i 2). Qed.
Lemma Ej r l x e p : is_rank k r -> (l < NZ)%coq_nat -> (x < N)%coq_nat -> (1 <= e)%coq_nat /\ (e <= N)%coq_nat -> (p < (2 * m)%coq_nat)%coq_nat -> eta_itf_j ns pts G r l x e p = (ztop - c)%re.
Proof. move=> Hr _ Hx He Hp. exact: (@flat_ex_j 2). Qed.
Lemma dR_i_flat r l row b p : is_rank k r -> (l < NZ)%coq_nat -> (row < N)%coq_nat -> (b <= N)%coq_nat -> (p < m)%coq_nat -> dRdeta_itf_i k N ns (eta_itf_i ns pts G) (eta_itf_j ns pts G) r l row b p = (ztop - c)%re.
Proof.
  move=> Hr Hl Hrow Hb Hp. have [t [Ht Er]] := rank_tile' Hr.
  apply: (@average_const k N ns (point pts) Hk HN flat_ns R0 _ _ (eta_itf_i ns pts G r) (ztop - c)%re l row b p Hb Hp Hrow) => [y z Hy Hz|y z Hy Hz|e x He Hx].
  - rewrite Er. exact: (@scalar_const k N NZ ns (point pts) Hk HN flat_ns _ _ _ Ei Ej t West l _ z Ht Hl (line_lt Hrow Hy) Hz).
  - rewrite Er. exact: (@scalar_const k N NZ ns (point pts) Hk HN flat_ns _ _ _ Ei Ej t East l _ z Ht Hl (line_lt Hrow Hy) Hz).
  - exact: Ei.
Qed.
Lemma dR_j_flat r l col b p : is_rank k r -> (l < NZ)%coq_nat -> (col < N)%coq_nat -> (b <= N)%coq_nat -> (p < m)%coq_nat -> dRdeta_itf_j k N ns (eta_itf_i ns pts G) (eta_itf_j ns pts G) r l col b p = (ztop - c)%re.
Proof.
  move=> Hr Hl Hcol Hb Hp. have [t [Ht Er]] := rank_tile' Hr.
  apply: (@average_const k N ns (point pts) Hk HN flat_ns R0 _ _ (eta_itf_j ns pts G r) (ztop - c)%re l col b p Hb Hp Hcol) => [y z Hy Hz|y z Hy Hz|e x He Hx].
  - rewrite Er. exact: (@scalar_const k N NZ ns (point pts) Hk HN flat_ns _ _ _ Ei Ej t South l _ z Ht Hl (line_lt Hcol Hy) Hz).
  - rewrite Er. exact: (@scalar_const k N NZ ns (point pts) Hk HN flat_ns _ _ _ Ei Ej t North l _ z Ht Hl (line_lt Hcol Hy) Hz).
  - exact: Ej.
Qed.
Lemma dR_k_flat r row col b p : is_rank k r -> (row < N)%coq_nat -> (col < N)%coq_nat -> (p < m)%coq_nat -> dRdeta_itf_k NZ ns (eta_itf_k ns pts G) r row col b p = (ztop - c)%re.
Proof. move=> Hr Hrow Hcol Hp. exact: (@itf_k_flat 2). Qed.
End Flat.
