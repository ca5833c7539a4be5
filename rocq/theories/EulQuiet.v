(** An atmosphere at rest under one pressure: the right-hand side. *)
From Coq Require Import Reals ZArith Lia Arith Lra.
From Verif Require Import TopologyModel TopologySpec TopologyProofs GeoModel GeoSpec GeoMetric3 GeoChristoffel GeoFinal GeoSolve SwModel SwSpec EulModel EulSpec EulEdges EulParallel EulCutSpec EulRest EulRestSpec.
From mathcomp Require Import all_ssreflect all_algebra.
From Verif Require Import RField RNum OpModel OpTensor OpLegendre OpFinal FluxModel RhsModel SwRhs SwParRhs EulRhs EulParRhs EulSymbols EulStill SwTotal EulGlobal.
Set Implicit Arguments.
Unset Strict Implicit.
Unset Printing Implicit Defensive.
Import GRing.Theory.
Delimit Scope R_scope with re.
Delimit Scope Z_scope with zz.
Local Open Scope ring_scope.

(** ** The metric at one point *)
Lemma entry_symmetric t : symmetric3 (entry t).
Proof. by rewrite /symmetric3 !below3_all => a _; rewrite below3_all => b _; apply: entry_sym. Qed.
Lemma entry_inverse g h : inverse3 g h -> inverse3n (entry g) (entry h).
Proof. move=> H. rewrite /inverse3n /below3 /entry /kron /=. move: H. rewrite /inverse3 => H. repeat split; tauto. Qed.

Section Quiet.
Variables (k N NZ : nat) (pts : seq R) (earth deta : R) (deep : bool) (geo : layers).
Notation ns := (size pts).
Hypothesis Hk : (0 < k)%coq_nat.
Hypothesis HN : (0 < N)%coq_nat.
Hypothesis HZ : (0 < NZ)%coq_nat.
Hypothesis Hn : (0 < ns)%N.
Hypothesis U : uniq (extension (pts : seq R_fieldType)).
Hypothesis Hdeta : deta <> 0%re.
Hypothesis Hgeo : regular_layers k N NZ ns earth deep geo.
Notation s_ := (sG k N ns pts earth deta deep geo).
Notation h_ := (hc k N ns pts earth deta deep geo).
Notation grad := (grad_metric k N NZ ns pts earth deta deep geo).
Lemma grad_sym r a b c l i j p : grad r a b c l i j p = grad r b a c l i j p.
Proof.
  have E : forall r l i j x, h_ r l i j x a b = h_ r l i j x b a by move=> *; rewrite /hc /h_pt3 entry_sym.
  case: c => [|[|c]]; rewrite /grad_metric /sphere_df1 /sphere_df2 /sphere_df3; congr (_ + _); apply: apply_op_ext => x _; rewrite ?E // /h_i /h_j /h_k /to_new_itf; by case: ifP => // _; case: ifP => // _; rewrite entry_sym.
Qed.
Lemma metric_point r l i j p : is_rank k r -> (l < NZ)%coq_nat -> (i < N)%coq_nat -> (j < N)%coq_nat -> (p < Nat.pow ns 3)%coq_nat ->
  s_ r l i j p <> 0%re /\ symmetric3 (h_ r l i j p) /\ exists g, symmetric3 g /\ inverse3n g (h_ r l i j p).
Proof.
  move=> Hr Hl Hi Hj Hp. have [H1 H2] := Hgeo Hr Hl Hi Hj Hp. have D := Rgt_not_eq _ _ (dx_pos k N Hk HN). split; [by apply: root3_nonzero => //; exact: dx_pos|]. split; [exact: entry_symmetric|].
  exists (entry (metric3_cov (dx k N) (dx k N) deta (radius0 earth deep (z_pt geo r l i j p)) (X_pt3 k N ns (point pts) r j p) (Y_pt3 k N ns (point pts) r i p) (s1_pt geo r l i j p) (s2_pt geo r l i j p) (dRdeta_pt geo r l i j p))).
  split; [exact: entry_symmetric|]. apply: entry_inverse. exact: metric3_inverse.
Qed.
(** ** There are symbols, and one choice of them *)
Lemma symbols_exist : exists chr, numeric_symbols k N NZ ns pts earth deta deep geo chr.
Proof.
  pose at_ (r : Z) (l i j p : nat) (G : nat -> nat -> nat -> R) := solves_system (s_ r l i j p) (h_ r l i j p) (fun a b c => grad r a b c l i j p) G.
  have [chr Hchr] : exists chr : Z -> nat -> nat -> nat -> nat -> nat -> nat -> nat -> R, forall r l i j p, is_rank k r -> (l < NZ)%coq_nat -> (i < N)%coq_nat -> (j < N)%coq_nat -> (p < Nat.pow ns 3)%coq_nat -> at_ r l i j p (chr r l i j p).
  { exists (fun r l i j p => lc (h_ r l i j p) (lowered (s_ r l i j p) (entry (metric3_cov (dx k N) (dx k N) deta (radius0 earth deep (z_pt geo r l i j p)) (X_pt3 k N ns (point pts) r j p) (Y_pt3 k N ns (point pts) r i p) (s1_pt geo r l i j p) (s2_pt geo r l i j p) (dRdeta_pt geo r l i j p))) (h_ r l i j p) (fun a b c => grad r a b c l i j p))).
    move=> r l i j p Hr Hl Hi Hj Hp. have [H1 H2] := Hgeo Hr Hl Hi Hj Hp. have D := Rgt_not_eq _ _ (dx_pos k N Hk HN). rewrite /at_. apply: solvable.
    - by apply: root3_nonzero => //; exact: dx_pos.
    - move=> a b _ _. exact: entry_sym.
    - move=> a b _ _. exact: entry_sym.
    - have := entry_inverse (metric3_inverse (dx k N) (dx k N) deta (radius0 earth deep (z_pt geo r l i j p)) (X_pt3 k N ns (point pts) r j p) (Y_pt3 k N ns (point pts) r i p) (s1_pt geo r l i j p) (s2_pt geo r l i j p) (dRdeta_pt geo r l i j p) D D Hdeta H1 H2).
      rewrite /inverse3n below3_all => I a b Ha Hb. move: (I a Ha). rewrite below3_all => I2. exact: (I2 b Hb).
    - move=> a b c _ _ _. exact: grad_sym. }
  exists (fun r l i j p a c => match c with 3%N => chr r l i j p a 0%N 0%N | 4%N => chr r l i j p a 0%N 1%N | 5%N => chr r l i j p a 0%N 2%N | 6%N => chr r l i j p a 1%N 1%N | 7%N => chr r l i j p a 1%N 2%N | 8%N => chr r l i j p a 2%N 2%N | _ => R0 end).
  move=> r l i j p Hr Hl Hi Hj Hp. exists (chr r l i j p). split=> //. exact: Hchr.
Qed.
Lemma symbols_unique chr chr' : numeric_symbols k N NZ ns pts earth deta deep geo chr -> numeric_symbols k N NZ ns pts earth deta deep geo chr' ->
  forall r l i j p a c, is_rank k r -> (l < NZ)%coq_nat -> (i < N)%coq_nat -> (j < N)%coq_nat -> (p < Nat.pow ns 3)%coq_nat -> (a < 3)%coq_nat -> (3 <= c)%coq_nat /\ (c <= 8)%coq_nat -> chr r l i j p a c = chr' r l i j p a c.
Proof.
  move=> H H' r l i j p a c Hr Hl Hi Hj Hp Ha Hc. have [G [S E]] := H r l i j p Hr Hl Hi Hj Hp. have [G' [S' E']] := H' r l i j p Hr Hl Hi Hj Hp.
  have [Hs [Sh [g [Sg I]]]] := metric_point Hr Hl Hi Hj Hp. have [Un _] := system_facts _ _ _ _ _ Hs Sg Sh I (fun a b c _ _ _ => grad_sym r a b c l i j p) S.
  have {}Un b d : (b < 3)%coq_nat -> (d < 3)%coq_nat -> G' a b d = G a b d by move=> Hb Hd; apply: Un.
  have [E3 [E4 [E5 [E6 [E7 E8]]]]] := E a Ha. have [F3 [F4 [F5 [F6 [F7 F8]]]]] := E' a Ha.
  case: c Hc => [|[|[|[|[|[|[|[|[|c]]]]]]]]] Hc; try (exfalso; lia); rewrite ?E3 ?E4 ?E5 ?E6 ?E7 ?E8 ?F3 ?F4 ?F5 ?F6 ?F7 ?F8 Un //; lia.
Qed.
(** ** Tendencies *)
Variables (chr : Z -> nat -> nat -> nat -> nat -> nat -> nat -> R) (damp q : Z -> nat -> nat -> nat -> nat -> nat -> R) (T : R).
Hypothesis HT : Rlt R0 T.
Hypothesis Hchr : numeric_symbols k N NZ ns pts earth deta deep geo chr.
Hypothesis Hq : at_rest k N NZ ns T q.
Notation rhs := (euler_rhs k N NZ ns pts earth deta deep false geo chr damp q).
Lemma rest_values v : (1 <= v)%coq_nat /\ (v <= 4)%coq_nat -> forall r l i j p, is_rank k r -> (l < NZ)%coq_nat -> (i < N)%coq_nat -> (j < N)%coq_nat -> (p < Nat.pow ns 3)%coq_nat -> q r v l i j p = still_value T v.
Proof. move=> Hv r l i j p Hr Hl Hi Hj Hp. have [_ [H1 [H2 [H3 H4]]]] := Hq Hr Hl Hi Hj Hp. by case: v Hv => [|[|[|[|[|v]]]]] Hv; try (exfalso; lia). Qed.
Variables (r : Z) (l i j p : nat).
Hypothesis Hr : is_rank k r.
Hypothesis Hl : (l < NZ)%coq_nat.
Hypothesis Hi : (i < N)%coq_nat.
Hypothesis Hj : (j < N)%coq_nat.
Hypothesis Hp : (p < Nat.pow ns 3)%coq_nat.
Let P := pressure_itf T.
Lemma forcing_rest a : (a < 3)%coq_nat -> (forcing_py (state q r l i j p) (pressure q r l i j p) (h_ r l i j p) (chr r l i j p) a * s_ r l i j p + P * (grad r a 0%N 0%N l i j p + grad r a 1%N 1%N l i j p + grad r a 2%N 2%N l i j p) = 0)%re.
Proof.
  move=> Ha. have [G [S E]] := Hchr Hr Hl Hi Hj Hp. have [Hs [Sh [g [Sg I]]]] := metric_point Hr Hl Hi Hj Hp.
  have [_ [Sy B]] := system_facts _ _ _ _ _ Hs Sg Sh I (fun a b c _ _ _ => grad_sym r a b c l i j p) S.
  have {}B := B a Ha. have [E3 [E4 [E5 [E6 [E7 E8]]]]] := E a Ha. rewrite (pressure_still earth deta deep geo chr damp Hk HN HZ rest_values Hr Hl Hi Hj Hp) // -/P.
  have Z v : (1 <= v)%coq_nat /\ (v <= 3)%coq_nat -> state q r l i j p v = R0 by move=> Hv; rewrite /state rest_values //; [rewrite /still_value; case: Nat.eqb_spec => // E'; exfalso; lia|lia].
  rewrite /forcing_py /compute_single_forcing (Z 1%N) ?(Z 2%N) ?(Z 3%N); try lia. rewrite E3 E4 E5 E6 E7 E8.
  have Y10 : G a 1%N 0%N = G a 0%N 1%N by apply: Sy; lia. have Y20 : G a 2%N 0%N = G a 0%N 2%N by apply: Sy; lia. have Y21 : G a 2%N 1%N = G a 1%N 2%N by apply: Sy; lia.
  have HS b c : h_ r l i j p b c = h_ r l i j p c b by rewrite /hc /h_pt3 entry_sym.
  move: B. cbn [sum_below]. rewrite Y10 Y20 Y21 (HS 1%N 0%N) (HS 2%N 0%N) (HS 2%N 1%N) => B. rewrite /Rdiv. nra.
Qed.
Lemma rhs_alg (f s w a b c d : R) : s <> 0%re -> (f * s + w * (a + b + c) = 0)%re -> (- (1 / s) * (w * a + w * b + w * c) - (f + d) = - d :> R_fieldType).
Proof. move=> Hs H. have E : f = (- (w * (a + b + c)) / s)%re by apply: (Rmult_eq_reg_r s) => //; field_simplify => //; lra. rewrite E /GRing.mul /GRing.add /GRing.opp /GRing.inv /GRing.one /=. field. exact: Hs. Qed.
Lemma rhs_momentum : rhs r 1%N l i j p = (- damp r 1%N l i j p)%re /\ rhs r 2%N l i j p = (- damp r 2%N l i j p)%re /\ rhs r 3%N l i j p = (- gravity_w k N ns pts earth deta deep geo q r l i j p - damp r 3%N l i j p)%re.
Proof.
  have [Hs _] := metric_point Hr Hl Hi Hj Hp. rewrite /euler_rhs /=. split; [|split].
  - rewrite (df1_still earth deta deep geo chr damp Hk HN HZ Hn U HT rest_values Hr Hl Hi Hj Hp) ?(df2_still earth deta deep geo chr damp Hk HN HZ Hn U HT rest_values Hr Hl Hi Hj Hp) ?(df3_still earth deta deep geo chr damp Hk HN HZ Hn U HT rest_values Hr Hl Hi Hj Hp); try lia.
    apply: rhs_alg => //. apply: forcing_rest. lia.
  - rewrite (df1_still earth deta deep geo chr damp Hk HN HZ Hn U HT rest_values Hr Hl Hi Hj Hp) ?(df2_still earth deta deep geo chr damp Hk HN HZ Hn U HT rest_values Hr Hl Hi Hj Hp) ?(df3_still earth deta deep geo chr damp Hk HN HZ Hn U HT rest_values Hr Hl Hi Hj Hp); try lia.
    apply: rhs_alg => //. apply: forcing_rest. lia.
  - have [-> [-> ->]] := w_still earth deta deep geo chr damp Hk HN HZ Hn U HT rest_values Hr Hl Hi Hj Hp. rewrite [X in _ - X]Rplus_assoc.
    etransitivity; [apply: rhs_alg => //; apply: forcing_rest; lia|]. rewrite /GRing.opp /GRing.add /=. ring.
Qed.
Lemma rhs_heat : rhs r 4%N l i j p = 0%re.
Proof. rewrite /euler_rhs /=. have [-> [-> ->]] := heat_still earth deta deep geo chr damp Hk HN HZ Hn U HT rest_values Hr Hl Hi Hj Hp. by rewrite !addr0 mulr0 subr0. Qed.
(** ** One density *)
Section Density.
Variable rho : R.
Hypothesis Hrho : Rlt R0 rho.
Hypothesis Hone : one_density k N NZ ns rho q.
Let q' : Z -> nat -> nat -> nat -> nat -> nat -> R := fun r v => if (v == 4)%N then q r 0%N else fun _ _ _ _ => R0.
Lemma one_values v : (1 <= v)%coq_nat /\ (v <= 4)%coq_nat -> forall r l i j p, is_rank k r -> (l < NZ)%coq_nat -> (i < N)%coq_nat -> (j < N)%coq_nat -> (p < Nat.pow ns 3)%coq_nat -> q' r v l i j p = still_value rho v.
Proof. move=> Hv r' l' i' j' p' Hr' Hl' Hi' Hj' Hp'. case: v Hv => [|[|[|[|[|v]]]]] Hv; try (exfalso; lia); rewrite /q' /= //. exact: Hone. Qed.
Let ei := eta_itf_i ns pts geo. Let ej := eta_itf_j ns pts geo. Let ek := eta_itf_k ns pts geo.
Lemma density_i t l' x e y : tile_ok (Z.of_nat k) t -> (l' < NZ)%coq_nat -> (x < N)%coq_nat -> meets (N + 2)%coq_nat (ns * ns)%coq_nat e y -> full_i k N ns (point pts) (q_itf_i ns pts q) (q_itf_j ns pts q) (rank_of_tile (Z.of_nat k) t) 0 l' x e y = rho.
Proof.
  move=> Ht Hl' Hx He. have V : (1 <= 4)%coq_nat /\ (4 <= 4)%coq_nat by lia.
  exact: (@full_i_still k N NZ ns (point pts) ei ej ek (q_itf_i ns pts q') (q_itf_j ns pts q') (q_itf_k ns pts q') rho Hk HN HZ (Hns' Hn) (q_i_still chr damp Hk HN HZ Hn U Hrho one_values) (q_j_still chr damp Hk HN HZ Hn U Hrho one_values) (q_k_still chr damp Hk HN HZ Hn U Hrho one_values) t 4 l' x e y Ht V Hl' Hx He).
Qed.
Lemma density_j t l' x e y : tile_ok (Z.of_nat k) t -> (l' < NZ)%coq_nat -> (x < N)%coq_nat -> meets (N + 2)%coq_nat (ns * ns)%coq_nat e y -> full_j k N ns (point pts) (q_itf_i ns pts q) (q_itf_j ns pts q) (rank_of_tile (Z.of_nat k) t) 0 l' x e y = rho.
Proof.
  move=> Ht Hl' Hx He. have V : (1 <= 4)%coq_nat /\ (4 <= 4)%coq_nat by lia.
  exact: (@full_j_still k N NZ ns (point pts) ei ej ek (q_itf_i ns pts q') (q_itf_j ns pts q') (q_itf_k ns pts q') rho Hk HN HZ (Hns' Hn) (q_i_still chr damp Hk HN HZ Hn U Hrho one_values) (q_j_still chr damp Hk HN HZ Hn U Hrho one_values) (q_k_still chr damp Hk HN HZ Hn U Hrho one_values) t 4 l' x e y Ht V Hl' Hx He).
Qed.
Lemma density_k t x x' e y : tile_ok (Z.of_nat k) t -> (x < N)%coq_nat -> (x' < N)%coq_nat -> meets (NZ + 2)%coq_nat (ns * ns)%coq_nat e y -> full_k NZ ns (q_itf_k ns pts q) (rank_of_tile (Z.of_nat k) t) x x' 0 e y = rho.
Proof.
  move=> Ht Hl' Hx He. have V : (1 <= 4)%coq_nat /\ (4 <= 4)%coq_nat by lia.
  exact: (@full_k_still k N NZ ns (point pts) ei ej ek (q_itf_i ns pts q') (q_itf_j ns pts q') (q_itf_k ns pts q') rho Hk HN HZ (Hns' Hn) (q_i_still chr damp Hk HN HZ Hn U Hrho one_values) (q_j_still chr damp Hk HN HZ Hn U Hrho one_values) (q_k_still chr damp Hk HN HZ Hn U Hrho one_values) t 4 x x' e y Ht V Hl' Hx He).
Qed.
Lemma rhs_density : rhs r 0%N l i j p = 0%re.
Proof.
  have Qi := q_i_still chr damp Hk HN HZ Hn U HT rest_values. have Qj := q_j_still chr damp Hk HN HZ Hn U HT rest_values. have Qk := q_k_still chr damp Hk HN HZ Hn U HT rest_values.
  have [t [Ht Er]] : exists t, tile_ok (Z.of_nat k) t /\ r = rank_of_tile (Z.of_nat k) t.
  { exists (tile_of_rank (Z.of_nat k) r). have HK : (1 <= Z.of_nat k)%zz by lia. split; [exact: tile_of_rank_ok|by rewrite rank_of_tile_of_rank]. }
  have F d x : (d < 3)%coq_nat -> (x < ns ^ 3)%N -> points_flux k N ns pts earth deta deep geo q d r 0 l i j x = 0%re.
  { move=> Hd /pt_lt Hx. rewrite /points_flux /pointwise_3d (velocity_still earth deta deep geo chr damp Hk HN HZ rest_values Hr Hl Hi Hj Hp) //. by rewrite Rmult_0_r Rmult_0_l. }
  have Hp' : (p < ns ^ 3)%N by rewrite pow_pow; exact/ltP.
  have E1 : df1 k N ns pts earth deta deep false geo q r 0 l i j p = 0.
  { apply: (const_df1 (c := R0) U Hn) => //; [by move=> x; apply: F; lia|]. move=> x /fc_lt Hx. rewrite /fluxes_i Er.
    have := @itf_i_still k N NZ ns (point pts) earth deta deep geo ei ej ek false (q_itf_i ns pts q) (q_itf_j ns pts q) (q_itf_k ns pts q) T Hk HN HZ (Hns' Hn) Qi Qj Qk t l i j.+1 x Ht Hl Hi _ Hx.
    case; first lia. move=> _ [H _]. apply: H => e y He Hy. by rewrite !density_i // /meets; lia. }
  have E2 : df2 k N ns pts earth deta deep false geo q r 0 l i j p = 0.
  { apply: (const_df2 (c := R0) U Hn) => //; [by move=> x; apply: F; lia|]. move=> x /fc_lt Hx. rewrite /fluxes_j Er.
    have := @itf_j_still k N NZ ns (point pts) earth deta deep geo ei ej ek false (q_itf_i ns pts q) (q_itf_j ns pts q) (q_itf_k ns pts q) T Hk HN HZ (Hns' Hn) Qi Qj Qk t l j i.+1 x Ht Hl Hj _ Hx.
    case; first lia. move=> _ [H _]. apply: H => e y He Hy. by rewrite !density_j // /meets; lia. }
  have E3 : df3 k N NZ ns pts earth deta deep false geo q r 0 l i j p = 0.
  { apply: (const_df3 (c := R0) U Hn) => //; [by move=> x; apply: F; lia|]. move=> x /fc_lt Hx. rewrite /fluxes_k Er.
    have := @itf_k_still k N NZ ns (point pts) earth deta deep geo ei ej ek false (q_itf_i ns pts q) (q_itf_j ns pts q) (q_itf_k ns pts q) T Hk HN HZ (Hns' Hn) Qi Qj Qk t i j l.+1 x Ht Hi Hj _ Hx.
    case; first lia. move=> _ [H _]. apply: H => e y He Hy. by rewrite !density_k // /meets; lia. }
  by rewrite /euler_rhs /= E1 E2 E3 !addr0 mulr0 subr0.
Qed.
End Density.
End Quiet.
