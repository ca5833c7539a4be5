(** The right-hand side of the Euler equations and the totals over the atmosphere do not depend on how the panels are cut into tiles. *)
From Coq Require Import Reals ZArith Lia Arith.
From Verif Require Import TopologyModel TopologySpec TopologyProofs GeoModel SwModel SwSpec SwParallel EulModel EulSpec EulParallel EulCutSpec.
From mathcomp Require Import all_ssreflect all_algebra.
From Verif Require Import RField OpModel OpTensor FluxModel RhsModel SwRhs SwCutSpec SwParRhs EulRhs EulIntegral.
Set Implicit Arguments.
Unset Strict Implicit.
Unset Printing Implicit Defensive.
Import GRing.Theory.
Delimit Scope R_scope with re.
Delimit Scope Z_scope with zz.
Local Open Scope ring_scope.

Lemma pow_pow (a b : nat) : (a ^ b)%N = Nat.pow a b.
Proof. elim: b => [//|b IH]. by rewrite expnS IH. Qed.

(** equal parts give equal sums *)
Lemma sum_congr (p p' w w' : R) : p = p' -> w = w' -> forall a a' b b' c c' : R, a = a' -> b = b' -> c = c' -> a + b * p + c * (p * w) = a' + b' * p' + c' * (p' * w').
Proof. by move=> -> -> *; subst. Qed.
Lemma rhs_congr (b c : bool) (s s' w1 w1' w2 w2' w3 w3' : R) : s = s' -> w1 = w1' -> w2 = w2' -> w3 = w3' -> forall d1 d1' d2 d2' d3 d3' : R, d1 = d1' -> d2 = d2' -> d3 = d3' -> forall f f' : R, f = f' ->
  (if b then 0 else - (1 / s) * (if c then w1 + w2 + w3 else d1 + d2 + d3) - f) = (if b then 0 else - (1 / s') * (if c then w1' + w2' + w3' else d1' + d2' + d3') - f').
Proof. by move=> -> -> -> -> *; subst. Qed.

Section Cut.
Variables (k N NZ ns : nat) (pts : seq R) (earth deta : R) (deep adv : bool) (geo geo' : layers).
Variables (chr chr' : Z -> nat -> nat -> nat -> nat -> nat -> nat -> R) (damp damp' q q' : Z -> nat -> nat -> nat -> nat -> nat -> R).
Hypothesis Hk : (0 < k)%coq_nat.
Hypothesis HN : (0 < N)%coq_nat.
Hypothesis HZ : (0 < NZ)%coq_nat.
Hypothesis Hns : (0 < ns)%coq_nat.
Hypothesis EL : same_layers k N NZ ns geo geo'.
Hypothesis EC : same_symbols k N NZ ns chr chr'.
Hypothesis ED : same_state3 k N NZ ns damp damp'.
Hypothesis EQ : same_state3 k N NZ ns q q'.
Let K := Z.of_nat k.
Let a t := Z.to_nat (TopologySpec.row t).
Let b t := Z.to_nat (TopologySpec.col t).
Let m := (ns * ns)%coq_nat.
Notation rk t := (rank_of_tile K t).
Lemma Kp : (1 <= K)%zz. Proof. rewrite /K. lia. Qed.
Lemma is_in t : tile_ok K t -> is_rank k (rk t).
Proof. rewrite /is_rank -/K /tile_ok /rank_of_tile. have := Kp. move: K => K'. nia. Qed.
Lemma pt_at f F : same_points k N NZ ns f F -> forall t l i j p, tile_ok K t -> (l < NZ)%coq_nat -> (i < N)%coq_nat -> (j < N)%coq_nat -> (p < Nat.pow ns 3)%coq_nat ->
  f (rk t) l i j p = F (panel t) l (a t * N + i)%coq_nat (b t * N + j)%coq_nat p.
Proof. move=> H t l i j p Ht *. rewrite H //; last exact: is_in. by rewrite /cut (tile_of_rank_of _ _ Kp Ht). Qed.
Lemma i_at f F : same_i k N NZ ns f F -> forall t l i j p, tile_ok K t -> (l < NZ)%coq_nat -> (i < N)%coq_nat -> (j <= N)%coq_nat -> (p < m)%coq_nat ->
  f (rk t) l i j p = F (panel t) l (a t * N + i)%coq_nat (b t * N + j)%coq_nat p.
Proof. move=> H t l i j p Ht *. rewrite H //; last exact: is_in. by rewrite /cut_i /cut (tile_of_rank_of _ _ Kp Ht). Qed.
Lemma j_at f F : same_j k N NZ ns f F -> forall t l i j p, tile_ok K t -> (l < NZ)%coq_nat -> (i < N)%coq_nat -> (j <= N)%coq_nat -> (p < m)%coq_nat ->
  f (rk t) l i j p = F (panel t) l (b t * N + i)%coq_nat (a t * N + j)%coq_nat p.
Proof. move=> H t l i j p Ht *. rewrite H //; last exact: is_in. by rewrite /cut_j (tile_of_rank_of _ _ Kp Ht). Qed.
Lemma k_at f F : same_k k N NZ ns f F -> forall t i j c p, tile_ok K t -> (i < N)%coq_nat -> (j < N)%coq_nat -> (c <= NZ)%coq_nat -> (p < m)%coq_nat ->
  f (rk t) i j c p = F (panel t) (a t * N + i)%coq_nat (b t * N + j)%coq_nat c p.
Proof. move=> H t i j c p Ht *. rewrite H //; last exact: is_in. by rewrite /cut (tile_of_rank_of _ _ Kp Ht). Qed.
Lemma geo_pt f : (f = z_pt \/ f = s1_pt \/ f = s2_pt \/ f = dRdeta_pt) -> forall t l i j p, tile_ok K t -> (l < NZ)%coq_nat -> (i < N)%coq_nat -> (j < N)%coq_nat -> (p < Nat.pow ns 3)%coq_nat ->
  f geo (rk t) l i j p = f geo' (panel t) l (a t * N + i)%coq_nat (b t * N + j)%coq_nat p.
Proof. move: EL => [[H1 [H2 [H3 H4]]] _] [->|[->|[->| ->]]]; exact: pt_at. Qed.
Lemma geo_i f : (f = z_i \/ f = s1_i \/ f = s2_i) -> forall t l i j p, tile_ok K t -> (l < NZ)%coq_nat -> (i < N)%coq_nat -> (j <= N)%coq_nat -> (p < m)%coq_nat ->
  f geo (rk t) l i j p = f geo' (panel t) l (a t * N + i)%coq_nat (b t * N + j)%coq_nat p.
Proof. move: EL => [_ [[H1 [H2 H3]] _]] [->|[->| ->]]; exact: i_at. Qed.
Lemma geo_j f : (f = z_j \/ f = s1_j \/ f = s2_j) -> forall t l i j p, tile_ok K t -> (l < NZ)%coq_nat -> (i < N)%coq_nat -> (j <= N)%coq_nat -> (p < m)%coq_nat ->
  f geo (rk t) l i j p = f geo' (panel t) l (b t * N + i)%coq_nat (a t * N + j)%coq_nat p.
Proof. move: EL => [_ [_ [[H1 [H2 H3]] _]]] [->|[->| ->]]; exact: j_at. Qed.
Lemma geo_k f : (f = z_k \/ f = s1_k \/ f = s2_k) -> forall t i j c p, tile_ok K t -> (i < N)%coq_nat -> (j < N)%coq_nat -> (c <= NZ)%coq_nat -> (p < m)%coq_nat ->
  f geo (rk t) i j c p = f geo' (panel t) (a t * N + i)%coq_nat (b t * N + j)%coq_nat c p.
Proof. move: EL => [_ [_ [_ [H1 [H2 H3]]]]] [->|[->| ->]]; exact: k_at. Qed.
Lemma q_pt t v l i j p : tile_ok K t -> (v <= 4)%coq_nat -> (l < NZ)%coq_nat -> (i < N)%coq_nat -> (j < N)%coq_nat -> (p < Nat.pow ns 3)%coq_nat -> q (rk t) v l i j p = q' (panel t) v l (a t * N + i)%coq_nat (b t * N + j)%coq_nat p.
Proof. move=> Ht Hv *. apply: (pt_at (EQ (v := v) _)) => //. lia. Qed.
Lemma lt_pow (i : nat) : (i < ns ^ 3)%N -> (i < Nat.pow ns 3)%coq_nat.
Proof. rewrite pow_pow. by move/ltP. Qed.

(** ** Extrapolation *)
Lemma extra_ext (M : nat -> nat -> R) v (f g : nat -> R) p : (forall i, (i < Nat.pow ns 3)%coq_nat -> f i = g i) -> extrapolated ns M v f p = extrapolated ns M v g p.
Proof. move=> H. rewrite /extrapolated. case: by_log; [congr exp|]; apply: apply_op_ext => i /lt_pow Hi; by rewrite H. Qed.
Lemma q_i_cut t v l x e p : tile_ok K t -> (v <= 4)%coq_nat -> (l < NZ)%coq_nat -> (x < N)%coq_nat -> (1 <= e)%coq_nat /\ (e <= N)%coq_nat ->
  q_itf_i ns pts q (rk t) v l x e p = q_itf_i ns pts q' (panel t) v l (a t * N + x)%coq_nat (b t * N + e)%coq_nat p.
Proof. move=> Ht Hv Hl Hx [H1 H2]. rewrite /q_itf_i pred_add //. apply: extra_ext => i Hi. apply: q_pt => //. lia. Qed.
Lemma q_j_cut t v l x e p : tile_ok K t -> (v <= 4)%coq_nat -> (l < NZ)%coq_nat -> (x < N)%coq_nat -> (1 <= e)%coq_nat /\ (e <= N)%coq_nat ->
  q_itf_j ns pts q (rk t) v l x e p = q_itf_j ns pts q' (panel t) v l (b t * N + x)%coq_nat (a t * N + e)%coq_nat p.
Proof. move=> Ht Hv Hl Hx [H1 H2]. rewrite /q_itf_j pred_add //. apply: extra_ext => i Hi. apply: q_pt => //. lia. Qed.
Lemma q_k_cut t v i j e p : tile_ok K t -> (v <= 4)%coq_nat -> (i < N)%coq_nat -> (j < N)%coq_nat -> (1 <= e)%coq_nat /\ (e <= NZ)%coq_nat ->
  q_itf_k ns pts q (rk t) v i j e p = q_itf_k ns pts q' (panel t) v (a t * N + i)%coq_nat (b t * N + j)%coq_nat e p.
Proof. move=> Ht Hv Hi Hj [H1 H2]. rewrite /q_itf_k. apply: extra_ext => p' Hp. apply: q_pt => //. lia. Qed.
Lemma eta_i_cut t l x e p : tile_ok K t -> (l < NZ)%coq_nat -> (x < N)%coq_nat -> (1 <= e)%coq_nat /\ (e <= N)%coq_nat ->
  eta_itf_i ns pts geo (rk t) l x e p = eta_itf_i ns pts geo' (panel t) l (a t * N + x)%coq_nat (b t * N + e)%coq_nat p.
Proof. move=> Ht Hl Hx [H1 H2]. rewrite /eta_itf_i pred_add //. apply: apply_op_ext => i /lt_pow Hi. apply: (geo_pt (f := dRdeta_pt)) => //; [by auto|lia]. Qed.
Lemma eta_j_cut t l x e p : tile_ok K t -> (l < NZ)%coq_nat -> (x < N)%coq_nat -> (1 <= e)%coq_nat /\ (e <= N)%coq_nat ->
  eta_itf_j ns pts geo (rk t) l x e p = eta_itf_j ns pts geo' (panel t) l (b t * N + x)%coq_nat (a t * N + e)%coq_nat p.
Proof. move=> Ht Hl Hx [H1 H2]. rewrite /eta_itf_j pred_add //. apply: apply_op_ext => i /lt_pow Hi. apply: (geo_pt (f := dRdeta_pt)) => //; [by auto|lia]. Qed.
Lemma eta_k_cut t i j e p : tile_ok K t -> (i < N)%coq_nat -> (j < N)%coq_nat -> (1 <= e)%coq_nat /\ (e <= NZ)%coq_nat ->
  eta_itf_k ns pts geo (rk t) i j e p = eta_itf_k ns pts geo' (panel t) (a t * N + i)%coq_nat (b t * N + j)%coq_nat e p.
Proof. move=> Ht Hi Hj [H1 H2]. rewrite /eta_itf_k. apply: apply_op_ext => p' /lt_pow Hp. apply: (geo_pt (f := dRdeta_pt)) => //; [by auto|lia]. Qed.

(** ** Fluxes *)
Let I_ t i := (a t * N + i)%coq_nat.
Let J_ t j := (b t * N + j)%coq_nat.
Lemma lt_sides (p : nat) : (p < ns ^ 2 + ns ^ 2)%N -> (p < (2 * m)%coq_nat)%coq_nat.
Proof. rewrite !pow_pow. move/ltP. rewrite -plusE /m (Nat.pow_2_r ns). move: (ns * ns)%coq_nat => M. lia. Qed.
Lemma df1_ext (f g : nat -> nat -> nat -> nat -> R) (F G : nat -> nat -> face) l i j i' j' p : (forall p, (p < Nat.pow ns 3)%coq_nat -> f l i j p = g l i' j' p) -> (forall p, (p < (2 * m)%coq_nat)%coq_nat -> F l i j.+1 p = G l i' j'.+1 p) ->
  sphere_df1 ns pts f F l i j p = sphere_df1 ns pts g G l i' j' p.
Proof. move=> H1 H2. rewrite /sphere_df1. congr (_ + _); apply: apply_op_ext => x Hx; [apply: H1; exact: lt_pow|apply: H2; exact: lt_sides]. Qed.
Lemma df2_ext (f g : nat -> nat -> nat -> nat -> R) (F G : nat -> nat -> face) l i j i' j' p : (forall p, (p < Nat.pow ns 3)%coq_nat -> f l i j p = g l i' j' p) -> (forall p, (p < (2 * m)%coq_nat)%coq_nat -> F l j i.+1 p = G l j' i'.+1 p) ->
  sphere_df2 ns pts f F l i j p = sphere_df2 ns pts g G l i' j' p.
Proof. move=> H1 H2. rewrite /sphere_df2. congr (_ + _); apply: apply_op_ext => x Hx; [apply: H1; exact: lt_pow|apply: H2; exact: lt_sides]. Qed.
Lemma df3_ext (f g : nat -> nat -> nat -> nat -> R) (F G : nat -> nat -> face) l i j i' j' p : (forall p, (p < Nat.pow ns 3)%coq_nat -> f l i j p = g l i' j' p) -> (forall p, (p < (2 * m)%coq_nat)%coq_nat -> F i j l.+1 p = G i' j' l.+1 p) ->
  sphere_df3 ns pts f F l i j p = sphere_df3 ns pts g G l i' j' p.
Proof. move=> H1 H2. rewrite /sphere_df3. congr (_ + _); apply: apply_op_ext => x Hx; [apply: H1; exact: lt_pow|apply: H2; exact: lt_sides]. Qed.
Section Tile.
Variables (t : tile) (l i j : nat).
Hypothesis Ht : tile_ok K t.
Hypothesis Hl : (l < NZ)%coq_nat.
Hypothesis Hi : (i < N)%coq_nat.
Hypothesis Hj : (j < N)%coq_nat.
Notation i' := (I_ t i).
Notation j' := (J_ t j).
Let fi := fluxes_i k N ns pts earth deta deep adv geo q (rk t) l i.
Let fi' := fluxes_i 1 (k * N)%coq_nat ns pts earth deta deep adv geo' q' (panel t) l i'.
Let fj := fluxes_j k N ns pts earth deta deep adv geo q (rk t) l j.
Let fj' := fluxes_j 1 (k * N)%coq_nat ns pts earth deta deep adv geo' q' (panel t) l j'.
Let fk := fluxes_k k N NZ ns pts earth deta deep adv geo q (rk t) i j.
Let fk' := fluxes_k 1 (k * N)%coq_nat NZ ns pts earth deta deep adv geo' q' (panel t) i' j'.
Lemma flux_i3 p : (p < (2 * m)%coq_nat)%coq_nat -> (forall v, (v <= 4)%coq_nat -> fi.1.1 v j.+1 p = fi'.1.1 v j'.+1 p) /\ fi.1.2 j.+1 p = fi'.1.2 j'.+1 p /\ fi.2 j.+1 p = fi'.2 j'.+1 p.
Proof.
  move=> Hp. have -> : (J_ t j).+1 = (b t * N + j.+1)%coq_nat by rewrite /J_; lia. rewrite /fi /fi' /fluxes_i.
  apply: (itf_i_cut k N NZ ns (point pts) earth deta deep geo geo' Hk HN Hns _ _ _ _ _ _ eta_i_cut eta_j_cut eta_k_cut geo_i HZ adv _ _ _ _ _ _ q_i_cut q_j_cut q_k_cut) => //. lia.
Qed.
Lemma flux_j3 p : (p < (2 * m)%coq_nat)%coq_nat -> (forall v, (v <= 4)%coq_nat -> fj.1.1 v i.+1 p = fj'.1.1 v i'.+1 p) /\ fj.1.2 i.+1 p = fj'.1.2 i'.+1 p /\ fj.2 i.+1 p = fj'.2 i'.+1 p.
Proof.
  move=> Hp. have -> : (I_ t i).+1 = (a t * N + i.+1)%coq_nat by rewrite /I_; lia. rewrite /fj /fj' /fluxes_j.
  apply: (itf_j_cut k N NZ ns (point pts) earth deta deep geo geo' Hk HN Hns _ _ _ _ _ _ eta_i_cut eta_j_cut eta_k_cut geo_j HZ adv _ _ _ _ _ _ q_i_cut q_j_cut q_k_cut) => //. lia.
Qed.
Lemma flux_k3 p : (p < (2 * m)%coq_nat)%coq_nat -> (forall v, (v <= 4)%coq_nat -> fk.1.1 v l.+1 p = fk'.1.1 v l.+1 p) /\ fk.1.2 l.+1 p = fk'.1.2 l.+1 p /\ fk.2 l.+1 p = fk'.2 l.+1 p.
Proof.
  move=> Hp. rewrite /fk /fk' /fluxes_k.
  apply: (itf_k_cut k N NZ ns (point pts) earth deta deep geo geo' Hk HN Hns _ _ _ _ _ _ eta_i_cut eta_j_cut eta_k_cut geo_k HZ adv _ _ _ _ _ _ q_i_cut q_j_cut q_k_cut) => //. lia.
Qed.
Lemma log_i3 p : (p < (2 * m)%coq_nat)%coq_nat -> log_p_i k N ns pts q (rk t) l i j.+1 p = log_p_i 1 (k * N)%coq_nat ns pts q' (panel t) l i' j'.+1 p.
Proof.
  move=> Hp. have -> : (J_ t j).+1 = (b t * N + j.+1)%coq_nat by rewrite /J_; lia. rewrite /log_p_i /full_q_i. congr (ln (pressure_itf _)).
  apply: (full_i_cut k N NZ ns (point pts) Hk HN Hns _ _ _ _ q_i_cut q_j_cut) => //. rewrite /reach. change (ns * ns)%coq_nat with m. lia.
Qed.
Lemma log_j3 p : (p < (2 * m)%coq_nat)%coq_nat -> log_p_j k N ns pts q (rk t) l j i.+1 p = log_p_j 1 (k * N)%coq_nat ns pts q' (panel t) l j' i'.+1 p.
Proof.
  move=> Hp. have -> : (I_ t i).+1 = (a t * N + i.+1)%coq_nat by rewrite /I_; lia. rewrite /log_p_j /full_q_j. congr (ln (pressure_itf _)).
  apply: (full_j_cut k N NZ ns (point pts) Hk HN Hns _ _ _ _ q_i_cut q_j_cut) => //. rewrite /reach. change (ns * ns)%coq_nat with m. lia.
Qed.
Lemma log_k3 p : (p < (2 * m)%coq_nat)%coq_nat -> log_p_k NZ ns pts q (rk t) i j l.+1 p = log_p_k NZ ns pts q' (panel t) i' j' l.+1 p.
Proof.
  move=> Hp. rewrite /log_p_k /full_q_k. congr (ln (pressure_itf _)).
  apply: (full_k_cut k N NZ ns (point pts) Hk HN Hns _ _ _ _ _ _ eta_i_cut eta_j_cut eta_k_cut HZ _ _ _ _ _ _ q_i_cut q_j_cut q_k_cut) => //.
Qed.
(** at the points *)
Lemma sG3 p : (p < Nat.pow ns 3)%coq_nat -> sG k N ns pts earth deta deep geo (rk t) l i j p = sG 1 (k * N)%coq_nat ns pts earth deta deep geo' (panel t) l i' j' p.
Proof. move=> Hp. exact: (sG_pt_cut k N NZ ns (point pts) earth deta deep geo geo' Hk HN Hns geo_pt). Qed.
Lemma hc3 p x y : (p < Nat.pow ns 3)%coq_nat -> hc k N ns pts earth deta deep geo (rk t) l i j p x y = hc 1 (k * N)%coq_nat ns pts earth deta deep geo' (panel t) l i' j' p x y.
Proof. move=> Hp. exact: (h_pt_cut k N NZ ns (point pts) earth deta deep geo geo' Hk HN Hns geo_pt). Qed.
Lemma st3 p v : (v <= 4)%coq_nat -> (p < Nat.pow ns 3)%coq_nat -> state q (rk t) l i j p v = state q' (panel t) l i' j' p v.
Proof. move=> Hv Hp. exact: q_pt. Qed.
Lemma pres3 p : (p < Nat.pow ns 3)%coq_nat -> pressure q (rk t) l i j p = pressure q' (panel t) l i' j' p.
Proof. move=> Hp. by rewrite /pressure /pressure_3d st3. Qed.
Lemma flux3 d v p : (d < 3)%coq_nat -> (v <= 4)%coq_nat -> (p < Nat.pow ns 3)%coq_nat -> points_flux k N ns pts earth deta deep geo q d (rk t) v l i j p = points_flux 1 (k * N)%coq_nat ns pts earth deta deep geo' q' d (panel t) v l i' j' p.
Proof.
  move=> Hd Hv Hp. have H4 : (4 <= 4)%coq_nat by []. have Hd' : (d.+1 <= 4)%coq_nat by lia. have H0 : (0 <= 4)%coq_nat by lia.
  rewrite /points_flux /pointwise_3d /velocity_3d /pressure_3d !hc3 // sG3 // !st3 //.
Qed.
Lemma adv3 d p : (d < 3)%coq_nat -> (p < Nat.pow ns 3)%coq_nat -> w_adv k N ns pts earth deta deep geo q d (rk t) l i j p = w_adv 1 (k * N)%coq_nat ns pts earth deta deep geo' q' d (panel t) l i' j' p.
Proof. move=> Hd Hp. rewrite /w_adv /wflux_adv_3d /velocity_3d sG3 // !st3 //; lia. Qed.
Lemma wp3 d p : (p < Nat.pow ns 3)%coq_nat -> w_pres k N ns pts earth deta deep geo d (rk t) l i j p = w_pres 1 (k * N)%coq_nat ns pts earth deta deep geo' d (panel t) l i' j' p.
Proof. move=> Hp. by rewrite /w_pres /wflux_pres_3d sG3 // hc3. Qed.
Lemma logp3 p : (p < Nat.pow ns 3)%coq_nat -> log_p q (rk t) l i j p = log_p q' (panel t) l i' j' p.
Proof. move=> Hp. by rewrite /log_p pres3. Qed.
Lemma forcing3 v p : (v <= 4)%coq_nat -> (p < Nat.pow ns 3)%coq_nat ->
  euler_forcing k N ns pts earth deta deep geo chr damp q (rk t) v l i j p = euler_forcing 1 (k * N)%coq_nat ns pts earth deta deep geo' chr' damp' q' (panel t) v l i' j' p.
Proof.
  move=> Hv Hp.
  have D v' : (v' <= 4)%coq_nat -> damp (rk t) v' l i j p = damp' (panel t) v' l i' j' p by move=> Hv'; apply: (pt_at (ED (v := v') _)) => //; lia.
  have C x y : (x < 3)%coq_nat -> (y < 9)%coq_nat -> chr (rk t) l i j p x y = chr' (panel t) l i' j' p x y by move=> Hx Hy; exact: (pt_at (EC Hx Hy)).
  have F x : (x < 3)%coq_nat -> forcing_py (state q (rk t) l i j p) (pressure q (rk t) l i j p) (hc k N ns pts earth deta deep geo (rk t) l i j p) (chr (rk t) l i j p) x =
             forcing_py (state q' (panel t) l i' j' p) (pressure q' (panel t) l i' j' p) (hc 1 (k * N)%coq_nat ns pts earth deta deep geo' (panel t) l i' j' p) (chr' (panel t) l i' j' p) x.
    move=> Hx. have [S0 [S1 [S2 S3]]] : (0 <= 4)%coq_nat /\ (1 <= 4)%coq_nat /\ (2 <= 4)%coq_nat /\ (3 <= 4)%coq_nat by lia. rewrite /forcing_py pres3 // !hc3 // (st3 S0) // (st3 S1) // (st3 S2) // (st3 S3) //. congr compute_single_forcing; apply: C => //; lia.
  have G : gravity_w k N ns pts earth deta deep geo q (rk t) l i j p = gravity_w 1 (k * N)%coq_nat ns pts earth deta deep geo' q' (panel t) l i' j' p.
    rewrite /gravity_w sG3 // (inv_cut k N NZ ns deta geo geo' geo_pt) //. congr (_ * _). apply: apply_op_ext => x /lt_pow Hx. rewrite sG3 // q_pt //. lia.
  have [F0 [F1 F2]] := conj (F 0%N ltac:(lia)) (conj (F 1%N ltac:(lia)) (F 2%N ltac:(lia))).
  case: v Hv => [|[|[|[|v]]]] Hv; rewrite /euler_forcing ?F0 ?F1 ?F2 ?G ?D //; lia.
Qed.
Lemma w1_cut p : (p < Nat.pow ns 3)%coq_nat -> w_df1 k N ns pts earth deta deep adv geo q (rk t) l i j p = w_df1 1 (k * N)%coq_nat ns pts earth deta deep adv geo' q' (panel t) l i' j' p.
Proof.
  move=> Hp. apply: (sum_congr (pres3 Hp) (wp3 0 Hp)); apply: df1_ext => p' Hp'.
  - apply: adv3 => //. lia.
  - by have [_ []] := flux_i3 Hp'.
  - exact: wp3.
  - by have [_ []] := flux_i3 Hp'.
  - exact: logp3.
  - exact: log_i3.
Qed.
Lemma w2_cut p : (p < Nat.pow ns 3)%coq_nat -> w_df2 k N ns pts earth deta deep adv geo q (rk t) l i j p = w_df2 1 (k * N)%coq_nat ns pts earth deta deep adv geo' q' (panel t) l i' j' p.
Proof.
  move=> Hp. apply: (sum_congr (pres3 Hp) (wp3 1 Hp)); apply: df2_ext => p' Hp'.
  - apply: adv3 => //. lia.
  - by have [_ []] := flux_j3 Hp'.
  - exact: wp3.
  - by have [_ []] := flux_j3 Hp'.
  - exact: logp3.
  - exact: log_j3.
Qed.
Lemma w3_cut p : (p < Nat.pow ns 3)%coq_nat -> w_df3 k N NZ ns pts earth deta deep adv geo q (rk t) l i j p = w_df3 1 (k * N)%coq_nat NZ ns pts earth deta deep adv geo' q' (panel t) l i' j' p.
Proof.
  move=> Hp. apply: (sum_congr (pres3 Hp) (wp3 2 Hp)); apply: df3_ext => p' Hp'.
  - apply: adv3 => //. 
  - by have [_ []] := flux_k3 Hp'.
  - exact: wp3.
  - by have [_ []] := flux_k3 Hp'.
  - exact: logp3.
  - exact: log_k3.
Qed.
Lemma rhs3 v p : (v <= 4)%coq_nat -> (p < Nat.pow ns 3)%coq_nat ->
  euler_rhs k N NZ ns pts earth deta deep adv geo chr damp q (rk t) v l i j p = euler_rhs 1 (k * N)%coq_nat NZ ns pts earth deta deep adv geo' chr' damp' q' (panel t) v l i' j' p.
Proof.
  move=> Hv Hp. have [L0 L1] : (0 < 3)%coq_nat /\ (1 < 3)%coq_nat by lia. have L2 : (2 < 3)%coq_nat by lia.
  rewrite /euler_rhs. apply: (rhs_congr adv (v == 3%N) (sG3 Hp) (w1_cut Hp) (w2_cut Hp) (w3_cut Hp) _ _ _ (forcing3 Hv Hp)).
  - apply: df1_ext => p' Hp'; [exact: flux3|by have [H _] := flux_i3 Hp'; apply: H].
  - apply: df2_ext => p' Hp'; [exact: flux3|by have [H _] := flux_j3 Hp'; apply: H].
  - apply: df3_ext => p' Hp'; [exact: flux3|by have [H _] := flux_k3 Hp'; apply: H].
Qed.
End Tile.
Lemma rhs3_cut : same_state3 k N NZ ns (euler_rhs k N NZ ns pts earth deta deep adv geo chr damp q) (euler_rhs 1 (k * N)%coq_nat NZ ns pts earth deta deep adv geo' chr' damp' q').
Proof.
  move=> v Hv r l i j p Hr Hl Hi Hj Hp. have Ht := tile_of_rank_ok K r Kp Hr. rewrite -{1}(@rank_of_tile_of_rank K r Kp). apply: rhs3 => //. lia.
Qed.
End Cut.
