(** An atmosphere at rest under one pressure: the tendencies. *)
From Coq Require Import Reals ZArith Lia Arith Lra.
From Verif Require Import TopologyModel TopologySpec TopologyProofs GeoModel GeoSpec GeoMetric3 GeoFinal SwModel SwSpec EulModel EulSpec EulEdges EulParallel EulCutSpec EulRest.
From mathcomp Require Import all_ssreflect all_algebra.
From Verif Require Import RField RNum OpModel OpTensor OpLegendre OpFinal FluxModel RhsModel SwRhs SwParRhs EulRhs EulParRhs EulSymbols.
Set Implicit Arguments.
Unset Strict Implicit.
Unset Printing Implicit Defensive.
Import GRing.Theory.
Delimit Scope R_scope with re.
Delimit Scope Z_scope with zz.
Local Open Scope ring_scope.

(** ** Operators on constants *)
Section Constants.
Variables (pts : seq R) (c : R).
Hypothesis U : uniq (extension (pts : seq R_fieldType)).
Hypothesis Hn : (0 < size pts)%N.
Notation ns := (size pts).
Let Us : uniq (pts : seq R_numFieldType) := @uniq_ext R_numFieldType pts U.
Lemma const_size : (size (c%:P : {poly R_numFieldType}) <= ns)%N.
Proof. apply: leq_trans (size_polyC_leq1 _) Hn. Qed.
Lemma const_neg : \sum_(i < ns) c * neg pts i = c.
Proof.
  have := @extrap_neg_ok R_numFieldType pts _ Us const_size. rewrite hornerC => E. rewrite -[RHS]E. apply: eq_bigr => i _. by rewrite hornerC.
Qed.
Lemma const_pos : \sum_(i < ns) c * pos pts i = c.
Proof.
  have := @extrap_pos_ok R_numFieldType pts _ Us const_size. rewrite hornerC => E. rewrite -[RHS]E. apply: eq_bigr => i _. by rewrite hornerC.
Qed.
(** a point of the two faces of an element *)
Lemma face_point (p : nat) : (p < ns ^ 2 + ns ^ 2)%N -> exists a b, (a < ns)%N /\ (b < ns)%N /\ (p = (a * ns + b)%N \/ p = (ns ^ 2 + (a * ns + b))%N).
Proof.
  move=> Hp. have D x : (x < ns ^ 2)%N -> (x %/ ns < ns)%N /\ (x %% ns < ns)%N by move=> Hx; rewrite ltn_divLR // mulnn ltn_mod.
  case: (ltnP p (ns ^ 2)) => H; [exists (p %/ ns)%N, (p %% ns)%N|exists ((p - ns ^ 2) %/ ns)%N, ((p - ns ^ 2) %% ns)%N].
  - have [H1 H2] := D _ H. split=> //; split=> //. left. exact: divn_eq.
  - have H' : (p - ns ^ 2 < ns ^ 2)%N by rewrite ltn_subLR. have [H1 H2] := D _ H'. split=> //; split=> //. right. by rewrite -divn_eq subnKC.
Qed.
Lemma solid_point (p : nat) : (p < ns ^ 3)%N -> exists a b d, (a < ns)%N /\ (b < ns)%N /\ (d < ns)%N /\ p = ((a * ns + b) * ns + d)%N.
Proof.
  move=> Hp. exists (p %/ ns %/ ns)%N, (p %/ ns %% ns)%N, (p %% ns)%N. rewrite !ltn_mod Hn. split; last by rewrite -!divn_eq.
  by rewrite !ltn_divLR // mulnn -expnSr.
Qed.
Definition axis (M : nat -> nat -> R) : Prop := M = extrap_x_3d ns (neg pts) (pos pts) \/ M = extrap_y_3d ns (neg pts) (pos pts) \/ M = extrap_z_3d ns (neg pts) (pos pts).
Lemma const_extrap M p : axis M -> (p < ns ^ 2 + ns ^ 2)%N -> apply_op (F := R_fieldType) (ns ^ 3) (fun _ => c) M p = c.
Proof.
  move=> HM /face_point[a [b [Ha [Hb Hp]]]]. case: HM => [->|[->| ->]].
  - have [E1 E2] := @extrap_x_3d_ok R_fieldType ns (neg pts) (pos pts) (fun _ => c) a b Ha Hb. by case: Hp => ->; rewrite ?E1 ?E2 ?const_neg ?const_pos.
  - have [E1 E2] := @extrap_y_3d_ok R_fieldType ns (neg pts) (pos pts) (fun _ => c) a b Ha Hb. by case: Hp => ->; rewrite ?E1 ?E2 ?const_neg ?const_pos.
  - have [E1 E2] := @extrap_z_3d_ok R_fieldType ns (neg pts) (pos pts) (fun _ => c) a b Ha Hb. by case: Hp => ->; rewrite ?E1 ?E2 ?const_neg ?const_pos.
Qed.
Lemma const_df1 (f : nat -> nat -> nat -> nat -> R) (F : nat -> nat -> face) l i j p : (forall x, (x < ns ^ 3)%N -> f l i j x = c) -> (forall x, (x < ns ^ 2 + ns ^ 2)%N -> F l i j.+1 x = c) -> (p < ns ^ 3)%N -> sphere_df1 ns pts f F l i j p = 0.
Proof.
  move=> H1 H2 /solid_point[a [b [d [Ha [Hb [Hd ->]]]]]].
  have := @full_x_3d R_numFieldType pts U (fun _ => c) (fun _ _ => c%:P) (fun _ _ _ _ _ _ => esym (hornerC _ _)) (fun _ _ => const_size) a b d Ha Hb Hd. rewrite derivC horner0 => E. rewrite -[RHS]E /sphere_df1.
  congr (_ + _); apply: apply_op_ext => x Hx; first exact: H1. rewrite H2 //. apply: esym. apply: (@const_extrap (extrap_x_3d ns (neg pts) (pos pts)) x) => //. by left.
Qed.
Lemma const_df2 (f : nat -> nat -> nat -> nat -> R) (F : nat -> nat -> face) l i j p : (forall x, (x < ns ^ 3)%N -> f l i j x = c) -> (forall x, (x < ns ^ 2 + ns ^ 2)%N -> F l j i.+1 x = c) -> (p < ns ^ 3)%N -> sphere_df2 ns pts f F l i j p = 0.
Proof.
  move=> H1 H2 /solid_point[a [b [d [Ha [Hb [Hd ->]]]]]].
  have := @full_y_3d R_numFieldType pts U (fun _ => c) (fun _ _ => c%:P) (fun _ _ _ _ _ _ => esym (hornerC _ _)) (fun _ _ => const_size) a b d Ha Hb Hd. rewrite derivC horner0 => E. rewrite -[RHS]E /sphere_df2.
  congr (_ + _); apply: apply_op_ext => x Hx; first exact: H1. rewrite H2 //. apply: esym. apply: (@const_extrap (extrap_y_3d ns (neg pts) (pos pts)) x) => //. by right; left.
Qed.
Lemma const_df3 (f : nat -> nat -> nat -> nat -> R) (F : nat -> nat -> face) l i j p : (forall x, (x < ns ^ 3)%N -> f l i j x = c) -> (forall x, (x < ns ^ 2 + ns ^ 2)%N -> F i j l.+1 x = c) -> (p < ns ^ 3)%N -> sphere_df3 ns pts f F l i j p = 0.
Proof.
  move=> H1 H2 /solid_point[a [b [d [Ha [Hb [Hd ->]]]]]].
  have := @full_z_3d R_numFieldType pts U (fun _ => c) (fun _ _ => c%:P) (fun _ _ _ _ _ _ => esym (hornerC _ _)) (fun _ _ => const_size) a b d Ha Hb Hd. rewrite derivC horner0 => E. rewrite -[RHS]E /sphere_df3.
  congr (_ + _); apply: apply_op_ext => x Hx; first exact: H1. rewrite H2 //. apply: esym. apply: (@const_extrap (extrap_z_3d ns (neg pts) (pos pts)) x) => //. by right; right.
Qed.
End Constants.
Lemma scale_op m (f g : nat -> R) (M : nat -> nat -> R) (c : R) p : (forall i, (i < m)%N -> f i = c * g i) -> apply_op (F := R_fieldType) m f M p = c * apply_op (F := R_fieldType) m g M p.
Proof. move=> H. rewrite /apply_op big_distrr /=. apply: eq_bigr => i _. by rewrite H // mulrA. Qed.
Section Scale.
Variables (ns : nat) (pts : seq R) (c : R) (f g : nat -> nat -> nat -> nat -> R) (F G : nat -> nat -> face) (l i j p : nat).
Hypothesis H1 : forall x, (x < ns ^ 3)%N -> f l i j x = c * g l i j x.
Lemma scale_df1 : (forall x, (x < ns ^ 2 + ns ^ 2)%N -> F l i j.+1 x = c * G l i j.+1 x) -> sphere_df1 ns pts f F l i j p = c * sphere_df1 ns pts g G l i j p.
Proof. move=> H2. rewrite /sphere_df1 (scale_op (g := g l i j) _ _ H1) (scale_op (g := G l i j.+1) _ _ H2). rewrite /GRing.mul /GRing.add /=. ring. Qed.
Lemma scale_df2 : (forall x, (x < ns ^ 2 + ns ^ 2)%N -> F l j i.+1 x = c * G l j i.+1 x) -> sphere_df2 ns pts f F l i j p = c * sphere_df2 ns pts g G l i j p.
Proof. move=> H2. rewrite /sphere_df2 (scale_op (g := g l i j) _ _ H1) (scale_op (g := G l j i.+1) _ _ H2). rewrite /GRing.mul /GRing.add /=. ring. Qed.
Lemma scale_df3 : (forall x, (x < ns ^ 2 + ns ^ 2)%N -> F i j l.+1 x = c * G i j l.+1 x) -> sphere_df3 ns pts f F l i j p = c * sphere_df3 ns pts g G l i j p.
Proof. move=> H2. rewrite /sphere_df3 (scale_op (g := g l i j) _ _ H1) (scale_op (g := G i j l.+1) _ _ H2). rewrite /GRing.mul /GRing.add /=. ring. Qed.
End Scale.

Lemma pt_lt n x : (x < n ^ 3)%N -> (x < Nat.pow n 3)%coq_nat. Proof. by rewrite pow_pow => /ltP. Qed.
Lemma fc_lt n x : (x < n ^ 2 + n ^ 2)%N -> (x < (2 * (n * n)%coq_nat)%coq_nat)%coq_nat. Proof. rewrite !pow_pow (Nat.pow_2_r n) -plusE => /ltP. lia. Qed.
Section Still.
Variables (k N NZ : nat) (pts : seq R) (earth deta : R) (deep : bool) (geo : layers).
Variables (chr : Z -> nat -> nat -> nat -> nat -> nat -> nat -> R) (damp q : Z -> nat -> nat -> nat -> nat -> nat -> R) (T : R).
Notation ns := (size pts).
Hypothesis Hk : (0 < k)%coq_nat.
Hypothesis HN : (0 < N)%coq_nat.
Hypothesis HZ : (0 < NZ)%coq_nat.
Hypothesis Hn : (0 < ns)%N.
Hypothesis U : uniq (extension (pts : seq R_fieldType)).
Hypothesis HT : Rlt R0 T.
Hypothesis Hq : forall v, (1 <= v)%coq_nat /\ (v <= 4)%coq_nat -> forall r l i j p, is_rank k r -> (l < NZ)%coq_nat -> (i < N)%coq_nat -> (j < N)%coq_nat -> (p < Nat.pow ns 3)%coq_nat -> q r v l i j p = still_value T v.
Let K := Z.of_nat k.
Let m := (ns * ns)%coq_nat.
Let P := pressure_itf T.
Lemma Hns' : (1 <= ns)%coq_nat. Proof. exact/ltP. Qed.
Lemma faces (p : nat) : (p < (2 * m)%coq_nat)%coq_nat -> (p < ns ^ 2 + ns ^ 2)%N.
Proof. move=> H. apply/ltP. rewrite !pow_pow (Nat.pow_2_r ns) -/m -plusE. lia. Qed.
Lemma extra_still M v (f : nat -> R) p : axis pts M -> (1 <= v)%coq_nat /\ (v <= 4)%coq_nat -> (forall i, (i < Nat.pow ns 3)%coq_nat -> f i = still_value T v) -> (p < (2 * m)%coq_nat)%coq_nat -> extrapolated ns M v f p = still_value T v.
Proof.
  move=> HM Hv Hf /faces Hp. rewrite /extrapolated /by_log.
  case: v Hv Hf => [|[|[|[|[|v]]]]] /= Hv Hf; try (exfalso; lia); try by (rewrite (apply_op_ext (g := fun _ => R0)) ?const_extrap // => i /ltP; rewrite pow_pow; exact: Hf).
  rewrite (apply_op_ext (g := fun _ => ln T)) ?const_extrap //; last by move=> i /ltP; rewrite pow_pow => Hi; rewrite Hf.
  exact: exp_ln.
Qed.
Lemma q_i_still r v l x e p : is_rank k r -> (1 <= v)%coq_nat /\ (v <= 4)%coq_nat -> (l < NZ)%coq_nat -> (x < N)%coq_nat -> (1 <= e)%coq_nat /\ (e <= N)%coq_nat -> (p < (2 * m)%coq_nat)%coq_nat -> q_itf_i ns pts q r v l x e p = still_value T v.
Proof. move=> Hr Hv Hl Hx He Hp. rewrite /q_itf_i. apply: extra_still => //; [by left|]. move=> i Hi. apply: Hq => //. lia. Qed.
Lemma q_j_still r v l x e p : is_rank k r -> (1 <= v)%coq_nat /\ (v <= 4)%coq_nat -> (l < NZ)%coq_nat -> (x < N)%coq_nat -> (1 <= e)%coq_nat /\ (e <= N)%coq_nat -> (p < (2 * m)%coq_nat)%coq_nat -> q_itf_j ns pts q r v l x e p = still_value T v.
Proof. move=> Hr Hv Hl Hx He Hp. rewrite /q_itf_j. apply: extra_still => //; [by right; left|]. move=> i Hi. apply: Hq => //. lia. Qed.
Lemma q_k_still r v x y e p : is_rank k r -> (1 <= v)%coq_nat /\ (v <= 4)%coq_nat -> (x < N)%coq_nat -> (y < N)%coq_nat -> (1 <= e)%coq_nat /\ (e <= NZ)%coq_nat -> (p < (2 * m)%coq_nat)%coq_nat -> q_itf_k ns pts q r v x y e p = still_value T v.
Proof. move=> Hr Hv Hx Hy He Hp. rewrite /q_itf_k. apply: extra_still => //; [by right; right|]. move=> i Hi. apply: Hq => //. lia. Qed.
Variables (r : Z) (l i j p : nat).
Hypothesis Hr : is_rank k r.
Hypothesis Hl : (l < NZ)%coq_nat.
Hypothesis Hi : (i < N)%coq_nat.
Hypothesis Hj : (j < N)%coq_nat.
Hypothesis Hp : (p < Nat.pow ns 3)%coq_nat.
Lemma rank_tile : exists t, tile_ok K t /\ r = rank_of_tile K t.
Proof. exists (tile_of_rank K r). have HK : (1 <= K)%zz by rewrite /K; lia. split; [exact: tile_of_rank_ok|by rewrite rank_of_tile_of_rank]. Qed.
Let fi := fluxes_i k N ns pts earth deta deep false geo q r l i.
Let fj := fluxes_j k N ns pts earth deta deep false geo q r l j.
Let fk := fluxes_k k N NZ ns pts earth deta deep false geo q r i j.
Let ei := eta_itf_i ns pts geo. Let ej := eta_itf_j ns pts geo. Let ek := eta_itf_k ns pts geo.
Let si := sqrtG_i k N ns (point pts) earth deta deep geo ei ej r l i.
Let hi := h_i k N ns (point pts) earth deta deep geo ei ej r l i.
Let sj := sqrtG_j k N ns (point pts) earth deta deep geo ei ej r l j.
Let hj := h_j k N ns (point pts) earth deta deep geo ei ej r l j.
Let sk := sqrtG_k k N NZ ns (point pts) earth deta deep geo ek r i j.
Let hk := h_k k N NZ ns (point pts) earth deta deep geo ek r i j.
Lemma still_i x : (x < (2 * m)%coq_nat)%coq_nat -> (forall v, (1 <= v)%coq_nat /\ (v <= 4)%coq_nat -> fi.1.1 v j.+1 x = rest_flux 0 si hi P v j.+1 x) /\ fi.1.2 j.+1 x = R0 /\ fi.2 j.+1 x = Rmult (si j.+1 x) (hi 0%N 2%N j.+1 x).
Proof.
  move=> Hx. have [t [Ht Er]] := rank_tile. rewrite /fi /fluxes_i /si /hi Er.
  have := @itf_i_still k N NZ ns (point pts) earth deta deep geo ei ej ek false (q_itf_i ns pts q) (q_itf_j ns pts q) (q_itf_k ns pts q) T Hk HN HZ Hns' q_i_still q_j_still q_k_still t l i j.+1 x Ht Hl Hi _ Hx.
  case; first lia. by move=> H1 [_ [H2 H3]].
Qed.
Lemma still_j x : (x < (2 * m)%coq_nat)%coq_nat -> (forall v, (1 <= v)%coq_nat /\ (v <= 4)%coq_nat -> fj.1.1 v i.+1 x = rest_flux 1 sj hj P v i.+1 x) /\ fj.1.2 i.+1 x = R0 /\ fj.2 i.+1 x = Rmult (sj i.+1 x) (hj 1%N 2%N i.+1 x).
Proof.
  move=> Hx. have [t [Ht Er]] := rank_tile. rewrite /fj /fluxes_j /sj /hj Er.
  have := @itf_j_still k N NZ ns (point pts) earth deta deep geo ei ej ek false (q_itf_i ns pts q) (q_itf_j ns pts q) (q_itf_k ns pts q) T Hk HN HZ Hns' q_i_still q_j_still q_k_still t l j i.+1 x Ht Hl Hj _ Hx.
  case; first lia. by move=> H1 [_ [H2 H3]].
Qed.
Lemma still_k x : (x < (2 * m)%coq_nat)%coq_nat -> (forall v, (1 <= v)%coq_nat /\ (v <= 4)%coq_nat -> fk.1.1 v l.+1 x = rest_flux 2 sk hk P v l.+1 x) /\ fk.1.2 l.+1 x = R0 /\ fk.2 l.+1 x = Rmult (sk l.+1 x) (hk 2%N 2%N l.+1 x).
Proof.
  move=> Hx. have [t [Ht Er]] := rank_tile. rewrite /fk /fluxes_k /sk /hk Er.
  have := @itf_k_still k N NZ ns (point pts) earth deta deep geo ei ej ek false (q_itf_i ns pts q) (q_itf_j ns pts q) (q_itf_k ns pts q) T Hk HN HZ Hns' q_i_still q_j_still q_k_still t i j l.+1 x Ht Hi Hj _ Hx.
  case; first lia. by move=> H1 [_ [H2 H3]].
Qed.

Lemma full_still x : (x < (2 * m)%coq_nat)%coq_nat -> full_q_i k N ns pts q r 4%N l i j.+1 x = T /\ full_q_j k N ns pts q r 4%N l j i.+1 x = T /\ full_q_k NZ ns pts q r i j 4%N l.+1 x = T.
Proof.
  move=> Hx. have [t [Ht Er]] := rank_tile. rewrite /full_q_i /full_q_j /full_q_k Er. have V : (1 <= 4)%coq_nat /\ (4 <= 4)%coq_nat by lia. split; [|split].
  - refine (@full_i_still k N NZ ns (point pts) ei ej ek (q_itf_i ns pts q) (q_itf_j ns pts q) (q_itf_k ns pts q) T Hk HN HZ Hns' q_i_still q_j_still q_k_still t 4 l i j.+1 x Ht V Hl Hi _). rewrite /meets. lia.
  - refine (@full_j_still k N NZ ns (point pts) ei ej ek (q_itf_i ns pts q) (q_itf_j ns pts q) (q_itf_k ns pts q) T Hk HN HZ Hns' q_i_still q_j_still q_k_still t 4 l j i.+1 x Ht V Hl Hj _). rewrite /meets. lia.
  - refine (@full_k_still k N NZ ns (point pts) ei ej ek (q_itf_i ns pts q) (q_itf_j ns pts q) (q_itf_k ns pts q) T Hk HN HZ Hns' q_i_still q_j_still q_k_still t 4 i j l.+1 x Ht V Hi Hj _). rewrite /meets. lia.
Qed.
(** ** At the points *)
Notation s_ := (sG k N ns pts earth deta deep geo r l i j).
Notation h_ := (hc k N ns pts earth deta deep geo r l i j).
Lemma entry_sym t a b : entry t a b = entry t b a.
Proof. by case: a => [|[|a]]; case: b => [|[|b]]. Qed.
Lemma state_still v x : (1 <= v)%coq_nat /\ (v <= 4)%coq_nat -> (x < Nat.pow ns 3)%coq_nat -> state q r l i j x v = still_value T v.
Proof. move=> Hv Hx. exact: Hq. Qed.
Lemma pressure_still x : (x < Nat.pow ns 3)%coq_nat -> pressure q r l i j x = P.
Proof. move=> Hx. rewrite /pressure /pressure_3d state_still //; last lia. by rewrite /P /pressure_itf (Rmult_comm T). Qed.
Lemma velocity_still d x : (d < 3)%coq_nat -> (x < Nat.pow ns 3)%coq_nat -> velocity_3d d (state q r l i j x) = R0.
Proof. move=> Hd Hx. rewrite /velocity_3d state_still //; last lia. rewrite /still_value. case: Nat.eqb_spec => [E|_]; [exfalso; lia|]. by rewrite /Rdiv Rmult_0_l. Qed.
Lemma points_still d v x : (d < 3)%coq_nat -> (1 <= v)%coq_nat /\ (v <= 4)%coq_nat -> (x < Nat.pow ns 3)%coq_nat ->
  points_flux k N ns pts earth deta deep geo q d r v l i j x = match v with 1%N => P * (h_ x 0%N d * s_ x) | 2%N => P * (h_ x 1%N d * s_ x) | 3%N => P * (h_ x 2%N d * s_ x) | _ => 0 end.
Proof.
  move=> Hd Hv Hx. rewrite /points_flux /pointwise_3d velocity_still // -[pressure_3d _]/(pressure q r l i j x) pressure_still //.
  rewrite /hc /h_pt3 !(entry_sym _ d). rewrite /GRing.mul /GRing.add /GRing.zero /=.
  by case: v Hv => [|[|[|[|[|v]]]]] Hv; try (exfalso; lia); ring.
Qed.
Lemma p_lt : (p < ns ^ 3)%N. Proof. rewrite pow_pow. exact/ltP. Qed.
Notation grad a b c := (grad_metric k N NZ ns pts earth deta deep geo r a b c l i j p).
Lemma three_mul (a b c : R) : Rmult (Rmult a b) c = c * (b * a). Proof. rewrite /GRing.mul /=. ring. Qed.
Lemma w_sum (x y w : R) : (0 + (1 * x) * y + 0 * (y * w) : R_fieldType) = y * x. Proof. by rewrite add0r mul1r mul0r addr0 mulrC. Qed.
Lemma hi_sym a c e x : hi a c e x = hi c a e x. Proof. rewrite /hi /h_i /to_new_itf. by case: ifP => // _; case: ifP => // _; rewrite entry_sym. Qed.
Lemma hj_sym a c e x : hj a c e x = hj c a e x. Proof. rewrite /hj /h_j /to_new_itf. by case: ifP => // _; case: ifP => // _; rewrite entry_sym. Qed.
Lemma hk_sym a c e x : hk a c e x = hk c a e x. Proof. rewrite /hk /h_k /to_new_itf. by case: ifP => // _; case: ifP => // _; rewrite entry_sym. Qed.
Lemma df1_still v : (1 <= v)%coq_nat /\ (v <= 3)%coq_nat -> df1 k N ns pts earth deta deep false geo q r v l i j p = P * grad v.-1 0%N 0%N.
Proof.
  move=> Hv. rewrite /df1 /grad_metric. apply: scale_df1.
  - move=> x /pt_lt Hx. rewrite points_still //; try lia. by case: v Hv => [|[|[|[|v]]]] Hv; try (exfalso; lia).
  - move=> x /fc_lt Hx. have [H _] := still_i Hx. rewrite -/fi H; last lia. rewrite /rest_flux ?(hi_sym 0%N). case: v Hv {H} => [|[|[|[|v]]]] Hv; try (exfalso; lia); exact: three_mul.
Qed.
Lemma df2_still v : (1 <= v)%coq_nat /\ (v <= 3)%coq_nat -> df2 k N ns pts earth deta deep false geo q r v l i j p = P * grad v.-1 1%N 1%N.
Proof.
  move=> Hv. rewrite /df2 /grad_metric. apply: scale_df2.
  - move=> x /pt_lt Hx. rewrite points_still //; try lia. by case: v Hv => [|[|[|[|v]]]] Hv; try (exfalso; lia).
  - move=> x /fc_lt Hx. have [H _] := still_j Hx. rewrite -/fj H; last lia. rewrite /rest_flux ?(hj_sym 1%N). case: v Hv {H} => [|[|[|[|v]]]] Hv; try (exfalso; lia); exact: three_mul.
Qed.
Lemma df3_still v : (1 <= v)%coq_nat /\ (v <= 3)%coq_nat -> df3 k N NZ ns pts earth deta deep false geo q r v l i j p = P * grad v.-1 2%N 2%N.
Proof.
  move=> Hv. rewrite /df3 /grad_metric. apply: scale_df3.
  - move=> x /pt_lt Hx. rewrite points_still //; try lia. by case: v Hv => [|[|[|[|v]]]] Hv; try (exfalso; lia).
  - move=> x /fc_lt Hx. have [H _] := still_k Hx. rewrite -/fk H; last lia. rewrite /rest_flux ?(hk_sym 2%N). case: v Hv {H} => [|[|[|[|v]]]] Hv; try (exfalso; lia); exact: three_mul.
Qed.
Lemma heat_still : df1 k N ns pts earth deta deep false geo q r 4%N l i j p = 0 /\ df2 k N ns pts earth deta deep false geo q r 4%N l i j p = 0 /\ df3 k N NZ ns pts earth deta deep false geo q r 4%N l i j p = 0.
Proof.
  have V : (1 <= 4)%coq_nat /\ (4 <= 4)%coq_nat by lia. have Hp' := p_lt. split; [|split].
  - apply: (const_df1 (c := 0)) => //; [by move=> x /pt_lt Hx; rewrite points_still //; lia|]. move=> x /fc_lt Hx. have [H _] := still_i Hx. exact: (H 4%N V).
  - apply: (const_df2 (c := 0)) => //; [by move=> x /pt_lt Hx; rewrite points_still //; lia|]. move=> x /fc_lt Hx. have [H _] := still_j Hx. exact: (H 4%N V).
  - apply: (const_df3 (c := 0)) => //; [by move=> x /pt_lt Hx; rewrite points_still //; lia|]. move=> x /fc_lt Hx. have [H _] := still_k Hx. exact: (H 4%N V).
Qed.
Lemma w_adv_still d x : (d < 3)%coq_nat -> (x < Nat.pow ns 3)%coq_nat -> w_adv k N ns pts earth deta deep geo q d r l i j x = 0.
Proof. move=> Hd Hx. rewrite /w_adv /wflux_adv_3d velocity_still //. by rewrite Rmult_0_r Rmult_0_l. Qed.
Lemma w_still : w_df1 k N ns pts earth deta deep false geo q r l i j p = P * grad 2%N 0%N 0%N /\ w_df2 k N ns pts earth deta deep false geo q r l i j p = P * grad 2%N 1%N 1%N /\ w_df3 k N NZ ns pts earth deta deep false geo q r l i j p = P * grad 2%N 2%N 2%N.
Proof.
  have Hp' := p_lt. rewrite /w_df1 /w_df2 /w_df3 !pressure_still //. split; [|split].
  - rewrite (const_df1 (c := 0) U Hn (f := w_adv _ _ _ _ _ _ _ _ _ _ _)) //; [|by move=> x /pt_lt; apply: w_adv_still; lia|by move=> x /fc_lt Hx; have [_ [H _]] := still_i Hx].
    rewrite (const_df1 (c := ln P) U Hn (f := log_p _ _)) //; [|by move=> x /pt_lt Hx; rewrite /log_p pressure_still|by move=> x /fc_lt Hx; have [H _] := full_still Hx; rewrite /log_p_i H].
    rewrite (scale_df1 pts (c := 1) (g := fun l row col p => hc k N ns pts earth deta deep geo r l row col p 2%N 0%N * sG k N ns pts earth deta deep geo r l row col p) (G := fun l row e p => h_i k N ns (point pts) earth deta deep geo ei ej r l row 2%N 0%N e p * sqrtG_i k N ns (point pts) earth deta deep geo ei ej r l row e p)).
    + exact: w_sum.
    + move=> x /pt_lt Hx. rewrite /w_pres /wflux_pres_3d /hc /h_pt3 (entry_sym _ 0%N) mul1r. exact: Rmult_comm.
    + move=> x /fc_lt Hx. have [_ [_ H]] := still_i Hx. rewrite -/fi H (hi_sym 0%N) mul1r. exact: Rmult_comm.
  - rewrite (const_df2 (c := 0) U Hn (f := w_adv _ _ _ _ _ _ _ _ _ _ _)) //; [|by move=> x /pt_lt; apply: w_adv_still; lia|by move=> x /fc_lt Hx; have [_ [H _]] := still_j Hx].
    rewrite (const_df2 (c := ln P) U Hn (f := log_p _ _)) //; [|by move=> x /pt_lt Hx; rewrite /log_p pressure_still|by move=> x /fc_lt Hx; have [_ [H _]] := full_still Hx; rewrite /log_p_j H].
    rewrite (scale_df2 pts (c := 1) (g := fun l row col p => hc k N ns pts earth deta deep geo r l row col p 2%N 1%N * sG k N ns pts earth deta deep geo r l row col p) (G := fun l col e p => h_j k N ns (point pts) earth deta deep geo ei ej r l col 2%N 1%N e p * sqrtG_j k N ns (point pts) earth deta deep geo ei ej r l col e p)).
    + exact: w_sum.
    + move=> x /pt_lt Hx. rewrite /w_pres /wflux_pres_3d /hc /h_pt3 (entry_sym _ 1%N) mul1r. exact: Rmult_comm.
    + move=> x /fc_lt Hx. have [_ [_ H]] := still_j Hx. rewrite -/fj H (hj_sym 1%N) mul1r. exact: Rmult_comm.
  - rewrite (const_df3 (c := 0) U Hn (f := w_adv _ _ _ _ _ _ _ _ _ _ _)) //; [|by move=> x /pt_lt; apply: w_adv_still; lia|by move=> x /fc_lt Hx; have [_ [H _]] := still_k Hx].
    rewrite (const_df3 (c := ln P) U Hn (f := log_p _ _)) //; [|by move=> x /pt_lt Hx; rewrite /log_p pressure_still|by move=> x /fc_lt Hx; have [_ [_ H]] := full_still Hx; rewrite /log_p_k H].
    rewrite (scale_df3 pts (c := 1) (g := fun l row col p => hc k N ns pts earth deta deep geo r l row col p 2%N 2%N * sG k N ns pts earth deta deep geo r l row col p) (G := fun row col e p => h_k k N NZ ns (point pts) earth deta deep geo ek r row col 2%N 2%N e p * sqrtG_k k N NZ ns (point pts) earth deta deep geo ek r row col e p)).
    + exact: w_sum.
    + move=> x /pt_lt Hx. rewrite /w_pres /wflux_pres_3d /hc /h_pt3 mul1r. exact: Rmult_comm.
    + move=> x /fc_lt Hx. have [_ [_ H]] := still_k Hx. rewrite -/fk H /hk /sk mul1r. exact: Rmult_comm.
Qed.
End Still.
