(** The two parts of the shallow water equations: with the points of the code, the mass, and a state with wet faces. *)
From Coq Require Import Reals ZArith Lia Lra Arith List.
From Verif Require Import TopologyModel TopologySpec TopologyProofs GeoModel SwModel SwSpec SwEdges.
From mathcomp Require Import all_ssreflect all_algebra.
From Verif Require Import RField RNum OpModel OpSpec OpFinal FluxModel RhsModel RhsGauss SwRhs RhsFinal QuadModel SwSplitModel SwSplitSpec SwSplitProofs.
Set Implicit Arguments.
Unset Strict Implicit.
Unset Printing Implicit Defensive.
Import GRing.Theory.
Delimit Scope R_scope with re.
Delimit Scope Z_scope with zz.
Local Open Scope ring_scope.

Lemma parts_sum k N pts radius Omega rot topo Q r v row col j i : (0 < k)%N -> (0 < N)%N -> (0 < size pts)%N -> radius <> 0%re -> wet k N (size pts) pts topo Q r ->
  (v < 3)%N -> (row < N)%N -> (col < N)%N -> (j < size pts)%N -> (i < size pts)%N ->
  sw_stiff k N (size pts) pts radius topo Q r v (row * size pts + j)%N (col * size pts + i)%N + sw_nonstiff k N (size pts) pts radius Omega rot topo Q r v (row * size pts + j)%N (col * size pts + i)%N
  = sw_rhs k N (size pts) pts radius Omega rot (same_ground (size pts) topo) (same_field (size pts) Q) r v row col (j * size pts + i)%N.
Proof. move=> Hk HN Hns Hr W Hv Hrow Hcol Hj Hi. symmetry. exact: split_sum. Qed.
Lemma stiff_mass roots k N ns pts ws radius topo Q : (0 < k)%N -> (0 < N)%N -> (0 < ns <= 5)%N -> gauss_legendre roots ns = Some (pts, ws) -> radius <> 0%re ->
  (if same_ground ns topo is Some t then one_surface k N ns (fun i => nth R0 pts i) (hsurf_itf_i t) (hsurf_itf_j t) else True) ->
  (forall r, (0 <= r < 6 * Z.of_nat k * Z.of_nat k)%zz -> wet k N ns pts topo Q r) ->
  global_integral_2d k N ns pts ws radius (fun r => by_element ns (sw_stiff k N ns pts radius topo Q r 0)) = 0%re.
Proof.
  move=> Hk HN Hns E Hr Ht W. have [_ S] := gauss_integrates Hns E.
  rewrite -(@sphere_mass roots k N ns pts ws radius 0%re (fun _ => {| lon_p := 0%re; lat_p := 0%re; angle_p := 0%re |}) (same_ground ns topo) (same_field ns Q) Hk HN Hns E Hr Ht).
  move: Hns W. rewrite -S => Hns W. case/andP: Hns => Hns _.
  rewrite /global_integral_2d. apply: eq_bigr => r _. apply: eq_bigr => row _. apply: eq_bigr => col _. apply: eq_bigr => j _. apply: eq_bigr => i _. congr (_ * _ * _).
  rewrite split_sum //.
  - rewrite nonstiff_depth addr0 /by_element. by have [-> ->] := divmod_small j (ltn_ord i).
  - apply: W. have := elimT ltP (ltn_ord r). move: (nat_of_ord r) => r' H. change (r' < Nat.mul (Nat.mul 6 k) k)%coq_nat in H. nia.
Qed.
Section Wet.
Variables (roots : nat -> seq R * seq R) (k N ns : nat) (pts ws : seq R) (H : R) (Q : Z -> nat -> nat -> nat -> R).
Hypothesis Hk : (0 < k)%N.
Hypothesis HN : (0 < N)%N.
Hypothesis Hns : (0 < ns <= 5)%N.
Hypothesis E : gauss_legendre roots ns = Some (pts, ws).
Hypothesis HQ : forall r y x, Q r 0%N y x = H.
Hypothesis HH0 : (0 < H)%re.
Lemma pts_uniq : uniq (pts : seq R_numFieldType).
Proof. have := gauss_uniq Hns E. by rewrite /extension /= cat_uniq => /and3P[_ U _]. Qed.
Lemma constant_weights s : \sum_(l < ns) H * weights pts s l = H :> R.
Proof.
  have [_ S] := gauss_integrates Hns E. rewrite -S. have Z : (size (H%:P : {poly R_numFieldType}) <= size (pts : seq R_numFieldType))%N by apply: (leq_trans (size_polyC_leq1 _)); rewrite S; case/andP: Hns.
  have X := @extrap_neg_ok R_numFieldType pts H%:P pts_uniq Z. have Y := @extrap_pos_ok R_numFieldType pts H%:P pts_uniq Z. rewrite !hornerC in X Y.
  rewrite /weights. case: ifP => _; [rewrite -[RHS]X|rewrite -[RHS]Y]; apply: eq_bigr => l _; by rewrite hornerC.
Qed.
Lemma constant_ext r x e s : b_ext_i ns pts None Q r 0 x e s = H /\ b_ext_j ns pts None Q r 0 x e s = H.
Proof.
  have A y z : HH None Q r 0 y z = H by rewrite /HH /= HQ; exact: Rplus_0_r.
  rewrite /b_ext_i /b_ext_j. by split; rewrite -[RHS](constant_weights s); apply: eq_bigr => l _; rewrite A.
Qed.
Lemma constant_halo r d x : (0 <= r < 6 * Z.of_nat k * Z.of_nat k)%zz -> (x < N * ns)%N -> b_halo k N ns pts None Q r 0 d x = H.
Proof.
  move=> Hr Hx. have [_ S] := gauss_integrates Hns E. have [S1 _] := gauss_sym Hns E. have Hs : (0 < ns)%N by case/andP: Hns.
  have HK : (1 <= Z.of_nat k)%zz by move/ltP: Hk; lia.
  have Ht := @tile_of_rank_ok (Z.of_nat k) r HK Hr. have Er := @rank_of_tile_of_rank (Z.of_nat k) r HK.
  have Hs' : (0 < size pts)%N by rewrite S.
  have X := @halo_same k N pts (fun _ => {| lon_p := 0%re; lat_p := 0%re; angle_p := 0%re |}) None Q Hs' r 0%N d x. rewrite S in X. rewrite -X -Er.
  have Y := @halo_h_value k N ns (point pts) (ext_i ns pts None (same_field ns Q)) (ext_j ns pts None (same_field ns Q)) (fun _ _ _ _ => R0) (fun _ _ _ _ => R0) (elimT ltP Hk) (elimT ltP HN) (elimT ltP Hs)
    (fun i Hi => S1 i (introT ltP Hi)) _ d Ht x (elimT ltP Hx).
  rewrite /hal in Y. rewrite Y /own /at_side. move: (back _ _ _ _ _ _) (rank_of_tile _ _) => y r'.
  have Hm : (Nat.modulo y ns < ns)%N by apply/ltP; apply: Nat.mod_upper_bound; move/ltP: Hs; lia.
  have Ei := @ext_i_same pts None Q r' 0%N. have Ej := @ext_j_same pts None Q r' 0%N. rewrite S in Ei Ej.
  have L f : f (Nat.modulo y ns) = f (0 * ns + Nat.modulo y ns)%N :> R by rewrite mul0n add0n.
  have U f : f (Nat.add ns (Nat.modulo y ns)) = f (1 * ns + Nat.modulo y ns)%N :> R by rewrite mul1n.
  case: back_side.
  - rewrite (L (ext_j _ _ _ _ _ _ _ 1%N)) Ej //. by case: (constant_ext r' (Nat.div y ns * ns + Nat.modulo y ns)%N 1 0).
  - rewrite (U (ext_j _ _ _ _ _ _ _ N)) Ej //. by case: (constant_ext r' (Nat.div y ns * ns + Nat.modulo y ns)%N N 1).
  - rewrite (L (ext_i _ _ _ _ _ _ _ 1%N)) Ei //. by case: (constant_ext r' (Nat.div y ns * ns + Nat.modulo y ns)%N 1 0).
  - rewrite (U (ext_i _ _ _ _ _ _ _ N)) Ei //. by case: (constant_ext r' (Nat.div y ns * ns + Nat.modulo y ns)%N N 1).
Qed.
Lemma constant_wet r : (0 <= r < 6 * Z.of_nat k * Z.of_nat k)%zz -> wet k N ns pts None Q r.
Proof.
  move=> Hr i x Hi Hx. have C (b1 b2 : bool) (u w : R) : b1 || b2 -> u = H -> w = H -> (0 < (if b1 then u else if b2 then w else 0) - 0)%re by move=> B -> ->; case: b1 b2 B => [] [] // _; rewrite Rminus_0_r.
  have C' (b1 : bool) (u w : R) : u = H -> w = H -> (0 < (if b1 then u else w) - 0)%re by move=> -> ->; case: b1; rewrite Rminus_0_r.
  have B1 : (0 < i <= N)%N || (i == 0)%N by rewrite Hi; case: i {Hi}.
  rewrite /b_var_i /b_var_j /=. split; [|split; [|split]].
  - apply: C => //; [exact: (proj1 (constant_ext _ _ _ _))|exact: constant_halo].
  - apply: C' => //; [exact: (proj1 (constant_ext _ _ _ _))|exact: constant_halo].
  - apply: C => //; [exact: (proj2 (constant_ext _ _ _ _))|exact: constant_halo].
  - apply: C' => //; [exact: (proj2 (constant_ext _ _ _ _))|exact: constant_halo].
Qed.
End Wet.
