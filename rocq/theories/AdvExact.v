(** The tendency of the tracer is the derivative of the polynomial through the fluxes at the points and the upwind fluxes at the faces. *)
From Coq Require Import Reals ZArith Lra Lia.
From Verif Require Import TopologyModel GeoModel SwModel.
From mathcomp Require Import all_ssreflect all_algebra.
From Verif Require Import RField RNum OpModel OpSpec OpFinal FluxModel RhsModel QuadModel SwSplitModel SwSplitProofs SwSplitFinal AdvModel AdvSpec.
Set Implicit Arguments.
Unset Strict Implicit.
Unset Printing Implicit Defensive.
Import GRing.Theory.
Delimit Scope R_scope with re.
Local Open Scope ring_scope.

Lemma rusanov_upwind G hL hR u : rusanov G hL u hR u = upwind G u hL hR.
Proof.
  rewrite /rusanov /upwind. cbv zeta. rewrite Rmax_left; last exact: Rle_refl.
  case: Rle_dec => H; [rewrite Rabs_right; [field|lra]|rewrite Rabs_left; [field|lra]].
Qed.
Lemma tracer_exact k N pts radius Q r row col j i (p1 p2 : {poly R_numFieldType}) :
  let ns := seq.size pts in let y := (row * ns + j)%N in let x := (col * ns + i)%N in
  let vi := b_var_i k N ns pts None Q r in let vj := b_var_j k N ns pts None Q r in
  let G := b_G k N ns pts radius r in let Gi := b_G_i k N ns pts radius r in let Gj := b_G_j k N ns pts radius r in
  uniq (extension (pts : seq R_numFieldType)) -> (j < ns)%N -> (i < ns)%N -> (seq.size p1 <= ns.+2)%N -> (seq.size p2 <= ns.+2)%N ->
  (forall f, f = col \/ f = col.+1 -> vi 1%N f 1%N y = vi 1%N f.+1 0%N y) -> (forall f, f = row \/ f = row.+1 -> vj 2%N f 1%N x = vj 2%N f.+1 0%N x) ->
  (forall l, (l < ns)%N -> p1.[pts`_l] = (G y (col * ns + l)%N * Q r 0%N y (col * ns + l)%N * Q r 1%N y (col * ns + l)%N)%re) ->
  (forall l, (l < ns)%N -> p2.[pts`_l] = (G (row * ns + l)%N x * Q r 0%N (row * ns + l)%N x * Q r 2%N (row * ns + l)%N x)%re) ->
  p1.[-1] = upwind (Gi col y) (vi 1%N col 1%N y) (vi 0%N col 1%N y) (vi 0%N col.+1 0%N y) ->
  p1.[1] = upwind (Gi col.+1 y) (vi 1%N col.+1 1%N y) (vi 0%N col.+1 1%N y) (vi 0%N col.+2 0%N y) ->
  p2.[-1] = upwind (Gj row x) (vj 2%N row 1%N x) (vj 0%N row 1%N x) (vj 0%N row.+1 0%N x) ->
  p2.[1] = upwind (Gj row.+1 x) (vj 2%N row.+1 1%N x) (vj 0%N row.+1 1%N x) (vj 0%N row.+2 0%N x) ->
  advection k N ns pts radius Q r 0 y x = (G y x)^-1 * - (p1^`().[pts`_i] + p2^`().[pts`_j]).
Proof.
  move=> ns y x vi vj G Gi Gj U Hj Hi S1 S2 W1 W2 P1 P2 A0 A1 B0 B1. rewrite /advection -/G. congr (_ * - (_ + _)).
  - rewrite /along_x1. have [-> ->] := divmod_small col Hi.
    rewrite -(@dfr_line R_numFieldType pts p1 i (fun l => adv_x1 k N ns pts radius Q r y (col * ns + l)%N) U S1 Hi) => [|l Hl]; last by rewrite P1.
    have -> : adv_i k N ns pts radius Q r col y = p1.[-1] by rewrite A0 /adv_i -/vi -(W1 col) ?rusanov_upwind //; left.
    have -> : adv_i k N ns pts radius Q r col.+1 y = p1.[1] by rewrite A1 /adv_i -/vi -(W1 col.+1) ?rusanov_upwind //; right.
    by [].
  - rewrite /along_x2. have [-> ->] := divmod_small row Hj.
    rewrite -(@dfr_line R_numFieldType pts p2 j (fun l => adv_x2 k N ns pts radius Q r (row * ns + l)%N x) U S2 Hj) => [|l Hl]; last by rewrite P2.
    have -> : adv_j k N ns pts radius Q r row x = p2.[-1] by rewrite B0 /adv_j -/vj -(W2 row) ?rusanov_upwind //; left.
    have -> : adv_j k N ns pts radius Q r row.+1 x = p2.[1] by rewrite B1 /adv_j -/vj -(W2 row.+1) ?rusanov_upwind //; right.
    by [].
Qed.
(** one point per element, wind along x1: first-order upwind differences *)
Lemma one_point_weights s : weights [:: 0%re] s 0 = 1 :> R.
Proof.
  have E : gauss_legendre (fun _ => ([::], [::])) 1 = Some ([:: 0%re], [:: 2%re]) by [].
  have := @constant_weights (fun _ => ([::], [::])) 1 [:: 0%re] [:: 2%re] 1 erefl E s. rewrite big_ord1. change (1 * weights [:: 0%re] s 0 = 1 :> R_ringType -> weights [:: 0%re] s 0 = 1 :> R_ringType). by rewrite mul1r.
Qed.
Lemma quadratic (a b c : R) : exists p : {poly R_numFieldType}, (seq.size p <= 3)%N /\ p.[-1] = a /\ p.[0] = b /\ p.[1] = c /\ p^`().[0] = ((c - a) / 2)%re.
Proof.
  exists (b%:P + ((c - a) / 2)%re *: 'X + ((a + c) / 2 - b)%re *: 'X^2). split.
  - apply: (leq_trans (size_add _ _)). rewrite geq_max. apply/andP; split.
    + apply: (leq_trans (size_add _ _)). rewrite geq_max. apply/andP; split; [exact: leq_trans (size_polyC_leq1 _) _|]. apply: (leq_trans (size_scale_leq _ _)). by rewrite size_polyX.
    + apply: (leq_trans (size_scale_leq _ _)). by rewrite size_polyXn.
  - rewrite !derivE !hornerE /=. 
    change (@GRing.add _) with Rplus. change (@GRing.mul _) with Rmult. change (@GRing.opp _) with Ropp. change (@GRing.one _) with 1%re. change (@GRing.zero _) with 0%re.
    split; [|split; [|split]]. all: try field.
Qed.
Lemma one_point_ext (Q : Z -> nat -> nat -> nat -> R) r v x e s : (0 < e <= 3)%N -> b_var_i 1 3 1 [:: 0%re] None Q r v e s x = Q r v x e.-1 /\ b_var_j 1 3 1 [:: 0%re] None Q r v e s x = Q r v e.-1 x.
Proof.
  move=> He. rewrite /b_var_i /b_var_j He /b_ext_i /b_ext_j !big_ord1 one_point_weights muln1 addn0.
  have -> : b_itf_i (b_ground None) = (fun _ _ _ _ => R0) by []. have -> : b_itf_j (b_ground None) = (fun _ _ _ _ => R0) by [].
  have E y z : HH None Q r v y z = Q r v y z by rewrite /HH; case: ifP => // _; exact: Rplus_0_r.
  rewrite !E. have M (a : R) (c : bool) : (GRing.mul (R := R_ringType) a 1 - (if c then R0 else 0))%re = a by rewrite mulr1; case: c; exact: Rminus_0_r.
  by split; exact: M.
Qed.
Lemma upwind_differences radius h r : let Q := carried h (fun _ _ _ => 1%re) (fun _ _ _ => 0%re) in
  advection 1 3 1 [:: 0%re] radius Q r 0 1 1 = (/ b_G 1 3 1 [:: 0%re] radius r 1 1 * - ((b_G_i 1 3 1 [:: 0%re] radius r 2 1 * h r 1%N 1%N - b_G_i 1 3 1 [:: 0%re] radius r 1 1 * h r 1%N 0%N) / 2))%re.
Proof.
  move=> Q. set Gi := b_G_i 1 3 1 [:: 0%re] radius r. set G := b_G 1 3 1 [:: 0%re] radius r.
  have [p1 [S1 [A0 [P1 [A1 D1]]]]] := quadratic (Gi 1%N 1%N * h r 1%N 0%N)%re (G 1%N 1%N * h r 1%N 1%N)%re (Gi 2%N 1%N * h r 1%N 1%N)%re.
  have [p2 [S2 [B0 [P2 [B1 D2]]]]] := quadratic 0%re 0%re 0%re.
  have U1 g a b : upwind g 1%re a b = (g * a)%re by rewrite /upwind; case: Rle_dec => [?|?]; [ring|lra].
  have U0 g a b : upwind g 0%re a b = 0%re by rewrite /upwind; case: Rle_dec => [?|?]; ring.
  have E := @tracer_exact 1 3 [:: 0%re] radius Q r 1 1 0 0 p1 p2.
  have V v x e s (He : (0 < e <= 3)%N) := proj1 (@one_point_ext Q r v x e s He). have V' v x e s (He : (0 < e <= 3)%N) := proj2 (@one_point_ext Q r v x e s He).
  have Un : uniq (extension ([:: 0%re] : seq R_numFieldType)) by apply: (@RhsGauss.gauss_uniq (fun _ => ([::], [::])) 1 [:: 0%re] [:: 2%re]).
  rewrite (E Un erefl erefl S1 S2).
  - rewrite D1 D2. rewrite -/G. change ((/ G 1%N 1%N * - ((Gi 2%N 1%N * h r 1%N 1%N - Gi 1%N 1%N * h r 1%N 0%N) / 2 + (0 - 0) / 2) = / G 1%N 1%N * - ((Gi 2%N 1%N * h r 1%N 1%N - Gi 1%N 1%N * h r 1%N 0%N) / 2))%re). congr (_ * - _)%re. rewrite /Rdiv. ring.
  - by move=> f [] ->; rewrite !V.
  - by move=> f [] ->; rewrite !V'.
  - case=> // _. rewrite P1. exact/esym/Rmult_1_r.
  - case=> // _. rewrite P2. exact/esym/Rmult_0_r.
  - rewrite !V // U1. exact: A0.
  - rewrite !V // U1. exact: A1.
  - rewrite !V' // U0. exact: B0.
  - rewrite !V' // U0. exact: B1.
Qed.
