From mathcomp Require Import all_ssreflect all_algebra.
From Verif Require Import OpModel OpSpec OpLagrange OpDfr OpTensor DiagModel DiagSpec.
Set Implicit Arguments.
Unset Strict Implicit.
Unset Printing Implicit Defensive.
Import GRing.Theory.
Local Open Scope ring_scope.

Section Two.
Variable F : fieldType.
Implicit Types P : {poly {poly F}}.
Lemma row_size n P (y : F) : degree_below n P -> (size P.[y%:P] <= n)%N.
Proof.
  move=> [_ S]. rewrite horner_coef. apply: (leq_trans (size_sum _ _ _)). apply/bigmax_leqP => i _.
  rewrite -polyC_exp mulrC mul_polyC. exact: (leq_trans (size_scale_leq _ _)).
Qed.
Lemma row_deriv P (x y : F) : value (partial1 P) x y = (P.[y%:P])^`().[x].
Proof.
  rewrite /value /partial1. congr (_.[x]). rewrite (@horner_coef_wide _ (size P)) ?size_poly //.
  rewrite [in RHS]horner_coef raddf_sum. apply: eq_bigr => i _ /=. by rewrite coef_poly ltn_ord derivM -polyC_exp derivC mulr0 addr0.
Qed.
Definition column P (x : F) : {poly F} := \poly_(i < size P) (P`_i).[x].
Lemma column_at P x y : (column P x).[y] = value P x y.
Proof.
  rewrite /column /value horner_poly [P.[_]]horner_coef horner_sum. apply: eq_bigr => i _. by rewrite hornerM -polyC_exp hornerC.
Qed.
Lemma column_deriv P x y : (column P x)^`().[y] = value (partial2 P) x y.
Proof.
  have S1 : (size (column P x)^`() <= size P)%N by apply: (leq_trans (size_poly _ _)); apply: (leq_trans (leq_pred _)); exact: size_poly.
  have S2 : (size P^`() <= size P)%N by apply: (leq_trans (size_poly _ _)); exact: leq_pred.
  rewrite /value /partial2 (horner_coef_wide _ S1) [P^`().[_]](horner_coef_wide _ S2).
  rewrite horner_sum. apply: eq_bigr => i _. rewrite !coef_deriv hornerM -polyC_exp hornerC /column coef_poly.
  case: ltnP => H; first by rewrite hornerMn.
  by rewrite (nth_default _ H) !mul0rn horner0.
Qed.
Variables (pts : seq F).
Hypothesis U : uniq (extension pts).
Let ns := size pts.
Lemma vorticity_value g11 g12 g21 g22 isg u1 u2 P1 P2 i j : (i < ns)%N -> (j < ns)%N -> degree_below ns.+2 P1 -> degree_below ns.+2 P2 ->
  (forall a b, (a < ns)%N -> (b < ns)%N -> u1_dual g11 g12 u1 u2 (b * ns + a)%N = value P1 pts`_a pts`_b /\ u2_dual g21 g22 u1 u2 (b * ns + a)%N = value P2 pts`_a pts`_b) ->
  (forall b, (b < ns)%N -> value P1 (-1) pts`_b = 0 /\ value P1 1 pts`_b = 0) -> (forall a, (a < ns)%N -> value P2 pts`_a (-1) = 0 /\ value P2 pts`_a 1 = 0) ->
  relative_vorticity pts g11 g12 g21 g22 isg u1 u2 (j * ns + i)%N = isg (j * ns + i)%N * (value (partial1 P1) pts`_i pts`_j - value (partial2 P2) pts`_i pts`_j).
Proof.
  move=> Hi Hj S1 S2 V E1 E2. rewrite /relative_vorticity derivative_x_2d_ok // derivative_y_2d_ok //. congr (_ * (_ - _)).
  - rewrite row_deriv -(dfr_derivative U (row_size _ S1) Hi). rewrite -[_.[-1]]/(value P1 (-1) pts`_j) -[_.[1]]/(value P1 1 pts`_j).
    case: (E1 j Hj) => -> ->. rewrite !mulr0 !addr0. apply: eq_bigr => l _. rewrite mulrC. congr (_ * _). by case: (V l j (ltn_ord l) Hj).
  - rewrite -column_deriv -(dfr_derivative U _ Hj) ?column_at.
    + case: (E2 i Hi) => -> ->. rewrite !mulr0 !addr0. apply: eq_bigr => l _. rewrite mulrC column_at. congr (_ * _). by case: (V i l Hi (ltn_ord l)).
    + apply: (leq_trans (size_poly _ _)). by case: S2.
Qed.
End Two.

Section Wrong.
Variable F : fieldType.
Variables (pts : seq F).
Hypothesis U : uniq (extension pts).
Let ns := size pts.
(** 1 - x1^2, written with x2 as the outer variable *)
Definition hump : {poly {poly F}} := (1 - 'X ^+ 2)%:P.
Lemma hump_below : (0 < ns)%N -> degree_below ns.+2 hump.
Proof.
  move=> H. pose P : {poly F} := 1 - 'X ^+ 2. have S : (size P <= ns.+2)%N.
  { apply: (leq_trans (size_add _ _)). rewrite size_opp size_polyXn size_poly1 geq_max. by rewrite !ltnS. }
  split; first by apply: (leq_trans (size_polyC_leq1 _)). move=> i. rewrite coefC. case: eqP => _ //. by rewrite size_poly0.
Qed.
Lemma hump_at x y : value hump x y = 1 - x ^+ 2.
Proof. by rewrite /value /hump hornerC hornerD hornerN hornerC hornerXn. Qed.
Lemma hump_1 x y : value (partial1 hump) x y = - (x + x).
Proof. rewrite row_deriv /hump hornerC derivD derivN derivC derivXn /= expr1. by rewrite hornerD hornerC hornerN hornerMn hornerX add0r mulr2n. Qed.
Lemma hump_2 x y : value (partial2 hump) x y = 0.
Proof. by rewrite /value /partial2 /hump derivC horner0 horner0. Qed.
Lemma zero_at x y : value (0 : {poly {poly F}}) x y = 0.
Proof. by rewrite /value !horner0. Qed.
Lemma zero_2 x y : value (partial2 (0 : {poly {poly F}})) x y = 0.
Proof. by rewrite /value /partial2 deriv0 !horner0. Qed.
Lemma zero_1 x y : value (partial1 (0 : {poly {poly F}})) x y = 0.
Proof. by rewrite row_deriv horner0 deriv0 horner0. Qed.
Lemma zero_below n : degree_below n (0 : {poly {poly F}}).
Proof. split; first by rewrite size_poly0. move=> i. by rewrite coef0 size_poly0. Qed.
Lemma index_of a b : (a < ns)%N -> ((b * ns + a) %% ns)%N = a.
Proof. move=> H. by rewrite modnMDl modn_small. Qed.
Lemma vorticity_wrong i j : (i < ns)%N -> (j < ns)%N -> pts`_i + pts`_i != 0 ->
  exists (P1 P2 : {poly {poly F}}) u1 u2, [/\ degree_below ns.+2 P1, degree_below ns.+2 P2,
    forall a b, (a < ns)%N -> (b < ns)%N -> u1 (b * ns + a)%N = value P1 pts`_a pts`_b /\ u2 (b * ns + a)%N = value P2 pts`_a pts`_b &
    relative_vorticity pts (fun _ => 1) (fun _ => 0) (fun _ => 0) (fun _ => 1) (fun _ => 1) u1 u2 (j * ns + i)%N <> value (partial1 P2) pts`_i pts`_j - value (partial2 P1) pts`_i pts`_j].
Proof.
  move=> Hi Hj N. have H : (0 < ns)%N by apply: (leq_ltn_trans (leq0n i)).
  exists hump, 0, (fun p => 1 - pts`_(p %% ns) ^+ 2), (fun _ => 0). split; [exact: hump_below|exact: zero_below| |].
  - move=> a b Ha Hb. by rewrite index_of // hump_at zero_at.
  - rewrite (@vorticity_value _ _ U _ _ _ _ _ _ _ hump 0) //.
    + rewrite hump_1 zero_2 zero_1 hump_2 !subr0 mul1r => /eqP. by rewrite oppr_eq0 (negbTE N).
    + exact: hump_below.
    + exact: zero_below.
    + move=> a b Ha Hb. by rewrite /u1_dual /u2_dual index_of // hump_at zero_at !mul1r !mul0r !addr0.
    + move=> b _. by rewrite !hump_at sqrrN expr1n subrr.
    + move=> a _. by rewrite !zero_at.
Qed.
End Wrong.
Section Edges.
Variable F : fieldType.
(** two points, -1/2 and 1/2: a constant wind along x1 (with the identity metric) *)
Lemma vorticity_of_constant : (2%:R : F) != 0 -> (3%:R : F) != 0 ->
  relative_vorticity [:: - (2%:R)^-1; (2%:R)^-1 : F] (fun _ => 1) (fun _ => 0) (fun _ => 0) (fun _ => 1) (fun _ => 1) (fun _ => 1) (fun _ => 0) 0 = 4%:R / 3%:R.
Proof.
  move=> H2 H3. set pts := [:: _; _].
  have H4 : (4%:R : F) != 0 by rewrite (natrM F 2 2) mulf_neq0.
  have U : uniq (extension pts).
  { have E : forall a b : F, a * 2%:R != b * 2%:R -> a != b by move=> a b; apply: contraNneq => ->.
    have A : (-1 : F) != - (2%:R)^-1 by apply: E; rewrite !mulNr mulVf // mul1r eqr_opp -subr_eq0 -[2%:R]/(1 + 1) addrK oner_eq0.
    have B : (-1 : F) != (2%:R)^-1 by apply: E; rewrite mulVf // mulNr mul1r eq_sym -addr_eq0 -(natrD F 1 2).
    have C : (-1 : F) != 1 by rewrite eq_sym -addr_eq0.
    have D : - (2%:R)^-1 != (2%:R)^-1 :> F by apply: E; rewrite mulNr mulVf // eq_sym -addr_eq0.
    have A' : (2%:R)^-1 != 1 :> F by rewrite -eqr_opp eq_sym.
    have B' : - (2%:R)^-1 != 1 :> F by rewrite -eqr_opp opprK eq_sym.
    rewrite /extension /pts /= !inE !negb_or A B C D A' B' //. }
  pose P : {poly {poly F}} := (4%:R / 3%:R)%:P *: hump F.
  have V x y : value P x y = 4%:R / 3%:R * (1 - x ^+ 2) by rewrite /P /value hornerZ hornerM hornerC -/(value _ _ _) hump_at.
  have Q : 4%:R / 3%:R * (1 - (2%:R)^-1 ^+ 2) = 1 :> F.
  { have -> : 1 - (2%:R)^-1 ^+ 2 = 3%:R / 4%:R :> F by apply: (mulIf H4); rewrite divfK // mulrBl mul1r exprVn -natrX mulVf // -(natrB F (m := 4) (n := 1)).
    by rewrite mulrA divfK // divff. }
  rewrite (@vorticity_value _ _ U _ _ _ _ _ _ _ P 0 0 0) //.
  - rewrite zero_2 subr0 mul1r row_deriv /P hornerZ derivM derivC mul0r add0r hornerM hornerC -row_deriv hump_1 /=. rewrite opprD !opprK -[_^-1 + _]mulr2n -[_^-1 *+ 2]mulr_natl divff // mulr1. by [].
  - split. + apply: (leq_trans (size_scale_leq _ _)). exact: (leq_trans (size_polyC_leq1 _)).
    + move=> i. rewrite /P coefZ mul_polyC. apply: (leq_trans (size_scale_leq _ _)). by case: (@hump_below F pts isT).
  - exact: zero_below.
  - move=> a b Ha Hb. rewrite zero_at V /u1_dual /u2_dual !mul1r !mul0r !addr0. split; last by [].
    case: a Ha => [|[|a]] //= _; by rewrite ?sqrrN Q.
  - move=> b _. by rewrite !V sqrrN expr1n subrr mulr0.
  - move=> a _. by rewrite !zero_at.
Qed.
End Edges.
Lemma enstrophy (F : fieldType) (pts : seq F) g11 g12 g21 g22 isg u1 u2 h f p : h p != 0 ->
  let pv := potential_vorticity pts g11 g12 g21 g22 isg u1 u2 h f p in
  pv * h p = absolute_vorticity pts g11 g12 g21 g22 isg u1 u2 f p /\ ((2%:R : F) != 0 -> potential_enstrophy pts g11 g12 g21 g22 isg u1 u2 h f p = h p * pv ^+ 2 / 2%:R).
Proof.
  move=> H pv. rewrite /pv /potential_vorticity /absolute_vorticity /potential_enstrophy. split; first by rewrite divfK.
  move=> H2. have E : h p / h p ^+ 2 = (h p)^-1 by rewrite expr2 invfM mulrA divff // mul1r.
  rewrite expr_div_n mulrCA E -[RHS]mulrA. congr (_ * _). by rewrite invfM mulrC.
Qed.
