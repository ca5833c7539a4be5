(** Derivatives with boundary values, skew-centrosymmetry, filters on polynomials, linear weights. *)
From mathcomp Require Import all_ssreflect all_algebra.
From Verif Require Import OpModel OpSpec OpLagrange OpLegendre.
Set Implicit Arguments.
Unset Strict Implicit.
Unset Printing Implicit Defensive.
Import GRing.Theory Num.Theory.
Local Open Scope ring_scope.

Section Dfr.
Variable F : fieldType.
Implicit Types (pts xi : seq F) (p : {poly F}).
Lemma size_extension pts : size (extension pts) = (size pts).+2.
Proof. by rewrite /= size_cat addn1. Qed.
Lemma ext_in pts j : (j < size pts)%N -> (extension pts)`_j.+1 = pts`_j.
Proof. by move=> H; rewrite /= nth_cat H. Qed.
Lemma ext_last pts : (extension pts)`_(size pts).+1 = 1.
Proof. by rewrite /= nth_cat ltnn subnn. Qed.
Lemma dfr_derivative pts p i : uniq (extension pts) -> (size p <= (size pts).+2)%N -> (i < size pts)%N ->
  \sum_(j < size pts) diff_solpt pts i j * p.[pts`_j] + correction_neg pts i * p.[-1] + correction_pos pts i * p.[1] = (p^`()).[pts`_i].
Proof.
  move=> U Sp Hi. have := @diffmat_exact F (extension pts) p i.+1 U. rewrite size_extension ext_in // => <- //.
  have E0 : (extension pts)`_0 = -1 by []. have E1 := ext_last pts. have E2 := @ext_in pts. rewrite /correction_neg /correction_pos /diff_solpt /diff_ext.
  move: (extension pts) E0 E1 E2 => e E0 E1 E2. rewrite big_ord_recr big_ord_recl /= E0 E1. congr (_ + _). rewrite addrC. congr (_ + _).
  apply: eq_bigr => j _. by rewrite /bump /= E2.
Qed.
(** ** Skew-centrosymmetry *)
Lemma diffmat_skew xi j i : uniq xi -> mirrored xi -> (j < size xi)%N -> (i < size xi)%N -> diffmat xi (size xi - j - 1) (size xi - i - 1) = - diffmat xi j i.
Proof.
  move=> U M Hj Hi. rewrite /diffmat lagrange_mirror // M // deriv_comp derivN derivX !hornerE horner_comp !hornerE opprK. by rewrite mulrN1.
Qed.
Lemma sub1K n i : (i < n)%N -> (n - (n - i - 1) - 1 = i)%N.
Proof. move=> H. rewrite -!subnDA !addn1. by rewrite subnSK // subKn // ltnW. Qed.
Lemma check_ok n (A : nat -> nat -> F) : (2%:R != 0 :> F) ->
  check_skewcentrosymmetry n A = true <-> (forall i j, (i < n)%N -> (j < n)%N -> A (n - i - 1)%N (n - j - 1)%N = - A i j).
Proof.
  move=> Ch. rewrite /check_skewcentrosymmetry. set m := (if _ then (n %/ 2)%N else _).
  have En : n = (n %/ 2 * 2 + n %% 2)%N by exact: divn_eq.
  have M2 : (n %% 2 < 2)%N by rewrite ltn_mod.
  have Mm : (n <= m * 2)%N. rewrite {1}En /m. case: eqP => [->|N]; first by rewrite addn0. rewrite mulSn addnC leq_add2r. exact: ltnW.
  have Mn : (m <= n)%N. rewrite [X in (_ <= X)%N]En /m. case: eqP => [->|N]; first by rewrite addn0 muln2 -addnn leq_addr. rewrite -addn1 leq_add //; [by rewrite muln2 -addnn leq_addr|by rewrite lt0n; apply/eqP].
  split.
  - case: ifP => // _ /allP H i j Hi Hj. have G i' j' : (i' < m)%N -> (j' < n)%N -> A i' j' = - A (n - i' - 1)%N (n - j' - 1)%N.
      move=> Hi' Hj'. have := H i'. rewrite mem_iota /= add0n => /(_ Hi') /allP /(_ j'). rewrite mem_iota /= add0n => /(_ Hj') /eqP. by [].
    case: (ltnP i m) => Im; first by rewrite [in RHS]G // opprK.
    have L : (n - i - 1 < m)%N. rewrite -subnDA ltn_subLR ?addn1 //. apply: (leq_ltn_trans Mm). by rewrite muln2 -addnn addSn ltnS leq_add2r.
    have Lj : (n - j - 1 < n)%N by rewrite -subnDA addn1; case: (n) Hj => // n' _; rewrite subSS ltnS leq_subr.
    by rewrite G // !sub1K.
  - move=> H. have Od : (n %% 2 != 0)%N -> (n - m.-1 - 1 = m.-1)%N.
      rewrite /m => N. rewrite (negbTE N) /=. have O : (n %% 2 = 1)%N by case: (n %% 2)%N N M2 => [|[|]]. rewrite {1}En O muln2 -addnn addn1 -addnS addKn. by rewrite subSS subn0.
    case: ifP => [/andP[N C]|_].
      have := H m.-1 m.-1. rewrite Od //. have L : (m.-1 < n)%N by apply: leq_trans Mn; rewrite /m (negbTE N).
      move=> /(_ L L) /eqP. rewrite -subr_eq0 opprK -mulr2n -mulr_natl mulf_eq0 (negbTE Ch) /= => Z. by rewrite Z in C.
    apply/allP => i. rewrite mem_iota /= add0n => Hi. apply/allP => j. rewrite mem_iota /= add0n => Hj. by rewrite H ?opprK //; apply: leq_trans Mn.
Qed.
Lemma mirrored_extension pts : mirrored pts -> mirrored (extension pts).
Proof.
  move=> M k. rewrite size_extension. case: k => [|k] Hk.
  - rewrite subn0 subn1 [_.+2.-1]/= ext_last. by rewrite /= opprK.
  - case: (ltnP k (size pts)) => L.
    + rewrite ext_in // -M // -subnDA addn1 !subSS -[RHS]ext_in; last by rewrite -subnDA addn1; case: (size pts) L => // n _; rewrite subSS ltnS leq_subr.
      congr (_`_ _). rewrite -subnDA addn1 subnSK //.
    + have -> : k = size pts by apply/eqP; rewrite eqn_leq L andbT -ltnS; move: Hk; rewrite ltnS.
      by rewrite ext_last -subnDA addn1 subnn.
Qed.
End Dfr.
