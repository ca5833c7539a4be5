From Coq Require Import Reals Lra Lia Sorted.
From mathcomp Require Import all_ssreflect all_algebra.
From Verif Require Import RField AlphaModel AlphaSpec AlphaProofs.
From Verif Require ModSolve SrerkModel SrerkSpec SrerkProofs.
Set Implicit Arguments.
Unset Strict Implicit.
Unset Printing Implicit Defensive.
Import GRing.Theory.
Local Open Scope ring_scope.
Delimit Scope R_scope with re.

(** * between the two libraries *)
Lemma natR (n : nat) : (n%:R : R) = INR n.
Proof. elim: n => [|n IH] //. by rewrite S_INR mulrSr IH. Qed.
Lemma powR (x : R) (n : nat) : x ^+ n = pow x n.
Proof. elim: n => [|n IH] //. by rewrite exprS IH. Qed.
Lemma facR (n : nat) : n`! = Factorial.fact n.
Proof. elim: n => [|n IH] //. by rewrite factS IH. Qed.
Lemma sumR (f : nat -> R) (n : nat) : \sum_(i < n) f i = SrerkProofs.vsum (V := Hierarchy.R_ModuleSpace) f n.
Proof. elim: n => [|n IH]; [by rewrite big_ord0|]. by rewrite big_ord_recr /= IH. Qed.
Lemma nthR (l : seq R) (i : nat) : List.nth i l R0 = l`_i.
Proof. elim: l i => [|x l IH] [|i] //=. Qed.
Lemma sizeR (l : seq R) : size l = List.length l. Proof. by []. Qed.

(** * derivatives vanish at the zeros of high order *)
Section Multiple.
Variable F : fieldType.
Implicit Types (p q h : {poly F}).
Lemma deriv_mult (a : F) n p : (exists q, p = q * ('X - a%:P) ^+ n.+1) -> exists q, p^`() = q * ('X - a%:P) ^+ n.
Proof.
  move=> [q ->]. exists (q^`() * ('X - a%:P) + q *+ n.+1).
  rewrite derivM deriv_exp derivXsubC mul1r /= mulrDl -mulrA -exprS; congr (_ + _). by rewrite mulrnAr mulrnAl.
Qed.
Lemma derivn_root (a : F) n p k : (exists q, p = q * ('X - a%:P) ^+ n) -> (k < n)%N -> root p^`(k) a.
Proof.
  elim: k n p => [|k IH] [|n] p // [q ->] Hk.
  - by rewrite /root hornerM horner_exp hornerXsubC subrr exprS mul0r mulr0.
  - rewrite derivSn. apply: (IH n) => //. by apply: deriv_mult; exists q.
Qed.
End Multiple.

(** * the integral from 0 to 1 of a polynomial *)
Definition integral (p : {poly R}) : R := \sum_(i < size p) p`_i / i.+1%:R.
Lemma integral_ge (p : {poly R}) n : (size p <= n)%N -> integral p = \sum_(i < n) p`_i / i.+1%:R.
Proof.
  move=> H. rewrite /integral (big_ord_widen n (fun i => p`_i / i.+1%:R) H) big_mkcond /=. apply: eq_bigr => i _.
  case: ltnP => // H'. by rewrite nth_default // mul0r.
Qed.
Lemma integralD p q : integral (p + q) = integral p + integral q.
Proof.
  pose n := maxn (size p) (size q). rewrite (@integral_ge (p + q) n) ?(@integral_ge p n) ?(@integral_ge q n) ?leq_maxl ?leq_maxr //.
  - rewrite -big_split. apply: eq_bigr => i _. by rewrite coefD mulrDl.
  - exact: size_add.
Qed.
Lemma integralZ (k : R) p : integral (k *: p) = k * integral p.
Proof.
  rewrite (@integral_ge (k *: p) (size p)) ?size_scale_leq // /integral mulr_sumr. apply: eq_bigr => i _. by rewrite coefZ mulrA.
Qed.
Lemma integral_sum n (f : 'I_n -> {poly R}) : integral (\sum_(i < n) f i) = \sum_(i < n) integral (f i).
Proof.
  elim: n f => [|n IH] f; [by rewrite !big_ord0 /integral size_poly0 big_ord0|]. by rewrite !big_ord_recr /= integralD IH.
Qed.
Lemma Rn0 (n : nat) : (n.+1%:R : R) != 0.
Proof. apply/eqP. rewrite natR. exact: not_0_INR. Qed.
Lemma integral_X n : integral ('X^n) = (n.+1%:R)^-1.
Proof.
  rewrite /integral size_polyXn big_ord_recr /= coefXn eqxx div1r big1 ?add0r // => i _. by rewrite coefXn ltn_eqF ?mul0r.
Qed.
Lemma integral_deriv p : integral p^`() = p.[1] - p.[0].
Proof.
  rewrite (@integral_ge _ (size p).-1); last first.
  { case: (posnP (size p)) => [/eqP|H]; [rewrite size_poly_eq0 => /eqP ->; by rewrite deriv0 size_poly0|]. by rewrite -ltnS prednK // (leq_trans (lt_size_deriv _)) //= -?size_poly_gt0. }
  rewrite horner_coef0 (horner_coef p). case E : (size p) => [|n] /=.
  - rewrite !big_ord0. have -> : p = 0 by apply/eqP; rewrite -size_poly_eq0 E. by rewrite coef0 subr0.
  - rewrite big_ord_recl expr1n mulr1 addrAC subrr add0r. apply: eq_bigr => i _. by rewrite coef_deriv expr1n mulr1 -mulr_natr mulfK ?Rn0.
Qed.
Lemma parts (h : {poly R}) n : (forall k, (k < n)%N -> root h^`(k) 0 /\ root h^`(k) 1) -> forall j, (j < n)%N -> integral (h^`(n) * 'X^j) = 0.
Proof.
  elim: n => [|n IH] H j // Hj. have [H0 H1] := H n (ltnSn n).
  have E : h^`(n.+1) * 'X^j = (h^`(n) * 'X^j)^`() + (- j%:R) *: (h^`(n) * 'X^(j.-1)).
  { by rewrite derivM -derivnS derivXn scaleNr scaler_nat mulrnAr addrK. }
  rewrite E integralD integral_deriv integralZ !hornerM (eqP H0 : h^`(n).[0] = 0) (eqP H1 : h^`(n).[1] = 0) !mul0r subr0 add0r.
  case: j Hj {E} => [|j] Hj; [by rewrite oppr0 mul0r|]. rewrite IH ?mulr0 // => k Hk. apply: H. exact: ltnW.
Qed.

(** * the polynomials *)
Definition base (o : nat) : {poly R} := 'X^(o.+2) * ('X - 1%:P) ^+ o.
Definition nodes_poly (o : nat) : {poly R} := Poly (SrerkModel.node_poly o).
Lemma coef_nodes o j : (nodes_poly o)`_j = if (j <= o)%N then SrerkModel.node_coeff o j else 0.
Proof.
  rewrite coef_Poly -nthR /SrerkModel.node_poly. case: leqP => /leP H.
  - rewrite (List.nth_indep _ R0 (SrerkModel.node_coeff o 0)); last by rewrite List.map_length List.seq_length; lia.
    rewrite List.map_nth List.seq_nth //. lia.
  - apply: List.nth_overflow. rewrite List.map_length List.seq_length. lia.
Qed.
Lemma base_coef o j : (base o)`_(o + j.+2) = if (j <= o)%N then (-1) ^+ (o - j) * 'C(o, j)%:R else 0.
Proof.
  rewrite /base coefXnM ltnNge. have -> : (o.+2 <= o + j.+2)%N by rewrite !addnS !ltnS leq_addr. rewrite /=.
  have -> : (o + j.+2 - o.+2)%N = j by rewrite !addnS !subSS addKn.
  rewrite exprBn_comm; last by apply: mulrC.
  rewrite coef_sum. 
  have T (i : 'I_o.+1) : (((-1) ^+ i * 'X^(o - i) * 1%:P ^+ i) *+ 'C(o, i))`_j = if j == (o - i)%N then (-1) ^+ (o - j) * 'C(o, j)%:R else (0 : R).
  { rewrite coefMn -rmorphX /= expr1n mulr1 -signr_odd. rewrite -[(-1) ^+ odd i * _]/(_ * _).
    have -> : ((-1) ^+ odd i : {poly R}) = ((-1) ^+ odd i)%:P by rewrite rmorphX rmorphN1.
    rewrite coefCM coefXn signr_odd. have Hi : (i <= o)%N by rewrite -ltnS. case: eqP => [->|_]; [|by rewrite mulr0 mul0rn].
    by rewrite mulr1 subKn // bin_sub // mulr_natr. }
  under eq_bigr do rewrite T. case: leqP => H.
  - rewrite (bigD1 (inord (o - j))) //= inordK ?ltnS ?leq_subr // subKn // eqxx big1 ?addr0 // => i Hi.
    case: eqP => // E. case/eqP: Hi. apply: val_inj. rewrite /= inordK ?ltnS ?leq_subr // E subKn // -ltnS. exact: ltn_ord.
  - rewrite big1 // => i _. case: eqP => // E. move: H. by rewrite E ltnNge leq_subr.
Qed.
Lemma factR_n0 n : INR (Factorial.fact n) <> R0. Proof. exact: INR_fact_neq_0. Qed.
Lemma rodrigues o : (base o)^`(o) = (o`!)%:R *: ('X^2 * nodes_poly o).
Proof.
  apply/polyP => i. rewrite coef_derivn coefZ coefXnM. case: i => [|[|j]] /=.
  - rewrite addn0 /base coefXnM ltnS leqnSn /= mul0rn. by rewrite mulr0.
  - rewrite addn1 /base coefXnM ltnSn mul0rn. by rewrite mulr0.
  - rewrite base_coef !subSS subn0 coef_nodes. case: leqP => H; last by rewrite mul0rn mulr0.
    rewrite -mulr_natr -mulrA -natrM.
    have E : ('C(o, j) * (o + j.+2) ^_ o * (j`! * (o - j)`! * (j.+2)`!) = o`! * (o + j.+2)`!)%N.
    { rewrite -(bin_fact H) -(ffact_fact (n := o + j.+2) (m := o)) ?leq_addr // addKn.
      set b := 'C(o, j). set f := (_ ^_ o). set u := j`!. set v := (o - j)`!. set w := (j.+2)`!. rewrite !mulnA. by rewrite -!(mulnAC _ f). }
    have S : ((-1) ^+ (o - j) : R) = pow (Ropp R1) (Nat.add o j).
    { have -> : pow (Ropp R1) (Nat.add o j) = (-1 : R) ^+ (o + j) by rewrite powR. by rewrite -signr_odd -[in RHS]signr_odd oddB // oddD. }
    rewrite S natR natR /SrerkModel.node_coeff.
    have -> : Nat.add (Nat.add o j) 2 = (o + j.+2)%N by rewrite -!plusE; lia.
    have -> : Nat.add j 2 = j.+2 by lia.
    have -> : Nat.sub o j = (o - j)%N by rewrite -minusE.
    rewrite !facR in E *.
    have H1 := @factR_n0 j. have H2 := @factR_n0 j.+2. have H3 := @factR_n0 (o - j).
    move: E H1 H2 H3. generalize (Factorial.fact j) (Factorial.fact j.+2) (Factorial.fact (o - j)) (Factorial.fact o) (Factorial.fact (o + j.+2)) ('C(o, j) * (o + j.+2) ^_ o)%N => a b c f g X E H1 H2 H3.
    have E' := f_equal INR E. rewrite !mult_INR in E'. set s := pow _ _.
    change (Rmult s (INR X) = Rmult (INR f) (Rdiv (Rmult s (INR g)) (Rmult (Rmult (INR a) (INR b)) (INR c)))).
    have -> : INR X = Rdiv (Rmult (INR f) (INR g)) (Rmult (Rmult (INR a) (INR c)) (INR b)) by rewrite -E'; field.
    by field.
Qed.
(** orthogonality to the lower powers, with the weight x^2 *)
Lemma orthogonal o j : (j < o)%N -> integral ('X^2 * nodes_poly o * 'X^j) = 0.
Proof.
  move=> H. have P : integral ((base o)^`(o) * 'X^j) = 0.
  { apply: parts => // k Hk. split; apply: (derivn_root (n := o)) => //.
    - exists ('X^2 * ('X - 1%:P) ^+ o). by rewrite /base polyC0 subr0 -addn2 exprD -mulrA [LHS]mulrC.
    - by exists 'X^(o.+2). }
  move: P. rewrite rodrigues -scalerAl integralZ => /eqP. rewrite mulf_eq0 => /orP [/eqP|/eqP //]. rewrite natR facR => /factR_n0 //.
Qed.

(** * the zeros: Rolle's theorem, once for each derivative *)
Lemma derivable_poly (p : {poly R}) (x : R) : derivable_pt_lim (fun x => p.[x]) x p^`().[x].
Proof.
  elim/poly_ind: p => [|p c IH].
  - rewrite deriv0 horner0. apply: (derivable_pt_lim_ext (fct_cte R0)); [by move=> y; rewrite horner0|]. exact: derivable_pt_lim_const.
  - rewrite derivD derivM derivX derivC addr0 mulr1 hornerD hornerM hornerX.
    apply: (derivable_pt_lim_ext (plus_fct (mult_fct (fun x => p.[x]) id) (fct_cte c))); [by move=> y; rewrite !hornerE|].
    rewrite -[X in derivable_pt_lim _ _ X]addr0. apply: derivable_pt_lim_plus; [|exact: derivable_pt_lim_const].
    have -> : p^`().[x] * x + p.[x] = Rplus (Rmult p^`().[x] (id x)) (Rmult p.[x] R1) by rewrite Rmult_1_r.
    apply: derivable_pt_lim_mult => //. exact: derivable_pt_lim_id.
Qed.
Fixpoint incr (a : R) (l : seq R) (b : R) : Prop := match l with [::] => Rlt a b | x :: r => Rlt a x /\ incr x r b end.
Lemma incr_weaken a a' l b : Rlt a' a -> incr a l b -> incr a' l b.
Proof. case: l => [|x l] /=; [lra|]. move=> H [H1 H2]. split => //. lra. Qed.
Lemma incr_bounds a l b : incr a l b -> forall x, x \in l -> Rlt a x /\ Rlt x b.
Proof.
  elim: l a => [|y l IH] a //= [H1 H2] x. have Hy : Rlt y b.
  { clear -H2. elim: l y H2 => [|z l IH] y //= [H3 H4]. move: (IH _ H4) => H5. lra. }
  rewrite in_cons => /orP [/eqP -> //|Hx]. move: (IH y H2 x Hx) => [H3 H4]. split=> //. lra.
Qed.
Lemma incr_uniq a l b : incr a l b -> uniq l.
Proof.
  elim: l a => [|y l IH] a //= [H1 H2]. rewrite (IH y H2) andbT. apply/negP => Hy. move: (incr_bounds H2 Hy) => [H3 _]. lra.
Qed.
Lemma rolle_poly (p : {poly R}) a b : Rlt a b -> root p a -> root p b -> exists c, (Rlt a c /\ Rlt c b) /\ root p^`() c.
Proof.
  move=> H /eqP Ha /eqP Hb. have [c [E Hc]] := MVT_cor2 (fun x => p.[x]) (fun x => p^`().[x]) a b H (fun c _ => @derivable_poly p c).
  exists c. split=> //. apply/eqP. rewrite Ha Hb in E. have E0 : Rmult p^`().[c] (Rminus b a) = R0 by rewrite -E; apply: Rminus_diag_eq.
  case: (Rmult_integral _ _ E0) => // E1. lra.
Qed.
Lemma rolle_list (p : {poly R}) l : forall a b, incr a l b -> root p a -> root p b -> all (root p) l ->
  exists l', size l' = (size l).+1 /\ incr a l' b /\ all (root p^`()) l'.
Proof.
  elim: l => [|x l IH] a b /=.
  - move=> H Ha Hb _. have [c [[H1 H2] Hc]] := rolle_poly H Ha Hb. exists [:: c]. by rewrite /= Hc.
  - move=> [H1 H2] Ha Hb /andP [Hx Hl]. have [c [[H3 H4] Hc]] := rolle_poly H1 Ha Hx. have [l' [E [I A]]] := IH x b H2 Hx Hb Hl.
    exists (c :: l'). rewrite /= E Hc A. split=> //. split=> //. split=> //. exact: incr_weaken I.
Qed.
Lemma base_roots o k : (k < o)%N -> root (base o)^`(k) 0 /\ root (base o)^`(k) 1.
Proof.
  move=> Hk. split; apply: (derivn_root (n := o)) => //.
  - exists ('X^2 * ('X - 1%:P) ^+ o). by rewrite /base polyC0 subr0 -addn2 exprD -mulrA [LHS]mulrC.
  - by exists 'X^(o.+2).
Qed.
Lemma derivn_zeros o k : (k <= o)%N -> exists l, size l = k /\ incr R0 l R1 /\ all (root (base o)^`(k)) l.
Proof.
  elim: k => [|k IH] H; [exists [::]; split=> //; split=> //=; lra|].
  have [l [E [I A]]] := IH (ltnW H). have [H0 H1] := base_roots H. have [l' [E' [I' A']]] := rolle_list I H0 H1 A.
  exists l'. by rewrite E' E derivnS.
Qed.
(** the zeros are real, different from each other, and between 0 and 1 *)
Lemma nodes_zeros o : exists l, size l = o /\ incr R0 l R1 /\ all (root (nodes_poly o)) l.
Proof.
  have [l [E [I A]]] := derivn_zeros (leqnn o). exists l. split=> //. split=> //. apply/allP => x Hx. have := allP A x Hx. rewrite rodrigues rootZ; last by apply/eqP; rewrite natR facR; exact: factR_n0.
  rewrite rootM => /orP [|//]. rewrite /root horner_exp hornerX expf_eq0 /= => /eqP E0. have [H _] := incr_bounds I Hx. rewrite E0 in H. exfalso. move: H. exact: Rlt_irrefl.
Qed.
Lemma size_nodes o : size (nodes_poly o) = o.+1.
Proof.
  apply/eqP. rewrite eqn_leq. apply/andP. split.
  - apply/leq_sizeP => j Hj. by rewrite coef_nodes leqNgt Hj.
  - rewrite ltnNge. apply/negP => /leq_sizeP /(_ o (leqnn o)). rewrite coef_nodes leqnn /SrerkModel.node_coeff.
    move/Rmult_integral => [/Rmult_integral [|]|].
    + apply: pow_nonzero. lra.
    + exact: factR_n0.
    + apply: Rinv_neq_0_compat. repeat apply: Rmult_integral_contrapositive_currified; exact: factR_n0.
Qed.
(** values of the two notions of polynomial *)
Lemma poly_value (l : seq R) (x : R) : SrerkSpec.poly_at (V := Hierarchy.R_ModuleSpace) l x = (Poly l).[x].
Proof. rewrite horner_Poly. elim: l => [|c l IH] //=. rewrite IH [RHS]addrC [_ * x]mulrC. by []. Qed.
Lemma prod_value (c : seq R) (x : R) : List.fold_right Rmult R1 (List.map (fun ci => Rminus x ci) c) = (\prod_(z <- c) ('X - z%:P)).[x].
Proof. elim: c => [|y c IH] /=; [by rewrite big_nil hornerC|]. by rewrite big_cons hornerM hornerXsubC IH. Qed.
Lemma poly_same (p q : {poly R}) : (forall x, p.[x] = q.[x]) -> p = q.
Proof.
  move=> H. apply/eqP. rewrite -subr_eq0. apply/eqP. pose rs := [seq (i%:R : R) | i <- iota 0 (size (p - q))].
  apply: (roots_geq_poly_eq0 (rs := rs)).
  - apply/allP => x _. by rewrite /root hornerD hornerN H subrr.
  - rewrite map_inj_uniq ?iota_uniq // => i j. rewrite !natR. exact: INR_eq.
  - by rewrite size_map size_iota.
Qed.
Lemma roots_of_poly o c : SrerkSpec.roots_of (SrerkModel.node_poly o) c -> exists lead, lead <> R0 /\ nodes_poly o = lead *: \prod_(z <- c) ('X - z%:P).
Proof.
  move=> [lead [H0 H]]. exists lead. split=> //. apply: poly_same => x. by rewrite /nodes_poly -poly_value H prod_value hornerZ.
Qed.
Lemma nodes_unique o c : SrerkSpec.roots_of (SrerkModel.node_poly o) c -> size c = o /\ uniq c /\ forall x, x \in c -> Rlt R0 x /\ Rlt x R1.
Proof.
  move=> /roots_of_poly [lead [H0 E]]. have [l [El [I A]]] := nodes_zeros o.
  have Es : size c = o. { have := size_nodes o. rewrite E size_scale ?size_prod_XsubC; [by case|]. by apply/eqP. }
  have S : {subset l <= c}. { move=> x Hx. have := allP A x Hx. rewrite E rootZ; [by rewrite root_prod_XsubC|]. by apply/eqP. }
  have L : (size c <= size l)%N by rewrite Es El.
  split=> //. split; [exact: leq_size_uniq (incr_uniq I) S L|]. move=> x. rewrite -(uniq_min_size (incr_uniq I) S L).2. exact: (incr_bounds I).
Qed.
Lemma nodes_exist o : exists c, SrerkSpec.roots_of (SrerkModel.node_poly o) c /\ incr R0 c R1.
Proof.
  have [l [El [I A]]] := nodes_zeros o. exists l. split=> //. exists (lead_coef (nodes_poly o)). split.
  - apply/eqP. rewrite lead_coef_eq0 -size_poly_eq0 size_nodes. by [].
  - have E : nodes_poly o = lead_coef (nodes_poly o) *: \prod_(z <- l) ('X - z%:P).
    { apply: all_roots_prod_XsubC => //; [by rewrite size_nodes El|by rewrite uniq_rootsE (incr_uniq I)]. }
    move=> x. by rewrite poly_value prod_value -/(nodes_poly o) [in LHS]E hornerZ.
Qed.

(** * the coefficients *)
Definition alphaR (c : seq R) (k i : nat) : R := alpha_coeff c k i.
Lemma alphaR_conditions c : uniq c -> 0 \notin c -> SrerkProofs.conditions alphaR c.
Proof.
  move=> U Z k l Hk Hl. have H := alpha_conditions U Z (introT ltP Hk) (introT ltP Hl). rewrite -sumR.
  have -> : (\sum_(i < length c) (alphaR c k i * List.nth i c 0 ^ Nat.add l 2)%re : R) = \sum_(i < size c) alpha_coeff c k i * c`_i ^+ (l + 2).
  { apply: eq_bigr => i _. by rewrite nthR powR. }
  rewrite H. have -> : (k == l) = Nat.eqb k l. { case: eqP => [->|E]; [by rewrite PeanoNat.Nat.eqb_refl|]. symmetry. by apply/PeanoNat.Nat.eqb_neq. }
  case: Nat.eqb => //. by rewrite natR facR.
Qed.
Section Quadrature.
Variables (c : seq R) (w : nat -> R) (o : nat).
Hypothesis Hc : size c = o.
Definition rule (p : {poly R}) : R := \sum_(i < size c) w i * p.[c`_i].
Lemma ruleD p q : rule (p + q) = rule p + rule q.
Proof. rewrite /rule -big_split. apply: eq_bigr => i _. by rewrite hornerD mulrDr. Qed.
Lemma ruleZ k p : rule (k *: p) = k * rule p.
Proof. rewrite /rule mulr_sumr. apply: eq_bigr => i _. by rewrite hornerZ mulrCA. Qed.
Lemma rule_sum n (f : 'I_n -> {poly R}) : rule (\sum_(i < n) f i) = \sum_(i < n) rule (f i).
Proof.
  elim: n f => [|n IH] f. { rewrite !big_ord0 /rule big1 // => i _. by rewrite horner0 mulr0. } by rewrite !big_ord_recr /= ruleD IH.
Qed.
(** two linear functionals that agree on the powers *)
Lemma by_powers (f g : {poly R} -> R) : (forall p q, f (p + q) = f p + f q) -> (forall k p, f (k *: p) = k * f p) -> (forall p q, g (p + q) = g p + g q) -> (forall k p, g (k *: p) = k * g p) ->
  forall n (s : {poly R}), (size s <= n)%N -> (forall j, (j < n)%N -> f 'X^j = g 'X^j) -> f s = g s.
Proof.
  move=> fD fZ gD gZ n s Hs H.
  have K (h : {poly R} -> R) (hD : forall p q, h (p + q) = h p + h q) (hZ : forall k p, h (k *: p) = k * h p) : h s = \sum_(i < size s) s`_i * h 'X^i.
  { rewrite -[in LHS](coefK s) poly_def. elim: (size s) => [|m IH]; [by rewrite !big_ord0 -(scale0r 0) hZ mul0r|]. by rewrite !big_ord_recr /= hD hZ IH. }
  rewrite (K f fD fZ) (K g gD gZ). apply: eq_bigr => i _. by rewrite H // (leq_trans (ltn_ord i)).
Qed.
Hypothesis Hroots : all (root (nodes_poly o)) c.
Hypothesis Hlow : forall l, (l < o)%N -> rule 'X^(l.+2) = (l.+3%:R)^-1.
Lemma gauss l : (l < o + o)%N -> rule 'X^(l.+2) = (l.+3%:R)^-1.
Proof.
  move=> Hl. set P := nodes_poly o. set q := 'X^l %/ P. set r := 'X^l %% P.
  have P0 : P != 0 by rewrite -size_poly_eq0 size_nodes.
  have E : ('X^(l.+2) : {poly R}) = 'X^2 * P * q + 'X^2 * r by rewrite -addn2 exprD mulrC -mulrA [P * q]mulrC -mulrDr -divp_eq.
  have lowr : rule ('X^2 * r) = integral ('X^2 * r).
  { apply: (@by_powers (fun s => rule ('X^2 * s)) (fun s => integral ('X^2 * s)) _ _ _ _ o r).
    - move=> p p'. by rewrite mulrDr ruleD.
    - move=> k p. by rewrite -scalerAr ruleZ.
    - move=> p p'. by rewrite mulrDr integralD.
    - move=> k p. by rewrite -scalerAr integralZ.
    - by rewrite -ltnS -(size_nodes o) ltn_modp.
    - move=> j Hj. by rewrite -exprD add2n Hlow // integral_X. }
  have ortho : integral ('X^2 * P * q) = 0.
  { apply: (@by_powers (fun s => integral ('X^2 * P * s)) (fun s => 0) _ _ _ _ o q).
    - move=> p p'. by rewrite mulrDr integralD.
    - move=> k p. by rewrite -scalerAr integralZ.
    - move=> *. by rewrite addr0.
    - move=> *. by rewrite mulr0.
    - rewrite /q size_divp // size_polyXn size_nodes /=. by rewrite leq_subLR.
    - move=> j Hj. exact: orthogonal. }
  have zero_at : rule ('X^2 * P * q) = 0.
  { rewrite /rule big1 // => i _. rewrite !hornerM. have /eqP -> := allP Hroots _ (mem_nth 0 (ltn_ord i)). by rewrite mulr0 mul0r mulr0. }
  by rewrite -integral_X E ruleD integralD zero_at ortho lowr.
Qed.
End Quadrature.
Lemma alphaR_quadrature o c : SrerkSpec.roots_of (SrerkModel.node_poly o) c -> SrerkProofs.quadrature alphaR c (Nat.add o o).
Proof.
  move=> H. have [Es [U B]] := nodes_unique H.
  have Z : 0 \notin c. { apply/negP => /B [H0 _]. move: H0. exact: Rlt_irrefl. }
  have C := alphaR_conditions U Z.
  have A : all (root (nodes_poly o)) c. { have [lead [L0 E]] := roots_of_poly H. apply/allP => x Hx. rewrite E rootZ; [by rewrite root_prod_XsubC|]. by apply/eqP. }
  have T (l : nat) : SrerkProofs.vsum (V := Hierarchy.R_ModuleSpace) (fun i => Rmult (SrerkProofs.weight alphaR c i) (pow (List.nth i c R0) (Nat.add l 2))) (length c) = rule c (SrerkProofs.weight alphaR c) 'X^(l.+2).
  { rewrite -sumR /rule. apply: eq_bigr => i _. by rewrite hornerXn nthR powR -(PeanoNat.Nat.add_comm 2 l). }
  have low (j : nat) : (j < o)%N -> rule c (SrerkProofs.weight alphaR c) 'X^(j.+2) = (j.+3%:R)^-1.
  { move=> Hj. rewrite -T.
    pose f3 (k : nat) : R := INR (Factorial.fact (Nat.add k 3)).
    have S1 (i : nat) : Rmult (SrerkProofs.weight alphaR c i) (pow (List.nth i c R0) (Nat.add j 2)) = \sum_(k < length c) (f3 k)^-1 * (alphaR c k i * pow (List.nth i c R0) (Nat.add j 2)).
    { rewrite /SrerkProofs.weight -sumR. transitivity ((\sum_(k < length c) alphaR c k i * (f3 k)^-1) * pow (List.nth i c R0) (Nat.add j 2)); [by []|].
      rewrite mulr_suml. apply: eq_bigr => k _. by rewrite [alphaR c k i * _]mulrC -mulrA. }
    rewrite -sumR. under eq_bigr do rewrite S1. rewrite exchange_big /=.
    have Hj' : (j < length c)%N by rewrite -sizeR Es.
    rewrite (bigD1 (Ordinal Hj')) //= [X in _ + X]big1 ?addr0.
    + rewrite -mulr_sumr (sumR (fun i => alphaR c j i * pow (List.nth i c R0) (Nat.add j 2))) C; try exact/ltP.
      rewrite PeanoNat.Nat.eqb_refl /f3. have -> : Nat.add j 3 = S (Nat.add j 2) by lia. rewrite natR fact_simpl mult_INR.
      have H1 := @factR_n0 (Nat.add j 2). have H2 : INR (S (Nat.add j 2)) <> R0 by exact: not_0_INR. have -> : j.+3 = S (Nat.add j 2) by lia.
      change (Rmult (Rinv (Rmult (INR (S (Nat.add j 2))) (INR (Factorial.fact (Nat.add j 2))))) (INR (Factorial.fact (Nat.add j 2))) = Rinv (INR (S (Nat.add j 2)))). by field.
    + move=> k Hk. rewrite -mulr_sumr (sumR (fun i => alphaR c k i * pow (List.nth i c R0) (Nat.add j 2))) C; try exact/ltP.
      have -> : Nat.eqb k j = false. { apply/PeanoNat.Nat.eqb_neq => E. case/eqP: Hk. exact: val_inj. }
      by rewrite mulr0.
  }
  move=> l /ltP Hl. rewrite T (gauss A low) //. by rewrite natR -(PeanoNat.Nat.add_comm 3 l).
Qed.

(** * the facts about nodes in the words of the standard library *)
Lemma mem_In (x : R) (c : seq R) : x \in c <-> List.In x c.
Proof.
  elim: c => [|y c IH] //=. rewrite in_cons. split.
  - move=> /orP [/eqP ->|H]; [by left|right; by apply/IH].
  - by move=> [->|/IH H]; rewrite ?eqxx // H orbT.
Qed.
Lemma uniq_NoDup (c : seq R) : uniq c <-> List.NoDup c.
Proof.
  elim: c => [|y c IH] /=; [split=> // _; exact: List.NoDup_nil|]. split.
  - move=> /andP [/negP H /IH U]. apply: List.NoDup_cons => // Hy. apply: H. exact/mem_In.
  - move=> H. inversion H. apply/andP. split; [apply/negP => /mem_In //|exact/IH].
Qed.
Lemma nodes_facts o c : SrerkSpec.roots_of (SrerkModel.node_poly o) c -> length c = o /\ List.NoDup c /\ List.Forall (fun x => Rlt R0 x /\ Rlt x R1) c.
Proof. move=> /nodes_unique [E [U B]]. split=> //. split; [exact/uniq_NoDup|]. apply/List.Forall_forall => x Hx. apply: B. exact/mem_In. Qed.
Lemma incr_sorted a l b : incr a l b -> Sorted.StronglySorted Rlt l.
Proof.
  elim: l a => [|x l IH] a /=; [constructor|]. move=> [_ H]. constructor; [exact: IH H|]. apply/List.Forall_forall => y /mem_In Hy. exact: (incr_bounds H Hy).1.
Qed.
Lemma nodes_exist_sorted o : exists c, SrerkSpec.roots_of (SrerkModel.node_poly o) c /\ Sorted.StronglySorted Rlt c.
Proof. have [c [H I]] := nodes_exist o. exists c. split=> //. exact: incr_sorted I. Qed.
Lemma alphaR_ok c : List.NoDup c -> ~ List.In R0 c -> SrerkProofs.conditions alphaR c.
Proof. move=> /uniq_NoDup U Z. apply: alphaR_conditions => //. by apply/negP => /mem_In. Qed.

(** the integral of a polynomial is its integral *)
Definition primitive (p : {poly R}) : {poly R} := \sum_(i < size p) (p`_i / i.+1%:R) *: 'X^(i.+1).
Lemma primitive_deriv p : (primitive p)^`() = p.
Proof.
  rewrite /primitive raddf_sum -[RHS]coefK poly_def. apply: eq_bigr => i _. by rewrite /= derivZ derivXn /= -scaler_nat scalerA divfK ?Rn0.
Qed.
Lemma integral_RInt (p : {poly R}) : RInt.is_RInt (V := Hierarchy.R_NormedModule) (fun x => p.[x]) R0 R1 (integral p).
Proof.
  have E : integral p = Hierarchy.minus (G := Hierarchy.R_AbelianGroup) (primitive p).[R1] (primitive p).[R0] by rewrite -{1}(primitive_deriv p) integral_deriv.
  rewrite E. refine (@RInt_analysis.is_RInt_derive Hierarchy.R_CompleteNormedModule (fun x => (primitive p).[x]) (fun x => p.[x]) R0 R1 _ _).
  - move=> x _. apply/Derive.is_derive_Reals. rewrite -{2}(primitive_deriv p). exact: derivable_poly.
  - move=> x _. refine (@Derive.ex_derive_continuous Hierarchy.R_AbsRing Hierarchy.R_NormedModule (fun x => p.[x]) x _). exists p^`().[x]. apply/Derive.is_derive_Reals. exact: derivable_poly.
Qed.
Lemma orthogonal_R o j : lt j o -> RInt.is_RInt (V := Hierarchy.R_NormedModule) (fun x => Rmult (Rmult (pow x 2) (SrerkSpec.poly_at (V := Hierarchy.R_ModuleSpace) (SrerkModel.node_poly o) x)) (pow x j)) R0 R1 R0.
Proof.
  move=> /ltP H. have I := @integral_RInt ('X^2 * nodes_poly o * 'X^j). rewrite (orthogonal H) in I. refine (@RInt.is_RInt_ext Hierarchy.R_NormedModule _ _ _ _ _ _ I) => x _.
  rewrite 2!hornerM !hornerXn /nodes_poly -poly_value !powR. reflexivity.
Qed.
