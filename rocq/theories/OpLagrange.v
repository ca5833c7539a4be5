(** Lagrange and Legendre polynomials. *)
From mathcomp Require Import all_ssreflect all_algebra.
From Verif Require Import OpModel.
Set Implicit Arguments.
Unset Strict Implicit.
Unset Printing Implicit Defensive.
Import GRing.Theory Num.Theory.
Local Open Scope ring_scope.

Section Lagrange.
Variable F : fieldType.
Implicit Types (xi : seq F) (x : F) (p : {poly F}) (i j n : nat).
Notation L xi i := (lagrange_poly (size xi) i xi).

Lemma lagrange_size xi i : (i < size xi)%N -> (size (L xi i) <= size xi)%N.
Proof.
  move=> Hi. rewrite /lagrange_poly. set s := [seq _ <- _ | _].
  have Sz : (size s).+1 = size xi.
    rewrite size_filter. have := count_predC (pred1 i) (iota 0 (size xi)). rewrite size_iota (count_uniq_mem _ (iota_uniq _ _)) mem_iota /= add0n Hi /= add1n => E. exact: E.
  rewrite -Sz. elim: s {Sz} => [|j s IH]; first by rewrite big_nil size_poly1.
  rewrite big_cons. apply: leq_trans (size_mul_leq _ _) _. set q := _ * _. have : (size q <= 2)%N.
    rewrite /q mulrC mul_polyC. apply: leq_trans (size_scale_leq _ _) _. by rewrite size_XsubC.
  move=> Hq. rewrite -subn1 leq_subLR add1n. apply: leq_trans (leq_add Hq IH) _. by rewrite add2n.
Qed.
Lemma lagrange_at xi i j : uniq xi -> (i < size xi)%N -> (j < size xi)%N -> (L xi i).[xi`_j] = (i == j)%:R.
Proof.
  move=> U Hi Hj. rewrite /lagrange_poly horner_prod. case: (i =P j) => [<-|/eqP N].
  - apply: big1_seq => k /andP[_]. rewrite mem_filter mem_iota /= add0n => /andP[Nk Hk]. rewrite !hornerE mulfV // subr_eq0 nth_uniq //. by rewrite eq_sym.
  - apply/eqP. rewrite big_seq prodf_seq_eq0. apply/hasP. exists j; first by rewrite mem_filter mem_iota /= add0n Hj eq_sym N.
    rewrite mem_filter mem_iota /= add0n Hj eq_sym N /=. by rewrite !hornerE subrr mul0r.
Qed.
(** two polynomials of size at most n that agree at n distinct points are equal *)
Lemma poly_eq_at xi (p q : {poly F}) : uniq xi -> (size p <= size xi)%N -> (size q <= size xi)%N -> (forall j, (j < size xi)%N -> p.[xi`_j] = q.[xi`_j]) -> p = q.
Proof.
  move=> U Sp Sq H. apply/eqP. rewrite -subr_eq0. apply/eqP. apply: (@roots_geq_poly_eq0 _ _ xi) => //.
  - apply/allP => x /(nthP 0)[j Hj <-]. by rewrite rootE !hornerE H // subrr.
  - apply: leq_trans (size_add _ _) _. by rewrite size_opp geq_max Sp Sq.
Qed.
Lemma interpolate xi p : uniq xi -> (size p <= size xi)%N -> p = \sum_(i < size xi) p.[xi`_i] *: L xi i.
Proof.
  move=> U Sp. apply: (poly_eq_at U Sp).
  - apply: leq_trans (size_sum _ _ _) _. apply/bigmax_leqP => i _. apply: leq_trans (size_scale_leq _ _) _. exact: lagrange_size.
  - move=> j Hj. rewrite horner_sum (bigD1 (Ordinal Hj)) //= big1 ?addr0; first by rewrite hornerZ lagrange_at // eqxx mulr1.
    move=> i Ni. rewrite hornerZ lagrange_at //. have /negbTE-> : (i != j :> nat) by apply: contra Ni => /eqP E; apply/eqP/val_inj. by rewrite mulr0.
Qed.
Lemma lagrange_evalE xi x i : (i < size xi)%N -> (lagrange_eval xi x)`_i = (L xi i).[x].
Proof.
  move=> Hi. rewrite /lagrange_eval. case: eqP => E.
  - rewrite E in Hi *. case: i Hi => [|//] _. by rewrite /lagrange_poly /= big_nil hornerC.
  - by rewrite (nth_map 0%N) ?size_iota // nth_iota.
Qed.
Lemma size_lagrange_eval xi x : size (lagrange_eval xi x) = size xi.
Proof. rewrite /lagrange_eval. case: eqP => [->//|_]. by rewrite size_map size_iota. Qed.
Lemma lagrange_eval_exact xi x p : uniq xi -> (size p <= size xi)%N -> \sum_(i < size xi) (lagrange_eval xi x)`_i * p.[xi`_i] = p.[x].
Proof.
  move=> U Sp. rewrite [in RHS](interpolate U Sp) horner_sum. apply: eq_bigr => i _. by rewrite lagrange_evalE // hornerZ mulrC.
Qed.
Lemma lagrange_eval_one xi x : uniq xi -> xi <> [::] -> \sum_(i < size xi) (lagrange_eval xi x)`_i = 1.
Proof.
  move=> U N. rewrite -[RHS](hornerC 1 x) -(@lagrange_eval_exact xi x 1) //; last by rewrite size_poly1; case: (xi) N.
  apply: eq_bigr => i _. by rewrite hornerC mulr1.
Qed.
Lemma diffmat_exact xi p j : uniq xi -> (size p <= size xi)%N -> \sum_(i < size xi) diffmat xi j i * p.[xi`_i] = (p^`()).[xi`_j].
Proof.
  move=> U Sp. rewrite [in RHS](interpolate U Sp) linear_sum horner_sum. apply: eq_bigr => i _. by rewrite /= derivZ hornerZ mulrC.
Qed.
(** ** Symmetric points *)
Lemma lagrange_mirror xi i : uniq xi -> (forall k, (k < size xi)%N -> xi`_(size xi - k - 1) = - xi`_k) -> (i < size xi)%N ->
  L xi (size xi - i - 1) = (L xi i) \Po (- 'X).
Proof.
  move=> U S Hi. have Hr k : (k < size xi)%N -> (size xi - k - 1 < size xi)%N by move=> Hk; rewrite -subnDA addn1; case: (size xi) Hk => // n Hk; rewrite subSS ltnS leq_subr.
  apply: (poly_eq_at U); first exact: lagrange_size (Hr _ Hi).
  - rewrite size_comp_poly2; first exact: lagrange_size. by rewrite size_opp size_polyX.
  - move=> j Hj. rewrite lagrange_at // ?Hr // horner_comp !hornerE -S // lagrange_at // ?Hr //. congr ((nat_of_bool _)%:R).
    rewrite -!subnDA !addn1. apply/eqP/eqP => [<-|->]; by rewrite subnSK // subKn // ltnW.
Qed.
End Lagrange.
