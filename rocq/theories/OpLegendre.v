(** Legendre polynomials, extrapolation, filters. *)
From mathcomp Require Import all_ssreflect all_algebra.
From Verif Require Import OpModel OpSpec OpLagrange.
Set Implicit Arguments.
Unset Strict Implicit.
Unset Printing Implicit Defensive.
Import GRing.Theory Num.Theory.
Local Open Scope ring_scope.

Section Legendre.
Variable F : numFieldType.
Implicit Types (pts : seq F) (x : F) (p : {poly F}) (i j k n : nat).
Notation legendre := (legendre F).
Lemma legval0 x : legval x 0 = 1. Proof. by []. Qed.
Lemma legval1 x : legval x 1 = x. Proof. by []. Qed.
Lemma legpairE x k : legpair x k = (legval x k, legval x k.+1).
Proof. rewrite /legval /=. by case: (legpair x k). Qed.
Lemma legvalSS x k : legval x k.+2 = (legval x k.+1 * x * (2 * k.+2 - 1)%:R - legval x k * (k.+2 - 1)%:R) / k.+2%:R.
Proof. rewrite {1}/legval. rewrite [legpair x k.+2]/= legpairE. by []. Qed.
Lemma legendreSS k : legendre k.+2 = k.+2%:R^-1 *: ((2 * k.+2 - 1)%:R *: ('X * legendre k.+1) - (k.+2 - 1)%:R *: legendre k).
Proof. by []. Qed.
Lemma legendre_val k x : (legendre k).[x] = legval x k.
Proof.
  suff: (legendre k).[x] = legval x k /\ (legendre k.+1).[x] = legval x k.+1 by case.
  elim: k => [|k [IH1 IH2]]; first by rewrite /= !hornerE.
  split=> //. rewrite legendreSS legvalSS. rewrite !hornerE IH1 IH2 mulrC. congr (_ / _). move: (legval x k.+1) (legval x k) => v w. set a := (2 * _ - 1)%:R. rewrite [w * _]mulrC. congr (_ - _). change (a * x * v = v * x * a). by rewrite mulrAC mulrC mulrCA mulrA mulrC mulrA mulrAC.
Qed.
Lemma legendre_lead k : size (legendre k) = k.+1.
Proof.
  suff: size (legendre k) = k.+1 /\ size (legendre k.+1) = k.+2 by case.
  elim: k => [|k [IH1 IH2]]; first by rewrite /= size_poly1 size_polyX.
  split=> //. rewrite legendreSS size_scale ?invr_eq0 ?pnatr_eq0 //.
  have S1 : size ((2 * k.+2 - 1)%:R *: ('X * legendre k.+1)) = k.+3.
    rewrite size_scale; last by rewrite pnatr_eq0 subn_eq0 -ltnNge mulnC muln2 -addnn addSn ltnS leq_addr.
    by rewrite mulrC size_mulX ?IH2 // -size_poly_eq0 IH2.
  rewrite size_addl S1 // size_opp. apply: leq_ltn_trans (size_scale_leq _ _) _. by rewrite IH1 ltnS leqW.
Qed.
Lemma legendre_span n p : (size p <= n)%N -> exists c : nat -> F, p = \sum_(k < n) c k *: legendre k.
Proof.
  elim: n p => [|n IH] p Sp.
  - exists (fun _ => 0). rewrite big_ord0. apply/eqP. by rewrite -size_poly_leq0.
  - pose a := p`_n / lead_coef (legendre n). pose q := p - a *: legendre n.
    have Lz : lead_coef (legendre n) != 0 by rewrite lead_coef_eq0 -size_poly_eq0 legendre_lead.
    have : (size q <= n)%N.
      apply/leq_sizeP => j. rewrite leq_eqVlt => /orP[/eqP<-|Hj].
      - rewrite /q coefB coefZ /a. have -> : (legendre n)`_n = lead_coef (legendre n) by rewrite lead_coefE legendre_lead. by rewrite divfK ?subrr.
      - rewrite /q coefB coefZ !nth_default ?mulr0 ?subr0 //; [by rewrite legendre_lead|exact: leq_trans Sp _].
    case/IH => c E. exists (fun k => if k == n then a else c k). rewrite big_ord_recr /= eqxx.
    have -> : \sum_(i < n) (if i == n :> nat then a else c i) *: legendre i = q.
      rewrite E. apply: eq_bigr => i _. by rewrite (ltn_eqF (ltn_ord i)).
    by rewrite /q subrK.
Qed.
(** the Vandermonde matrix of distinct points can be inverted *)
Lemma vander_coef pts n (c : nat -> F) : legvander pts n *m (\col_k c k) = values pts (\sum_(k < n) c k *: legendre k).
Proof.
  apply/matrixP => i j. rewrite !mxE horner_sum. apply: eq_bigr => k _. by rewrite !mxE hornerZ legendre_val mulrC.
Qed.
Lemma vander_unit pts : uniq pts -> vander pts \in unitmx.
Proof.
  move=> U. have H (i : 'I_(size pts)) : exists c : nat -> F, lagrange_poly (size pts) i pts = \sum_(k < size pts) c k *: legendre k.
    apply: legendre_span. exact: lagrange_size.
  have [C HC] := fin_all_exists H.
  suff : vander pts *m (\matrix_(k, i) C i k) = 1%:M by case/mulmx1_unit.
  apply/matrixP => i j. have := congr1 (fun M : 'cV[F]_(size pts) => M i 0) (vander_coef pts (size pts) (C j)). rewrite -HC !mxE lagrange_at // => E.
  rewrite -val_eqE eq_sym -E. apply: eq_bigr => k _. by rewrite !mxE.
Qed.
Lemma vander_modes pts p (c : nat -> F) : uniq pts -> p = \sum_(k < size pts) c k *: legendre k -> invmx (vander pts) *m values pts p = \col_k c k.
Proof. move=> U ->. by rewrite -vander_coef mulKmx // vander_unit. Qed.
(** ** Extrapolation *)
Lemma extrap_exact pts x p : uniq pts -> (size p <= size pts)%N -> \sum_(i < size pts) extrap pts x 0 i * p.[pts`_i] = p.[x].
Proof.
  move=> U /legendre_span[c E]. have M := vander_modes U E.
  transitivity ((extrap pts x *m values pts p) 0 0); first by rewrite mxE; apply: eq_bigr => i _; rewrite !mxE.
  rewrite /extrap -mulmxA M mxE E horner_sum. apply: eq_bigr => k _. by rewrite !mxE hornerZ legendre_val mulrC.
Qed.
(** ** Filters *)
Lemma modal_filter_ok pts sigma (c : nat -> F) : uniq pts ->
  modal_filter pts sigma *m values pts (\sum_(k < size pts) c k *: legendre k) = values pts (\sum_(k < size pts) (sigma k * c k) *: legendre k).
Proof.
  move=> U. rewrite /modal_filter -!mulmxA (vander_modes U erefl) -(vander_coef pts (size pts) (fun k => sigma k * c k)). congr (_ *m _). apply/matrixP => i j. rewrite mul_diag_mx !mxE. by [].
Qed.
Lemma highfilter_ok pts (c : nat -> F) : uniq pts ->
  highfilter pts *m values pts (\sum_(k < size pts) c k *: legendre k) = values pts (\sum_(k < (size pts).-1) c k *: legendre k).
Proof.
  move=> U. rewrite /highfilter -!mulmxA (vander_modes U erefl). have -> : feye F (size pts) *m (\col_k c k) = \col_k (if k.+1 == size pts then 0 else c k).
    apply/matrixP => i j. rewrite !mxE (bigD1 i) //= !mxE eqxx /= big1 ?addr0; first by case: eqP => _ /=; rewrite ?mul0r ?mul1r.
    move=> k K. by rewrite !mxE eq_sym (negbTE K) mul0r.
  rewrite (vander_coef pts (size pts) (fun k => if k.+1 == size pts then 0 else c k)). congr (values _ _). case: (size pts) => [|n]; first by rewrite !big_ord0.
  rewrite big_ord_recr /= eqxx scale0r addr0. apply: eq_bigr => k _. by rewrite eqSS (ltn_eqF (ltn_ord k)).
Qed.
Lemma remesh_ok src target (c : nat -> F) : uniq src ->
  remesh_operator src target *m values src (\sum_(k < size src) c k *: legendre k) =
  values target (\sum_(k < minn (size src) (size target)) (if k.+1 == minn (size src) (size target) then 2%:R^-1 * c k else c k) *: legendre k).
Proof.
  move=> U. set n := minn _ _. rewrite /remesh_operator -!mulmxA (vander_modes U erefl).
  pose d k := if (k < n)%N then (if k.+1 == n then 2%:R^-1 * c k else c k) else 0.
  have -> : remesh_modes F (size target) (size src) *m (\col_k c k) = \col_k d k.
    apply/matrixP => i j. rewrite !mxE /d. case: ifP => Hi.
    - have Hs : (i < size src)%N by apply: leq_trans Hi (geq_minl _ _).
      rewrite (bigD1 (Ordinal Hs)) //= !mxE eqxx /= big1 ?addr0; last first.
        move=> k K. rewrite !mxE. have /negbTE Nk : (i != k :> nat) by apply: contra K => /eqP E; apply/eqP/val_inj. 
        rewrite Nk. case: eqP => [E1|_] /=; last by rewrite mul0r. case: eqP => [E2|_]; last by rewrite mul0r. by move: Nk; rewrite E1 E2 eqxx.
      rewrite andbb -/n. have -> : (i == n.-1 :> nat) = (i.+1 == n) by case: (n) Hi. by case: eqP; rewrite ?mul1r.
    - rewrite big1 // => k _. rewrite !mxE -/n. have Nik : (i == k :> nat) = false.
        apply/negP => /eqP E. move: Hi. by rewrite /n leq_min {1}E !ltn_ord.
      rewrite Nik. case: eqP => [E1|_] /=; last by rewrite mul0r. case: eqP => [E2|_]; last by rewrite mul0r. by move: Nik; rewrite E1 E2 eqxx.
  rewrite (vander_coef target (size target) d). congr (values _ _).
  have Hn : (n <= size target)%N by exact: geq_minr.
  rewrite (big_ord_widen _ (fun k => (if k.+1 == n then 2%:R^-1 * c k else c k) *: legendre k) Hn) [RHS]big_mkcond. apply: eq_bigr => k _. rewrite /d. by case: ifP => // _; rewrite scale0r.
Qed.
End Legendre.
