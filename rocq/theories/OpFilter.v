(** Filters on polynomials; filtered differentiation stays skew-centrosymmetric; linear weights. *)
From mathcomp Require Import all_ssreflect all_algebra.
From Verif Require Import OpModel OpSpec OpLagrange OpLegendre OpDfr.
Set Implicit Arguments.
Unset Strict Implicit.
Unset Printing Implicit Defensive.
Import GRing.Theory Num.Theory.
Local Open Scope ring_scope.

Section Filters.
Variable F : numFieldType.
Implicit Types (pts xi : seq F) (p : {poly F}).
Notation legendre := (legendre F).
Lemma one_mode n (k : 'I_n) : \sum_(j < n) (j == k :> nat)%:R *: legendre j = legendre k.
Proof.
  rewrite (bigD1 k) //= eqxx scale1r big1 ?addr0 // => j N. have /negbTE -> : (j != k :> nat) by []. by rewrite scale0r.
Qed.
Lemma valuesZ pts a p : values pts (a *: p) = a *: values pts p.
Proof. by apply/matrixP => i j; rewrite !mxE hornerZ. Qed.
Lemma modal_mode pts sigma k : uniq pts -> (k < size pts)%N -> modal_filter pts sigma *m values pts (legendre k) = sigma k *: values pts (legendre k).
Proof.
  move=> U Hk. have E := one_mode (Ordinal Hk). rewrite -[in LHS]E (modal_filter_ok _ (fun j => (j == k)%:R)) // -valuesZ. congr (values _ _). rewrite -[in RHS]E scaler_sumr. apply: eq_bigr => j _. rewrite scalerA /=. case: eqP => [->//|_]. by rewrite !mulr0.
Qed.
Lemma modal_keeps pts sigma n p : uniq pts -> (n <= size pts)%N -> (forall k, (k < n)%N -> sigma k = 1) -> (size p <= n)%N -> modal_filter pts sigma *m values pts p = values pts p.
Proof.
  move=> U Hn S /legendre_span[c E]. 
  pose d k := if (k < n)%N then c k else 0.
  have E' : p = \sum_(k < size pts) d k *: legendre k.
    rewrite E (big_ord_widen _ (fun k => c k *: legendre k) Hn) big_mkcond. apply: eq_bigr => k _. rewrite /d. by case: ifP; rewrite ?scale0r.
  rewrite {1}E' modal_filter_ok // E'. congr (values _ _). apply: eq_bigr => k _. rewrite /d. case: ifP => H; [by rewrite S // mul1r|by rewrite mulr0].
Qed.
Lemma highfilter_keeps pts p : uniq pts -> (size p <= (size pts).-1)%N -> highfilter pts *m values pts p = values pts p.
Proof.
  move=> U Sp. have [c E] := legendre_span Sp. have Hn : ((size pts).-1 <= size pts)%N by exact: leq_pred.
  have E' : p = \sum_(k < size pts) (if (k < (size pts).-1)%N then c k else 0) *: legendre k.
    rewrite E (big_ord_widen _ (fun k => c k *: legendre k) Hn) big_mkcond. apply: eq_bigr => k _. by case: ifP; rewrite ?scale0r.
  rewrite {1}E' (highfilter_ok (fun k => if (k < (size pts).-1)%N then c k else 0)) // E. congr (values _ _). apply: eq_bigr => k _. by rewrite ltn_ord.
Qed.
Lemma highfilter_kills pts : uniq pts -> highfilter pts *m values pts (legendre (size pts).-1) = 0.
Proof.
  move=> U. case: (posnP (size pts)) => S; first by apply/matrixP => i; exfalso; move: (ltn_ord i); rewrite {2}S.
  have Hk : ((size pts).-1 < size pts)%N by rewrite prednK.
  rewrite -(one_mode (Ordinal Hk)) (highfilter_ok (fun j => (j == Ordinal Hk :> nat)%:R)) //= big1; first by apply/matrixP => i j; rewrite !mxE horner0.
  move=> k _. by rewrite (ltn_eqF (ltn_ord k)) scale0r.
Qed.
Lemma remesh_keeps src target p : uniq src -> (size p <= (minn (size src) (size target)).-1)%N -> remesh_operator src target *m values src p = values target p.
Proof.
  move=> U Sp. set n := minn _ _ in Sp. have Hn : (n.-1 <= size src)%N by apply: leq_trans (leq_pred _) (geq_minl _ _).
  have [c E] := legendre_span Sp.
  pose d k := if (k < n.-1)%N then c k else 0.
  have E' : p = \sum_(k < size src) d k *: legendre k.
    rewrite E (big_ord_widen _ (fun k => c k *: legendre k) Hn) big_mkcond. apply: eq_bigr => k _. rewrite /d. by case: ifP; rewrite ?scale0r.
  rewrite {1}E' remesh_ok // -/n [in RHS]E. congr (values _ _).
  rewrite (big_ord_widen _ (fun k => c k *: legendre k) (leq_pred n)) [RHS]big_mkcond. apply: eq_bigr => k _. rewrite /d.
  have -> : (k < n.-1)%N = (k.+1 != n) by case: (n) k => [[]//|n' k] /=; rewrite eqSS ltn_neqAle andbC -ltnS ltn_ord.
  case: eqP => _ /=; by rewrite ?mulr0 ?scale0r.
Qed.
(** the last common mode is halved *)
Lemma remesh_halves src target : uniq src -> (0 < size src)%N -> (0 < size target)%N ->
  let m := (minn (size src) (size target)).-1 in remesh_operator src target *m values src (legendre m) = 2%:R^-1 *: values target (legendre m).
Proof.
  move=> U P1 P2. have Pn : (0 < minn (size src) (size target))%N by rewrite leq_min P1. set n := minn _ _ in Pn *. set m := n.-1. cbv zeta.
  have Em : m.+1 = n by rewrite /m prednK. have Hm : (m < size src)%N by rewrite Em geq_minl.
  rewrite -[in LHS](one_mode (Ordinal Hm)) (remesh_ok _ (fun j => (j == m)%:R)) // -/n -valuesZ. congr (values _ _).
  have Hmn : (m < n)%N by rewrite Em. rewrite (bigD1 (Ordinal Hmn)) //= Em !eqxx mulr1 big1 ?addr0 // => k N.
  have /negbTE Nk : (k != m :> nat) by []. have -> : (k.+1 == n) = false by apply/negP => /eqP E; move: Nk; rewrite -eqSS E Em eqxx. by rewrite Nk scale0r.
Qed.
(** the modes of the source that the target cannot represent are dropped *)
Lemma remesh_drops src target k : uniq src -> (size target <= k < size src)%N -> remesh_operator src target *m values src (legendre k) = 0.
Proof.
  move=> U /andP[H1 H2]. rewrite -(one_mode (Ordinal H2)) (remesh_ok _ (fun j => (j == k)%:R)) //= big1; first by apply/matrixP => i j; rewrite !mxE horner0.
  move=> j _. have Hj : (j < k)%N by apply: leq_trans (ltn_ord j) (leq_trans (geq_minr _ _) H1).
  rewrite (ltn_eqF Hj) mulr0. by case: ifP; rewrite scale0r.
Qed.
(** ** Parity *)
Lemma legval_opp (x : F) k : legval (- x) k = (-1) ^+ k * legval x k.
Proof.
  suff: legval (- x) k = (-1) ^+ k * legval x k /\ legval (- x) k.+1 = (-1) ^+ k.+1 * legval x k.+1 by case.
  elim: k => [|k [IH1 IH2]]; first by rewrite !legval0 !legval1 expr0 expr1 mulr1 mulN1r.
  split=> //. rewrite !legvalSS IH1 IH2. rewrite [RHS]mulrA. congr (_ / _). rewrite [RHS]mulrBr.
  have -> : (-1) ^+ k.+1 * legval x k.+1 * - x = (-1) ^+ k.+2 * (legval x k.+1 * x) by rewrite mulrN -mulrA [in RHS]exprS mulN1r mulNr.
  have -> : (-1 : F) ^+ k.+2 = (-1) ^+ k by rewrite !exprS mulrA mulrNN mulr1 mul1r. by rewrite !mulrA.
Qed.
Definition flip n : 'M[F]_n := \matrix_(i, j) ((i + j.+1)%N == n)%:R.
Lemma rev_lt n (i : 'I_n) : (n - i - 1 < n)%N.
Proof. rewrite -subnDA addn1. case: n i => [[]//|n] i. by rewrite subSS ltnS leq_subr. Qed.
Definition rev n (i : 'I_n) : 'I_n := Ordinal (rev_lt i).
Lemma flip_mul n m (A : 'M[F]_(n, m)) i j : (flip n *m A) i j = A (rev i) j.
Proof.
  rewrite mxE (bigD1 (rev i)) //= mxE /=. have -> : (i + (n - i - 1).+1 == n)%N.
    by rewrite -subnDA addn1 subnSK // subnKC // ltnW.
  rewrite mul1r big1 ?addr0 // => k N. rewrite mxE. case: eqP => [E|_]; last by rewrite mul0r.
  exfalso. move/eqP: N. apply. apply: val_inj => /=. have -> : (n - i = k.+1)%N by rewrite -[X in (X - i)%N]E addKn. by rewrite subn1.
Qed.
Lemma mul_flip n m (A : 'M[F]_(m, n)) i j : (A *m flip n) i j = A i (rev j).
Proof.
  have <- : (flip n *m A^T) j i = A i (rev j) by rewrite flip_mul mxE.
  rewrite !mxE. apply: eq_bigr => k _. rewrite !mxE mulrC. congr (_%:R * _). by rewrite !addnS addnC.
Qed.
Lemma revK n (i : 'I_n) : rev (rev i) = i.
Proof. apply: val_inj => /=. exact: sub1K. Qed.
Section Sym.
Variables (xi : seq F) (U : uniq xi) (M : mirrored xi).
Let n := size xi.
Let S : 'M[F]_n := diag_mx (\row_k (-1) ^+ k).
Lemma flip_vander : flip n *m vander xi = vander xi *m S.
Proof.
  apply/matrixP => i j. rewrite flip_mul /S mul_mx_diag !mxE /= M // legval_opp mulrC. by [].
Qed.
Lemma flip_inv_vander : invmx (vander xi) *m flip n = S *m invmx (vander xi).
Proof.
  have UV := vander_unit U. apply: (can_inj (mulmxK UV)). rewrite mulmxKV // -mulmxA flip_vander mulmxA mulVmx // mul1mx. by [].
Qed.
Lemma diagC (a b : 'rV[F]_n) : diag_mx a *m diag_mx b = diag_mx b *m diag_mx a.
Proof. by rewrite !mulmx_diag; congr diag_mx; apply/rowP => k; rewrite !mxE mulrC. Qed.
Lemma filter_centro sigma (i j : 'I_n) : modal_filter xi sigma (rev i) (rev j) = modal_filter xi sigma i j.
Proof.
  have C : flip n *m modal_filter xi sigma = modal_filter xi sigma *m flip n.
    rewrite /modal_filter !mulmxA flip_vander -!mulmxA flip_inv_vander. congr (_ *m _). by rewrite mulmxA [RHS]mulmxA /S diagC.
  have := congr1 (fun A : 'M[F]_n => A i (rev j)) C. by rewrite flip_mul mul_flip revK.
Qed.
Lemma filtered_skew sigma (i j : 'I_n) : diff_filtered xi sigma (rev i) (rev j) = - diff_filtered xi sigma i j.
Proof.
  rewrite /diff_filtered !mxE -sumrN. rewrite (reindex_inj (inv_inj (@revK n))). apply: eq_bigr => k _. rewrite filter_centro !mxE /= diffmat_skew // mulrN. by [].
Qed.
End Sym.
End Filters.

(** ** Linear weights *)
Section Linear.
Import Order.Theory.
Variable F : realFieldType.
Implicit Types (points : seq F) (x : F).
Lemma find_interval_lt points x fuel ix : (ix + 2 <= size points)%N -> (find_interval points x fuel ix + 2 <= size points)%N.
Proof. elim: fuel ix => [|f IH] ix H //=. case: ifP => // _. case: ifP => // /negbT N. apply: IH. by rewrite addSn ltnNge. Qed.
(** the interval found holds x, if the points span it *)
Lemma find_interval_in points x fuel ix : (ix + 2 <= size points)%N -> (size points <= ix + 2 + fuel)%N -> (ix = 0%N \/ points`_ix < x) -> let k := find_interval points x fuel ix in
  (k = 0%N \/ points`_k < x) /\ (x <= points`_k.+1 \/ (k + 2 = size points)%N).
Proof.
  elim: fuel ix => [|f IH] ix H1 H2 H3 /=.
  - split=> //. right. apply/eqP. by rewrite eqn_leq H1 -[X in (_ <= X)%N]addn0.
  - case: ifP => L; last by split=> //; left; rewrite leNgt L.
    case: ifP => N; first by split=> //; right; apply/eqP; rewrite eqn_leq H1.
    apply: (IH ix.+1); [by rewrite addSn ltnNge N|by rewrite addSn addSnnS|by right].
Qed.
Lemma weights_error points x : get_linear_weights points x = None <-> points = [::].
Proof. rewrite /get_linear_weights. by case: points => [|a [|b s]]. Qed.
Lemma weights_one a x : get_linear_weights [:: a] x = Some [:: 1].
Proof. by []. Qed.
Lemma sum_two n (g : nat -> F) ix al be : (ix + 2 <= n)%N -> \sum_(k < n) (if k == ix :> nat then al else if k == ix.+1 :> nat then be else 0) * g k = al * g ix + be * g ix.+1.
Proof.
  rewrite addn2 => H. have H0 : (ix < n)%N by exact: ltnW. rewrite (bigD1 (Ordinal H0)) //= eqxx (bigD1 (Ordinal H)) //=; last by rewrite -val_eqE /= eq_sym ltn_eqF.
  rewrite eqxx (gtn_eqF (ltnSn ix)) big1 ?addr0 // => k /andP[N1 N2]. have /negbTE -> : (k != ix :> nat) by []. have /negbTE -> : (k != ix.+1 :> nat) by []. by rewrite mul0r.
Qed.
Lemma weights_linear points x w a b : sorted <%R points -> (2 <= size points)%N -> get_linear_weights points x = Some w ->
  size w = size points /\ \sum_(k < size points) w`_k * (a * points`_k + b) = a * x + b.
Proof.
  move=> So Sz. rewrite /get_linear_weights. rewrite gtn_eqF // gtn_eqF; last exact: ltn_trans Sz. set ix := find_interval _ _ _ _ => -[<-]. rewrite size_mkseq. split=> //.
  have L : (ix + 2 <= size points)%N by apply: find_interval_lt.
  have D : points`_ix.+1 - points`_ix != 0.
    rewrite subr_eq0. apply/eqP => E. have := sortedP 0 So ix. by rewrite -addn2 => /(_ L); rewrite E ltxx.
  set al := 1 - _. transitivity (\sum_(k < size points) (if k == ix :> nat then al else if k == ix.+1 :> nat then 1 - al else 0) * (a * points`_k + b)).
    apply: eq_bigr => k _. by rewrite nth_mkseq.
  rewrite (sum_two (fun k => a * points`_k + b)) // /al. set u := points`_ix in D *. set v := points`_ix.+1 in D *. set t := (x - u) / (v - u).
  have T : t * (v - u) = x - u by rewrite /t divfK. rewrite opprB addrCA subrr addr0 mulrBl mul1r addrAC -addrA -mulrBr opprD addrACA subrr addr0 -mulrBr mulrCA T mulrBr addrC addrA subrK. by [].
Qed.
End Linear.
