From mathcomp Require Import all_ssreflect all_algebra.
From Verif Require Import AlphaModel.
Set Implicit Arguments.
Unset Strict Implicit.
Unset Printing Implicit Defensive.
Import GRing.Theory.
Local Open Scope ring_scope.

Section Alpha.
Variable F : fieldType.
Implicit Types (c s : seq F) (i k l : nat).

Definition esym s r : F := \sum_(v <- combinations s r) \prod_(x <- v) x.
Definition nodal s : {poly F} := \prod_(x <- s) ('X - x%:P).

Lemma esym0 s : esym s 0 = 1.
Proof. by rewrite /esym; case: s => [|x s] /=; rewrite big_seq1 big_nil. Qed.
Lemma esym_nil r : esym [::] r.+1 = 0.
Proof. by rewrite /esym /= big_nil. Qed.
Lemma esym_cons x s r : esym (x :: s) r.+1 = x * esym s r + esym s r.+1.
Proof.
rewrite /esym /= big_cat /= big_map; congr (_ + _).
by rewrite mulr_sumr; apply: eq_bigr => v _; rewrite big_cons.
Qed.
Lemma esym_over s r : (size s < r)%N -> esym s r = 0.
Proof.
elim: s r => [|x s IH] [|r] //= H; first exact: esym_nil.
by rewrite esym_cons !IH ?mulr0 ?addr0 // ltnW.
Qed.
Lemma vieta s k : (k <= size s)%N -> (nodal s)`_k = (-1) ^+ (size s - k) * esym s (size s - k).
Proof.
elim: s k => [|x s IH] k.
  by rewrite leqn0 => /eqP ->; rewrite /nodal big_nil coef1 /= esym0 mulr1 expr0.
rewrite /nodal big_cons mulrBl coefB coefXM mul_polyC coefZ -/(nodal s) /= => Hk.
case: k Hk => [|k] Hk.
  rewrite sub0r IH // !subn0 esym_cons (esym_over (ltnSn _)) addr0 exprS mulN1r mulNr.
  by rewrite [in RHS]mulrCA [x * _]mulrA [x * _]mulrC -mulrA.
rewrite IH // subSS.
case: (ltnP k (size s)) => Hs.
  rewrite IH // -[(size s - k)%N](subnSK Hs) esym_cons exprS mulrDr addrC; congr (_ + _).
  by rewrite mulN1r mulNr mulrCA.
have -> : k = size s by apply/eqP; rewrite eqn_leq Hs andbT.
rewrite subnn !esym0 [X in _ - x * X]nth_default ?mulr0 ?subr0 //.
by rewrite /nodal size_prod_XsubC.
Qed.

Lemma c_no_i_split c i : (i < size c)%N -> c = take i c ++ c`_i :: drop i.+1 c /\ c_no_i c i = take i c ++ drop i.+1 c.
Proof.
move=> Hi; split; first by rewrite -drop_nth // cat_take_drop.
have E n (s : seq F) (f : pred nat) : (forall j, (n <= j < n + size s)%N -> f j) -> [seq p.2 | p <- zip (iota n (size s)) s & f p.1] = s.
  elim: s n => [|x s IH] n //= H.
  rewrite H ?leqnn ?addnS ?ltnS ?leq_addr //= IH // => j /andP[J1 J2]; apply: H.
  by rewrite (ltnW J1) /= addnS -addSn.
rewrite /c_no_i.
have -> : zip (iota 0 (size c)) c = zip (iota 0 i) (take i c) ++ (i, c`_i) :: zip (iota i.+1 (size c - i.+1)) (drop i.+1 c).
  have -> : iota 0 (size c) = iota 0 i ++ i :: iota i.+1 (size c - i.+1).
    rewrite -[in LHS](subnKC Hi) addSn -addnS iotaD add0n /=; congr (_ ++ _ :: _).
  rewrite -{2}(cat_take_drop i c) zip_cat ?size_iota ?size_takel // 1?ltnW //.
  by rewrite (drop_nth 0 Hi).
rewrite filter_cat map_cat /= eqxx /=; congr (_ ++ _).
  have := E 0%N (take i c) (fun j => j != i); rewrite size_takel 1?ltnW //; apply=> j /andP[_].
  by rewrite add0n => J; rewrite neq_ltn J.
have := E i.+1 (drop i.+1 c) (fun j => j != i); rewrite size_drop; apply=> j /andP[J _].
by rewrite neq_ltn J orbT.
Qed.
Lemma size_c_no_i c i : (i < size c)%N -> size (c_no_i c i) = (size c).-1.
Proof.
move=> Hi; have [E ->] := c_no_i_split Hi.
by rewrite {3}E !size_cat /= addnS.
Qed.

Lemma basis_at c i j : uniq c -> (i < size c)%N -> (j < size c)%N -> ((nodal (c_no_i c i)).[c`_j] == 0) = (i != j).
Proof.
move=> U Hi Hj; have [E N] := c_no_i_split Hi.
have -> : ((nodal (c_no_i c i)).[c`_j] == 0) = (c`_j \in c_no_i c i) by rewrite -[X in X = _]/(root _ _) root_prod_XsubC.
have U' : c`_i \notin c_no_i c i.
  by move: U; rewrite {1}E cat_uniq N /= mem_cat => /and3P[_ ]; rewrite negb_or => /andP[H _] /andP[H' _]; apply/norP.
case: eqP => [<-|/eqP NE] /=; first exact: negbTE.
have : c`_j \in c by exact: mem_nth.
rewrite {2}E N !mem_cat inE.
by rewrite nth_uniq // eq_sym (negbTE NE) /=.
Qed.

Lemma lagrange_power c l : uniq c -> (l < size c)%N ->
  \sum_(i < size c) (c`_i ^+ l / (nodal (c_no_i c i)).[c`_i]) *: nodal (c_no_i c i) = 'X^l.
Proof.
move=> U Hl; apply/eqP; rewrite -subr_eq0; apply/eqP; set P := _ - _.
apply: (@roots_geq_poly_eq0 _ P c) => //.
- apply/allP => x Hx; rewrite /root /P hornerD hornerN hornerXn horner_sum.
  have Hj : (index x c < size c)%N by rewrite index_mem.
  have Ex : x = c`_(index x c) by rewrite nth_index.
  rewrite (bigD1 (Ordinal Hj)) //= big1 => [|i Ni].
    rewrite addr0 hornerZ -Ex divfK ?subrr // {2}Ex basis_at // negbK; exact: eqxx.
  rewrite hornerZ Ex; apply/eqP; rewrite mulf_eq0; apply/orP; right.
  by rewrite basis_at // -val_eqE in Ni *.
- rewrite (leq_trans (size_add _ _)) // geq_max size_opp size_polyXn Hl andbT.
  apply: (leq_trans (size_sum _ _ _)); apply/bigmax_leqP => i _.
  apply: (leq_trans (size_scale_leq _ _)).
  by rewrite /nodal size_prod_XsubC size_c_no_i // prednK // (leq_ltn_trans _ (ltn_ord i)).
Qed.

Lemma alpha_order c k l : uniq c -> 0 \notin c -> (k < size c)%N -> (l < size c)%N ->
  \sum_(i < size c) alpha_coeff c k i * c`_i ^+ l.+2 = if k == l then ((k.+2)`!)%:R else 0.
Proof.
move=> U Z Hk Hl.
have T (i : 'I_(size c)) : alpha_coeff c k i * c`_i ^+ l.+2 = ((k.+2)`!)%:R * ((c`_i ^+ l / (nodal (c_no_i c i)).[c`_i]) *: nodal (c_no_i c i))`_k.
  have Hi := ltn_ord i.
  rewrite coefZ vieta; last by rewrite size_c_no_i // -ltnS prednK // (leq_ltn_trans _ Hi).
  rewrite size_c_no_i // /alpha_coeff /sp -/(esym _ _) /denom.
  have -> : \prod_(cl <- c_no_i c i) (c`_i - cl) = (nodal (c_no_i c i)).[c`_i].
    by rewrite /nodal horner_prod; apply: eq_bigr => x _; rewrite hornerXsubC.
  have -> : (size c - k - 1 = (size c).-1 - k)%N by rewrite -subn1 subnAC.
  have -> : (size c - k + 1 = ((size c).-1 - k).+2)%N.
    by rewrite -[in LHS](prednK (leq_ltn_trans (leq0n _) Hk)) subSn ?addn1 // -ltnS prednK // (leq_ltn_trans _ Hk).
  have C0 : c`_i != 0 by apply: contraNneq Z => <-; exact: mem_nth.
  have N0 : (nodal (c_no_i c i)).[c`_i] != 0 by rewrite basis_at // eqxx.
  set e := esym _ _; set p := (nodal _).[_] in N0 *; set n := ((size c).-1 - k)%N.
  rewrite !exprS !mulN1r opprK invfM !mulrA.
  set s := (-1) ^+ n; set f := _%:R; set x := c`_i in C0 *.
  rewrite -!mulrA.
  rewrite [s * (f * _)]mulrCA; congr (_ * _).
  rewrite [e * _]mulrCA.
  have -> : (x * (x * x ^+ 0))^-1 * (e * (p^-1 * (x * (x * x ^+ l)))) = e * (p^-1 * x ^+ l).
    rewrite expr0 mulr1 mulrCA; congr (_ * _); rewrite mulrCA; congr (_ * _).
    by rewrite [x * (x * _)]mulrA mulKf // mulf_neq0.
  by rewrite mulrC -!mulrA mulrCA [RHS]mulrC -!mulrA [s * _]mulrC -!mulrA; congr (_ * _); rewrite mulrCA mulrC -mulrA; congr (_ * _); rewrite mulrC.
under eq_bigr do rewrite T.
rewrite -mulr_sumr -coef_sum lagrange_power // coefXn.
by case: eqP => _; rewrite ?mulr1 ?mulr0.
Qed.
End Alpha.

From Verif Require Import AlphaSpec.
Import Num.Theory.

Lemma alpha_conditions (F : fieldType) (c : seq F) : uniq c -> 0 \notin c -> order_conditions (alpha_coeff c) c.
Proof. by move=> U Z k l Hk Hl; rewrite !addn2; exact: alpha_order. Qed.

Section Stiff.
Variable F : numFieldType.

Lemma stiff_nodes_eq order : (2 <= order)%N -> epi_stiff_nodes order = [seq Posz j.+1 | j <- iota 0 (order - 2)].
Proof.
move=> Ho; rewrite /epi_stiff_nodes /range_down.
have -> : (-1 - (1 - Posz order))%R = Posz (order - 2).
  by rewrite -subzn // opprB addrC -addrA -opprD.
rewrite -map_comp; apply: eq_map => j /=.
by rewrite opprB opprK -[1]/(Posz 1) -PoszD addn1.
Qed.

Definition ahead n : seq F := [seq (j.+1)%:R | j <- iota 0 n].
Lemma ahead_uniq n : uniq (ahead n).
Proof. by rewrite map_inj_uniq ?iota_uniq // => i j /eqP; rewrite eqr_nat => /eqP[]. Qed.
Lemma ahead_nz n : 0 \notin ahead n.
Proof. by apply/mapP => [[j _ /eqP]]; rewrite eq_sym pnatr_eq0. Qed.
Lemma nth_ahead n i : (i < n)%N -> (ahead n)`_i = i.+1%:R.
Proof. by move=> H; rewrite (nth_map 0%N) ?size_iota // nth_iota. Qed.
Lemma nth_past n i : (i < n)%N -> (past F n)`_i = - i.+1%:R.
Proof. by move=> H; rewrite (nth_map 0%N) ?size_iota // nth_iota. Qed.

Lemma stiff_sign order k l : (2 <= order)%N -> (k < order - 2)%N -> (l < order - 2)%N ->
  \sum_(i < order - 2) alpha_coeff [seq x%:~R | x <- epi_stiff_nodes order] k i * (past F (order - 2))`_i ^+ (l + 2)
  = if k == l then (-1) ^+ k * (k + 2)`!%:R else 0 :> F.
Proof.
move=> Ho Hk Hl; rewrite stiff_nodes_eq //.
have -> : [seq x%:~R | x <- [seq Posz j.+1 | j <- iota 0 (order - 2)]] = ahead (order - 2).
  by rewrite -map_comp; apply: eq_map => j.
set n := (order - 2)%N in Hk Hl *.
have S : size (ahead n) = n by rewrite size_map size_iota.
have := @alpha_conditions _ (ahead n) (ahead_uniq n) (ahead_nz n) k l; rewrite S => /(_ Hk Hl) E.
have -> : \sum_(i < n) alpha_coeff (ahead n) k i * (past F n)`_i ^+ (l + 2)
        = (-1) ^+ l * \sum_(i < n) alpha_coeff (ahead n) k i * (ahead n)`_i ^+ (l + 2).
  rewrite mulr_sumr; apply: eq_bigr => i _.
  rewrite nth_past // nth_ahead // exprNn exprD sqrrN expr1n mulr1.
  by rewrite mulrCA.
by rewrite E; case: eqP => [->|]; rewrite ?mulr0.
Qed.
Lemma stiff_refuted order : (4 <= order)%N ->
  ~ order_conditions (alpha_coeff [seq x%:~R | x <- epi_stiff_nodes order]) (past F (order - 2)).
Proof.
move=> Ho C.
have H : (1 < order - 2)%N by rewrite ltn_subRL.
have S : size (past F (order - 2)) = (order - 2)%N by rewrite size_map size_iota.
have := C 1%N 1%N; rewrite S eqxx => /(_ H H).
rewrite stiff_sign //; last exact: ltnW (ltnW Ho).
rewrite eqxx expr1 mulN1r => /eqP; rewrite -subr_eq0 -opprD oppr_eq0 -mulr2n mulrn_eq0 /=.
by rewrite pnatr_eq0 => /eqP F0; move: (fact_gt0 (1 + 2)); rewrite F0.
Qed.
Lemma stiff_low order : (2 <= order <= 3)%N ->
  order_conditions (alpha_coeff [seq x%:~R | x <- epi_stiff_nodes order]) (past F (order - 2)).
Proof.
move=> /andP[H2 H3] k l; rewrite size_map size_iota => Hk Hl.
rewrite stiff_sign //.
have N : (order - 2 <= 1)%N by rewrite leq_subLR.
have -> : k = 0%N by apply/eqP; rewrite -leqn0 -ltnS; exact: leq_trans Hk N.
by rewrite expr0 mul1r.
Qed.
End Stiff.
