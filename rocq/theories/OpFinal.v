(** Operators of an element put together. *)
From mathcomp Require Import all_ssreflect all_algebra.
From Verif Require Import OpModel OpSpec OpLagrange OpLegendre OpDfr OpFilter OpTensor.
Set Implicit Arguments.
Unset Strict Implicit.
Unset Printing Implicit Defensive.
Import GRing.Theory Num.Theory.
Local Open Scope ring_scope.

Section Entries.
Variable F : fieldType.
Lemma entriesE m n (M : 'M[F]_(m, n)) i j (Hi : (i < m)%N) (Hj : (j < n)%N) : entries M i j = M (Ordinal Hi) (Ordinal Hj).
Proof. by rewrite /entries !insubT. Qed.
Lemma entries_ord m n (M : 'M[F]_(m, n)) (i : 'I_m) (j : 'I_n) : entries M i j = M i j.
Proof. by rewrite /entries !valK. Qed.
End Entries.
Section Full.
Variable F : numFieldType.
Lemma alg1 (x y z : F) : x * y * z = x * (z * y). Proof. by rewrite -mulrA [y * z]mulrC. Qed.
Lemma alg3 (x y z u v w : F) : x * u * (y * v * (z * w)) = x * y * z * (u * v * w). Proof. by rewrite [y * v * _]mulrACA [LHS]mulrACA !mulrA. Qed.
Lemma alg2 (x y z u v w : F) : u * v * w * (x * y * z) = x * u * (y * v * (z * w)). Proof. by rewrite alg3 mulrC. Qed.
Implicit Types (pts xi : seq F) (p : {poly F}).
Lemma extrap_neg_ok pts p : uniq pts -> (size p <= size pts)%N -> \sum_(i < size pts) p.[pts`_i] * extrap_neg pts i = p.[-1].
Proof. move=> U S. rewrite -(extrap_exact (-1) U S). apply: eq_bigr => i _. by rewrite mulrC /extrap_neg -[0%N]/(nat_of_ord (0 : 'I_1)) entries_ord. Qed.
Lemma extrap_pos_ok pts p : uniq pts -> (size p <= size pts)%N -> \sum_(i < size pts) p.[pts`_i] * extrap_pos pts i = p.[1].
Proof. move=> U S. rewrite -(extrap_exact 1 U S). apply: eq_bigr => i _. by rewrite mulrC /extrap_pos -[0%N]/(nat_of_ord (0 : 'I_1)) entries_ord. Qed.
Lemma dfr_line pts p i (g : nat -> F) : uniq (extension pts) -> (size p <= (size pts).+2)%N -> (i < size pts)%N -> (forall l, (l < size pts)%N -> g l = p.[pts`_l]) ->
  \sum_(l < size pts) g l * diff_solpt pts i l + (p.[-1] * correction_neg pts i + p.[1] * correction_pos pts i) = (p^`()).[pts`_i].
Proof.
  move=> U S Hi G. rewrite -(dfr_derivative U S Hi) addrA ![p.[_] * correction_neg _ _]mulrC ![p.[_] * correction_pos _ _]mulrC. congr (_ + _ + _).
  apply: eq_bigr => l _. by rewrite G // mulrC.
Qed.
Lemma uniq_ext pts : uniq (extension pts) -> uniq pts.
Proof. by rewrite /extension /= cat_uniq => /and3P[_ U _]. Qed.
(** from the values of a polynomial along a line to its derivative, through the values at the two ends *)
Section Lines.
Variables (pts : seq F) (U : uniq (extension pts)).
Let ns := size pts.
Let Us := uniq_ext U.
Let D := diff_solpt pts. Let cn := correction_neg pts. Let cp := correction_pos pts. Let en := extrap_neg pts. Let ep := extrap_pos pts.
Lemma full_x_3d f (p : nat -> nat -> {poly F}) : (forall k j i, (k < ns)%N -> (j < ns)%N -> (i < ns)%N -> f ((k * ns + j) * ns + i)%N = (p k j).[pts`_i]) -> (forall k j, (size (p k j) <= ns)%N) ->
  forall k j i, (k < ns)%N -> (j < ns)%N -> (i < ns)%N ->
  apply_op (ns ^ 3) f (derivative_x_3d ns D) ((k * ns + j) * ns + i) + apply_op (ns ^ 2 + ns ^ 2) (apply_op (ns ^ 3) f (extrap_x_3d ns en ep)) (correction_WE_3d ns cn cp) ((k * ns + j) * ns + i) = ((p k j)^`()).[pts`_i].
Proof.
  move=> Hf Sp k j i Hk Hj Hi. rewrite derivative_x_3d_ok // correction_WE_3d_ok //. have [-> ->] := extrap_x_3d_ok en ep f Hk Hj.
  rewrite -(@dfr_line pts (p k j) i (fun l => f ((k * ns + j) * ns + l)%N)) //; [|by apply: leq_trans (Sp k j) _; rewrite leqW|by move=> l Hl; apply: Hf].
  congr (_ + (_ * _ + _ * _)); rewrite -?(extrap_neg_ok Us (Sp k j)) -?(extrap_pos_ok Us (Sp k j)); apply: eq_bigr => l _; by rewrite Hf.
Qed.
Lemma full_y_3d f (p : nat -> nat -> {poly F}) : (forall k j i, (k < ns)%N -> (j < ns)%N -> (i < ns)%N -> f ((k * ns + j) * ns + i)%N = (p k i).[pts`_j]) -> (forall k i, (size (p k i) <= ns)%N) ->
  forall k j i, (k < ns)%N -> (j < ns)%N -> (i < ns)%N ->
  apply_op (ns ^ 3) f (derivative_y_3d ns D) ((k * ns + j) * ns + i) + apply_op (ns ^ 2 + ns ^ 2) (apply_op (ns ^ 3) f (extrap_y_3d ns en ep)) (correction_SN_3d ns cn cp) ((k * ns + j) * ns + i) = ((p k i)^`()).[pts`_j].
Proof.
  move=> Hf Sp k j i Hk Hj Hi. rewrite derivative_y_3d_ok // correction_SN_3d_ok //. have [-> ->] := extrap_y_3d_ok en ep f Hk Hi.
  rewrite -(@dfr_line pts (p k i) j (fun l => f ((k * ns + l) * ns + i)%N)) //; [|by apply: leq_trans (Sp k i) _; rewrite leqW|by move=> l Hl; apply: Hf].
  congr (_ + (_ * _ + _ * _)); rewrite -?(extrap_neg_ok Us (Sp k i)) -?(extrap_pos_ok Us (Sp k i)); apply: eq_bigr => l _; by rewrite Hf.
Qed.
Lemma full_z_3d f (p : nat -> nat -> {poly F}) : (forall k j i, (k < ns)%N -> (j < ns)%N -> (i < ns)%N -> f ((k * ns + j) * ns + i)%N = (p j i).[pts`_k]) -> (forall j i, (size (p j i) <= ns)%N) ->
  forall k j i, (k < ns)%N -> (j < ns)%N -> (i < ns)%N ->
  apply_op (ns ^ 3) f (derivative_z_3d ns D) ((k * ns + j) * ns + i) + apply_op (ns ^ 2 + ns ^ 2) (apply_op (ns ^ 3) f (extrap_z_3d ns en ep)) (correction_DU_3d ns cn cp) ((k * ns + j) * ns + i) = ((p j i)^`()).[pts`_k].
Proof.
  move=> Hf Sp k j i Hk Hj Hi. rewrite derivative_z_3d_ok // correction_DU_3d_ok //. have [-> ->] := extrap_z_3d_ok en ep f Hj Hi.
  rewrite -(@dfr_line pts (p j i) k (fun l => f ((l * ns + j) * ns + i)%N)) //; [|by apply: leq_trans (Sp j i) _; rewrite leqW|by move=> l Hl; apply: Hf].
  congr (_ + (_ * _ + _ * _)); rewrite -?(extrap_neg_ok Us (Sp j i)) -?(extrap_pos_ok Us (Sp j i)); apply: eq_bigr => l _; by rewrite Hf.
Qed.
Lemma full_x_2d f (p : nat -> {poly F}) : (forall j i, (j < ns)%N -> (i < ns)%N -> f (j * ns + i)%N = (p j).[pts`_i]) -> (forall j, (size (p j) <= ns)%N) ->
  forall j i, (j < ns)%N -> (i < ns)%N ->
  apply_op (ns * ns) f (derivative_x_2d ns D) (j * ns + i) + apply_op (ns + ns) (apply_op (ns * ns) f (extrap_x_2d ns en ep)) (correction_WE_2d ns cn cp) (j * ns + i) = ((p j)^`()).[pts`_i].
Proof.
  move=> Hf Sp j i Hj Hi. rewrite derivative_x_2d_ok // correction_WE_2d_ok //. have [-> ->] := extrap_x_2d_ok en ep f Hj.
  rewrite -(@dfr_line pts (p j) i (fun l => f (j * ns + l)%N)) //; [|by apply: leq_trans (Sp j) _; rewrite leqW|by move=> l Hl; apply: Hf].
  congr (_ + (_ * _ + _ * _)); rewrite -?(extrap_neg_ok Us (Sp j)) -?(extrap_pos_ok Us (Sp j)); apply: eq_bigr => l _; by rewrite Hf.
Qed.
Lemma full_y_2d f (p : nat -> {poly F}) : (forall j i, (j < ns)%N -> (i < ns)%N -> f (j * ns + i)%N = (p i).[pts`_j]) -> (forall i, (size (p i) <= ns)%N) ->
  forall j i, (j < ns)%N -> (i < ns)%N ->
  apply_op (ns * ns) f (derivative_y_2d ns D) (j * ns + i) + apply_op (ns + ns) (apply_op (ns * ns) f (extrap_y_2d ns en ep)) (correction_SN_2d ns cn cp) (j * ns + i) = ((p i)^`()).[pts`_j].
Proof.
  move=> Hf Sp j i Hj Hi. rewrite derivative_y_2d_ok // correction_SN_2d_ok //. have [-> ->] := extrap_y_2d_ok en ep f Hi.
  rewrite -(@dfr_line pts (p i) j (fun l => f (l * ns + i)%N)) //; [|by apply: leq_trans (Sp i) _; rewrite leqW|by move=> l Hl; apply: Hf].
  congr (_ + (_ * _ + _ * _)); rewrite -?(extrap_neg_ok Us (Sp i)) -?(extrap_pos_ok Us (Sp i)); apply: eq_bigr => l _; by rewrite Hf.
Qed.
End Lines.
(** highfilter_k and expfilter_new on products of polynomials *)
Lemma highfilter_line pts f (p : nat -> nat -> {poly F}) : uniq pts -> let ns := size pts in
  (forall k j i, (k < ns)%N -> (j < ns)%N -> (i < ns)%N -> f ((k * ns + j) * ns + i)%N = (p j i).[pts`_k]) -> (forall j i, (size (p j i) <= ns.-1)%N) ->
  forall k j i, (k < ns)%N -> (j < ns)%N -> (i < ns)%N -> apply_op (ns ^ 3) f (highfilter_k ns (entries (highfilter pts))) ((k * ns + j) * ns + i) = f ((k * ns + j) * ns + i)%N.
Proof.
  move=> U ns Hf Sp k j i Hk Hj Hi. rewrite highfilter_k_ok // Hf //. move: (highfilter pts) (highfilter_keeps U (Sp j i)) => H /(congr1 (fun M : 'cV_ns => M (Ordinal Hk) 0)). rewrite !mxE /= => <-.
  apply: eq_bigr => l _. by rewrite Hf // mxE mulrC -[k]/(nat_of_ord (Ordinal Hk)) entries_ord.
Qed.
Lemma highfilter_line_top pts f (c : nat -> nat -> F) : uniq pts -> let ns := size pts in
  (forall k j i, (k < ns)%N -> (j < ns)%N -> (i < ns)%N -> f ((k * ns + j) * ns + i)%N = c j i * (legendre F ns.-1).[pts`_k]) ->
  forall k j i, (k < ns)%N -> (j < ns)%N -> (i < ns)%N -> apply_op (ns ^ 3) f (highfilter_k ns (entries (highfilter pts))) ((k * ns + j) * ns + i) = 0.
Proof.
  move=> U ns Hf k j i Hk Hj Hi. rewrite highfilter_k_ok //. move: (highfilter pts) (highfilter_kills U) => H /(congr1 (fun M : 'cV_ns => c j i * M (Ordinal Hk) 0)). rewrite !mxE mulr0 mulr_sumr => E. rewrite -[RHS]E.
  apply: eq_bigr => l _. rewrite Hf // !mxE -[k]/(nat_of_ord (Ordinal Hk)) entries_ord. exact: alg1.
Qed.
Lemma filter_modes pts sigma f (a b d : nat) : uniq pts -> let ns := size pts in (a < ns)%N -> (b < ns)%N -> (d < ns)%N ->
  (forall k j i, (k < ns)%N -> (j < ns)%N -> (i < ns)%N -> f ((k * ns + j) * ns + i)%N = (legendre F a).[pts`_k] * (legendre F b).[pts`_j] * (legendre F d).[pts`_i]) ->
  forall k j i, (k < ns)%N -> (j < ns)%N -> (i < ns)%N -> apply_op (ns ^ 3) f (expfilter_new ns (entries (modal_filter pts sigma))) ((k * ns + j) * ns + i) = sigma a * sigma b * sigma d * f ((k * ns + j) * ns + i)%N.
Proof.
  move=> U ns Ha Hb Hd Hf k j i Hk Hj Hi. rewrite expfilter_new_ok // Hf //. have MM := fun m => @modal_mode F pts sigma m U. move: (modal_filter pts sigma) MM => M0 MM. set S := entries M0.
  have G m q (Hm : (m < ns)%N) (Hq : (q < ns)%N) : \sum_(l < ns) S q l * (legendre F m).[pts`_l] = sigma m * (legendre F m).[pts`_q].
    have := congr1 (fun M : 'cV_ns => M (Ordinal Hq) 0) (MM m Hm). rewrite !mxE /= => <-. apply: eq_bigr => l _. by rewrite !mxE /S -[q]/(nat_of_ord (Ordinal Hq)) entries_ord.
  transitivity ((\sum_(l < ns) S k l * (legendre F a).[pts`_l]) * ((\sum_(l < ns) S j l * (legendre F b).[pts`_l]) * (\sum_(l < ns) S i l * (legendre F d).[pts`_l]))).
    rewrite mulr_suml. apply: eq_bigr => k' _. rewrite mulr_suml mulr_sumr. apply: eq_bigr => j' _. rewrite !mulr_sumr. apply: eq_bigr => i' _. rewrite Hf //.
    move: (S k k') (S j j') (S i i') (legendre F a).[_] (legendre F b).[_] (legendre F d).[_] => x y z u v w.
    exact: alg2.
  rewrite !G //. move: (sigma a) (sigma b) (sigma d) (legendre F a).[_] (legendre F b).[_] (legendre F d).[_] => x y z u v w. exact: alg3.
Qed.
End Full.
Section Skew.
Variable F : numFieldType.
Implicit Types (xi pts : seq F).
Lemma two_ne : 2%:R != 0 :> F. Proof. by rewrite pnatr_eq0. Qed.
Lemma check_diffmat pts : uniq (extension pts) -> mirrored pts -> check_skewcentrosymmetry (size (extension pts)) (diff_ext pts) = true.
Proof.
  move=> U M. apply/(check_ok _ _ two_ne) => i j Hi Hj. apply: diffmat_skew => //. exact: mirrored_extension.
Qed.
Lemma check_filtered pts sigma : uniq (extension pts) -> mirrored pts -> check_skewcentrosymmetry (size (extension pts)) (entries (diff_filtered (extension pts) sigma)) = true.
Proof.
  move=> U M. apply/(check_ok _ _ two_ne) => i j Hi Hj. have := filtered_skew U (mirrored_extension M) sigma (Ordinal Hi) (Ordinal Hj). rewrite -!entries_ord /=. by [].
Qed.
End Skew.
Section Factors.
Variable F : realFieldType.
Import Order.Theory.
Variable expo : F -> F.
Hypothesis expo0 : expo 0 = 1.
Lemma sigma_low alpha N Nc s i : (i <= Nc)%N -> (0 < s)%N -> sigma_exponential expo alpha N Nc s i = 1.
Proof.
  move=> H S. rewrite /sigma_exponential. case: leqP => // H2. have -> : i = Nc by apply/eqP; rewrite eqn_leq H H2. by rewrite subnn mul0r expr0n eqn0Ngt S mulr0.
Qed.
Lemma sigma_top alpha N Nc s : (Nc < N)%N -> sigma_exponential expo alpha N Nc s N = expo (- alpha).
Proof. move=> H. rewrite /sigma_exponential (ltnW H) divff ?expr1n ?mulr1 // pnatr_eq0 subn_eq0 -ltnNge. by []. Qed.
Lemma make_low alpha cutoff order n k : k%:R <= cutoff * (n - 1)%:R -> (2 <= n)%N -> sigma_make_filter expo alpha cutoff order n k = 1.
Proof.
  move=> H N. rewrite /sigma_make_filter /=. have P : 0 < (n - 1)%:R :> F by rewrite ltr0n subn_gt0. by rewrite ltr_pdivl_mulr // ltNge H.
Qed.
Lemma make_top alpha cutoff order n : cutoff < 1 -> (2 <= n)%N -> sigma_make_filter expo alpha cutoff order n (n - 1) = expo (- alpha).
Proof.
  move=> C N. rewrite /sigma_make_filter /=. have P : (n - 1)%:R != 0 :> F by rewrite pnatr_eq0 subn_eq0 -ltnNge. rewrite divff // C divff ?expr1n ?mulr1 //. by rewrite subr_eq0 gt_eqF.
Qed.
End Factors.
Section Weights.
Variable F : realFieldType.
Import Order.Theory.
Implicit Types (points w : seq F).
Lemma weights_two points x w : (2 <= size points)%N -> get_linear_weights points x = Some w ->
  exists2 ix, (ix.+1 < size points)%N & forall k, k != ix -> k != ix.+1 -> w`_k = 0.
Proof.
  move=> Sz. rewrite /get_linear_weights gtn_eqF // gtn_eqF; last exact: ltn_trans Sz. set ix := find_interval _ _ _ _ => -[<-]. exists ix; first by rewrite -addn2; apply: find_interval_lt.
  move=> k N1 N2. case: (ltnP k (size points)) => H; last by rewrite nth_default // size_mkseq.
  by rewrite nth_mkseq // (negbTE N1) (negbTE N2).
Qed.
Lemma weights_nonneg points x w : sorted <%R points -> (2 <= size points)%N -> points`_0 <= x <= points`_(size points).-1 -> get_linear_weights points x = Some w -> forall k, 0 <= w`_k.
Proof.
  move=> So Sz /andP[X0 X1]. rewrite /get_linear_weights gtn_eqF // gtn_eqF; last exact: ltn_trans Sz.
  have L : (find_interval points x (size points) 0 + 2 <= size points)%N by apply: find_interval_lt.
  have [] := @find_interval_in F points x (size points) 0 Sz _ (or_introl erefl); first by rewrite leq_addl.
  set ix := find_interval _ _ _ _ in L *. move=> A B [<-] k.
  have Lo : points`_ix <= x by case: A => [->//|/ltW]. have Hi : x <= points`_ix.+1. case: B => [//|E]. by move: X1; rewrite -E addn2 /=.
  have D : 0 < points`_ix.+1 - points`_ix. rewrite subr_gt0. apply: (sortedP 0 So). by rewrite -addn2.
  case: (ltnP k (size points)) => H; last by rewrite nth_default // size_mkseq.
  rewrite nth_mkseq //. case: ifP => _; first by rewrite subr_ge0 ler_pdivr_mulr // mul1r ler_add2r. case: ifP => // _. rewrite opprB addrCA subrr addr0. apply: divr_ge0; [by rewrite subr_ge0|exact: ltW].
Qed.
End Weights.
Section Both.
Lemma extrap_2d_ok (F : fieldType) (ns : nat) (neg pos f : nat -> F) (l : nat) : (l < ns)%N ->
  [/\ apply_op (ns * ns) f (extrap_x_2d ns neg pos) l = \sum_(i < ns) f (l * ns + i)%N * neg i,
      apply_op (ns * ns) f (extrap_x_2d ns neg pos) (ns + l) = \sum_(i < ns) f (l * ns + i)%N * pos i,
      apply_op (ns * ns) f (extrap_y_2d ns neg pos) l = \sum_(j < ns) f (j * ns + l)%N * neg j
    & apply_op (ns * ns) f (extrap_y_2d ns neg pos) (ns + l) = \sum_(j < ns) f (j * ns + l)%N * pos j].
Proof. move=> H. have [? ?] := extrap_x_2d_ok neg pos f H. have [? ?] := extrap_y_2d_ok neg pos f H. by split. Qed.
Lemma sigma_exponential_ok (F : realFieldType) (expo : F -> F) (alpha : F) (N Nc s : nat) : expo 0 = 1 -> (0 < s)%N -> (Nc < N)%N ->
  (forall i, (i <= Nc)%N -> sigma_exponential expo alpha N Nc s i = 1) /\ sigma_exponential expo alpha N Nc s N = expo (- alpha).
Proof. move=> E S H. split; [move=> i Hi; exact: sigma_low|exact: sigma_top]. Qed.
Lemma sigma_make_ok (F : realFieldType) (expo : F -> F) (alpha cutoff : F) (order n : nat) : (2 <= n)%N -> cutoff < 1 ->
  (forall k, k%:R <= cutoff * (n - 1)%:R -> sigma_make_filter expo alpha cutoff order n k = 1) /\ sigma_make_filter expo alpha cutoff order n (n - 1) = expo (- alpha).
Proof. move=> N C. split; [move=> k Hk; exact: make_low|exact: make_top]. Qed.
Lemma highfilter_both (F : numFieldType) (pts : seq F) (p : {poly F}) : uniq pts ->
  ((size p <= (size pts).-1)%N -> highfilter pts *m values pts p = values pts p) /\ highfilter pts *m values pts (legendre F (size pts).-1) = 0.
Proof. move=> U. split; [exact: highfilter_keeps|exact: highfilter_kills]. Qed.
Lemma remesh_constant (F : numFieldType) (src target : seq F) : uniq src -> (0 < size src)%N -> (0 < size target)%N -> (size src == 1%N) || (size target == 1%N) ->
  remesh_operator src target *m values src 1 = 2%:R^-1 *: values target 1 /\ remesh_operator src target *m values src 1 <> values target 1.
Proof.
  move=> U P1 P2 H. have M : (minn (size src) (size target)).-1 = 0%N.
    by case/orP: H => /eqP E; rewrite E ?(minn_idPl P2) ?(minn_idPr P1).
  have E := remesh_halves U P1 P2. move: E. rewrite M /= => E. split=> //. rewrite E => /(congr1 (fun V : 'cV_(size target) => V (Ordinal P2) 0)). rewrite !mxE hornerC mulr1 => /eqP. by rewrite invr_eq1 (eqr_nat F 2 1).
Qed.
Lemma weights_sum (F : realFieldType) (points : seq F) x w : sorted <%R points -> (2 <= size points)%N -> get_linear_weights points x = Some w -> \sum_(k < size points) w`_k = 1.
Proof.
  move=> So Sz G. have [_] := weights_linear 0 1 So Sz G. rewrite mul0r add0r => <-. apply: eq_bigr => k _. by rewrite mul0r add0r mulr1.
Qed.
End Both.
