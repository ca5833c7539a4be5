(** Gaussian elimination. *)
From mathcomp Require Import all_ssreflect all_fingroup all_algebra.
From Verif Require Import OpModel OpSpec.
Set Implicit Arguments.
Unset Strict Implicit.
Unset Printing Implicit Defensive.
Import GRing.Theory.
Local Open Scope ring_scope.

Section Reduce.
Variable F : fieldType.
Section Shape.
Variables (m n : nat).
Implicit Type A : 'M[F]_(m, n).

Lemma pivot_row_some A p j i : pivot_row A p j = Some i -> (p <= i)%N && (A i j != 0).
Proof.
  rewrite /pivot_row. case E: [seq _ : _ <- _ | _] => [|a s] //= [<-]. 
  have : a \in [seq i0 : 'I_m <- enum 'I_m | (p <= i0)%N && (A i0 j != 0)] by rewrite E inE eqxx.
  by rewrite mem_filter => /andP[].
Qed.
Lemma pivot_row_none A p j : pivot_row A p j = None -> forall i : 'I_m, (p <= i)%N -> A i j = 0.
Proof.
  rewrite /pivot_row. case E: [seq _ : _ <- _ | _] => [|a s] //= _ i Hi. apply/eqP. apply: contraT => N.
  have : i \in [seq i0 : 'I_m <- enum 'I_m | (p <= i0)%N && (A i0 j != 0)] by rewrite mem_filter Hi N mem_enum.
  by rewrite E.
Qed.
(** the test D r j != 0 makes no difference *)
Lemma reduce_pivotE A p i j r c : reduce_pivot A p i j r c =
  let S := xrow p i A in if r == p then S p c / S p j else S r c - S r j * (S p c / S p j).
Proof.
  rewrite /reduce_pivot. set S := xrow p i A. set D := \matrix_(_, _) (if _ then S _ _ / _ else _). rewrite mxE.
  have DE r0 c0 : D r0 c0 = if r0 == p then S p c0 / S p j else S r0 c0 by rewrite mxE; case: (r0 =P p) => [->|//].
  rewrite !DE eqxx. case: (r =P p) => [_|/eqP N] //=.
  case: (S r j =P 0) => [->|//]; by rewrite mul0r subr0.
Qed.
(** one pass is a multiplication on the left by an invertible matrix *)
Definition step_mx A (p i : 'I_m) (j : 'I_n) : 'M[F]_m :=
  let S := xrow p i A in (\matrix_(r, c) (if c == p then (if r == p then (S p j)^-1 else - S r j / S p j) else (r == c)%:R)) *m tperm_mx p i.
Lemma reduce_pivot_mul A p i j : reduce_pivot A p i j = step_mx A p i j *m A.
Proof.
  rewrite /step_mx -mulmxA -xrowE. apply/matrixP => r c. rewrite reduce_pivotE. set S := xrow p i A. cbv zeta.
  rewrite !mxE (bigD1 p) //= !mxE eqxx.
  case: (r =P p) => [->|/eqP N].
  - rewrite big1 ?addr0 1?mulrC // => k K. by rewrite !mxE (negbTE K) eq_sym (negbTE K) mul0r.
  - rewrite (bigD1 r) //= !mxE (negbTE N) eqxx mul1r big1 ?addr0; last first.
      move=> k /andP[K1 K2]. by rewrite !mxE (negbTE K1) eq_sym (negbTE K2) mul0r.
    by rewrite addrC mulNr mulrA mulNr mulrAC -!mulrA.
Qed.
Lemma step_unit A p i j : xrow p i A p j != 0 -> step_mx A p i j \in unitmx.
Proof.
  move=> N. rewrite /step_mx unitmx_mul unitmx_perm andbT. set S := xrow p i A in N *. clearbody S. set E := \matrix_(_, _) _.
  pose E' : 'M[F]_m := \matrix_(r, c) (if c == p then (if r == p then S p j else S r j) else (r == c)%:R).
  suff: E *m E' = 1%:M by move/mulmx1_unit => [].
  apply/matrixP => r c. rewrite !mxE (bigD1 p) //= !mxE eqxx.
  case: (r =P p) => [->|/eqP Nr].
  - rewrite big1 ?addr0; last first. by move=> k K; rewrite !mxE (negbTE K) [p == k]eq_sym (negbTE K) mul0r.
    case: (c =P p) => [->|/eqP Nc]; first by rewrite mulVf // eqxx. by rewrite [p == c]eq_sym (negbTE Nc) mulr0.
  - rewrite (bigD1 r) //= !mxE (negbTE Nr) eqxx mul1r big1 ?addr0; last first.
      by move=> k /andP[K1 K2]; rewrite !mxE (negbTE K1) [r == k]eq_sym (negbTE K2) mul0r.
    case: (c =P p) => [->|/eqP Nc]; first by rewrite mulfVK // addNr (negbTE Nr).
    by rewrite [p == c]eq_sym (negbTE Nc) mulr0 add0r.
Qed.
Lemma xrow_pivot A (p i : 'I_m) j : xrow p i A p j = A i j.
Proof. by rewrite mxE tpermL. Qed.

Lemma reduce_cols_mul js p A : exists2 P : 'M[F]_m, P \in unitmx & reduce_cols js p A = P *m A.
Proof.
  elim: js p A => [|j js IH] p A /=; first by exists 1%:M; rewrite ?unitmx1 ?mul1mx.
  case: insubP => [p' Hp Ep|_] /=; last exact: IH.
  case E: (pivot_row A p j) => [i|]; last exact: IH. move/pivot_row_some: E => /andP[_ N].
  have U : step_mx A p' i j \in unitmx by apply: step_unit; rewrite xrow_pivot.
  case: ifP => _; first by exists (step_mx A p' i j) => //; rewrite reduce_pivot_mul.
  case: (IH p.+1 (reduce_pivot A p' i j)) => P UP ->. exists (P *m step_mx A p' i j); first by rewrite unitmx_mul UP.
  by rewrite reduce_pivot_mul mulmxA.
Qed.

(** ** The result is reduced *)
Definition lto (a b : 'I_n) := (a < b)%N.
Record reduced_on (pre piv : seq 'I_n) A : Prop := {
  ro_sorted : sorted lto piv;
  ro_size : (size piv <= m)%N;
  ro_sub : {subset piv <= pre};
  ro_one : forall c (i : 'I_m), c \in piv -> A i c = (i == index c piv :> nat)%:R;
  ro_left : forall c (i : 'I_m) d, c \in piv -> (index c piv <= i)%N -> d \in pre -> (d < c)%N -> A i d = 0;
  ro_zero : forall (i : 'I_m) d, (size piv <= i)%N -> d \in pre -> A i d = 0 }.
Lemma skip_col (pre piv : seq 'I_n) A (j : 'I_n) : {in pre, forall c : 'I_n, (c < j)%N} -> reduced_on pre piv A -> (forall i : 'I_m, (size piv <= i)%N -> A i j = 0) -> reduced_on (rcons pre j) piv A.
Proof.
  move=> L [So Sz Su On Le Ze] Z. split=> //.
  - by move=> c /Su C; rewrite mem_rcons inE C orbT.
  - move=> c i d C Hi. rewrite mem_rcons inE => /orP[/eqP->|D]; last exact: Le. by move=> H; have := L _ (Su _ C); rewrite ltnNge ltnW.
  - move=> i d Hi. rewrite mem_rcons inE => /orP[/eqP->|D]; [exact: Z|exact: Ze].
Qed.
Lemma reduce_kept (pre piv : seq 'I_n) A (p i : 'I_m) (j : 'I_n) r c : size piv = p :> nat -> reduced_on pre piv A -> (p <= i)%N -> c \in pre -> reduce_pivot A p i j r c = A r c.
Proof.
  move=> Sp H Hi C. rewrite reduce_pivotE. cbv zeta.
  have Z (k : 'I_m) : (p <= k)%N -> A k c = 0 by move=> K; apply: (ro_zero H) => //; rewrite Sp.
  rewrite xrow_pivot (Z i) // mul0r mulr0 subr0. case: (r =P p) => [->|/eqP N]; first by rewrite Z.
  rewrite mxE. case: tpermP => [E|E|//]; first by rewrite E eqxx in N. by rewrite E Z // Z.
Qed.
Lemma pivot_col (pre piv : seq 'I_n) A (p i : 'I_m) (j : 'I_n) : {in pre, forall c : 'I_n, (c < j)%N} -> size piv = p :> nat -> reduced_on pre piv A -> (p <= i)%N -> A i j != 0 ->
  reduced_on (rcons pre j) (rcons piv j) (reduce_pivot A p i j).
Proof.
  move=> L Sp H Hi N. have K r c : c \in pre -> reduce_pivot A p i j r c = A r c by move=> C; apply: reduce_kept H Hi C.
  have J r : reduce_pivot A p i j r j = (r == p)%:R.
    rewrite reduce_pivotE. cbv zeta. rewrite xrow_pivot divff //. case: (r =P p) => [_|/eqP Nr] //. by rewrite mulr1 subrr.
  case: (H) => So Sz Su On Le Ze.
  have Nj : j \notin piv by apply/negP => /Su /L; rewrite ltnn.
  have Ij : index j (rcons piv j) = p by rewrite -cats1 index_cat (negbTE Nj) /= eqxx addn0.
  have Ip c : c \in piv -> index c (rcons piv j) = index c piv by move=> C; rewrite -cats1 index_cat C.
  split.
  - case: (piv) So Su => [|a s] //= So Su. rewrite rcons_path So /=. apply: L. apply: Su. exact: mem_last.
  - by rewrite size_rcons Sp ltn_ord.
  - move=> c. rewrite !mem_rcons !inE => /orP[->//|/Su->]. by rewrite orbT.
  - move=> c r. rewrite mem_rcons inE => /orP[/eqP->|C]; first by rewrite J Ij. by rewrite K ?Ip ?On // Su.
  - move=> c r d. rewrite mem_rcons inE => /orP[/eqP->|C].
    + rewrite Ij => Hr. rewrite mem_rcons inE => /orP[/eqP->|D]; first by rewrite ltnn. move=> _. by rewrite K // Ze // Sp.
    + rewrite Ip // => Hr. rewrite mem_rcons inE => /orP[/eqP->|D] Hd; last by rewrite K // (Le c).
      by have := L _ (Su _ C); rewrite ltnNge ltnW.
  - move=> r d. rewrite size_rcons Sp => Hr. rewrite mem_rcons inE => /orP[/eqP->|D]; last by rewrite K // Ze // Sp ltnW.
    by rewrite J -val_eqE /= gtn_eqF.
Qed.
Lemma break_ok (pre js piv : seq 'I_n) A : {in pre & js, forall c d : 'I_n, (c < d)%N} -> reduced_on pre piv A -> (m <= size piv)%N -> reduced_on (pre ++ js) piv A.
Proof.
  move=> L [So Sz Su On Le Ze] M. split=> //.
  - by move=> c /Su C; rewrite mem_cat C.
  - move=> c i d C Hi. rewrite mem_cat => /orP[D|D]; first exact: Le. by move=> Hd; have := L c d (Su _ C) D; rewrite ltnNge ltnW.
  - by move=> i d Hi; have := leq_trans M Hi; rewrite leqNgt ltn_ord.
Qed.
Lemma reduce_cols_ok (js pre piv : seq 'I_n) A : sorted lto (pre ++ js) -> reduced_on pre piv A -> exists piv', reduced_on (pre ++ js) piv' (reduce_cols js (size piv) A).
Proof.
  have tr : transitive lto by move=> a b c; apply: ltn_trans.
  elim: js pre piv A => [|j js IH] pre piv A So H /=; first by rewrite cats0; exists piv.
  have L : {in pre, forall c : 'I_n, (c < j)%N}.
    move: So. rewrite sorted_pairwise // pairwise_cat => /and3P[A1 _ _] c C. by have /allP/(_ c C)/allP/(_ j) := A1; rewrite inE eqxx => /(_ isT).
  have L2 : {in rcons pre j & js, forall c d : 'I_n, (c < d)%N}.
    move: So. rewrite -cat_rcons sorted_pairwise // pairwise_cat => /and3P[A1 _ _] c d C D. by have /allP/(_ c C)/allP/(_ d D) := A1.
  rewrite -cat_rcons in So *.
  case: insubP => [p' Hp Ep|Np] /=; last first.
    apply: IH => //. apply: skip_col => // i Hi. by case/negP: Np; apply: leq_ltn_trans (ltn_ord i).
  case E: (pivot_row A (size piv) j) => [i|]; last first.
    apply: IH => //. apply: skip_col => //. exact: pivot_row_none E.
  move/pivot_row_some: E => /andP[Hi N]. rewrite -Ep in Hi.
  have R := pivot_col L (esym Ep) H Hi N.
  case: eqP => M.
  - exists (rcons piv j). apply: break_ok => //. by rewrite size_rcons M.
  - have -> : (size piv).+1 = size (rcons piv j) by rewrite size_rcons. exact: IH.
Qed.
Lemma row_reduce_ok A ncols : (ncols <= n)%N -> reduced_echelon ncols (row_reduce A ncols).
Proof.
  move=> Hn. rewrite /row_reduce. set cols := [seq _ : _ <- _ | _].
  have Mc c : (c \in cols) = (c < ncols)%N by rewrite mem_filter mem_enum andbT.
  have Sc : sorted lto cols.
    apply: sorted_filter; first by move=> a b c; apply: ltn_trans.
    have := iota_ltn_sorted 0 n. by rewrite -val_enum_ord sorted_map.
  have [] := @reduce_cols_ok cols [::] [::] A Sc; first by split.
  move=> piv /= [So Sz Su On Le Ze]. exists piv. split; split.
  - by rewrite sorted_map.
  - exact: Sz.
  - by move=> c /Su; rewrite Mc.
  - by move=> c C i; apply: On.
  - move=> c C i d Hi Hd. apply: (Le c) => //. rewrite Mc. apply: ltn_trans Hd _. by rewrite -Mc Su.
  - move=> i d Hi Hd. apply: Ze => //. by rewrite Mc.
Qed.
Lemma row_reduce_mul A ncols : exists2 P : 'M[F]_m, P \in unitmx & row_reduce A ncols = P *m A.
Proof. exact: reduce_cols_mul. Qed.
End Shape.
(** ** inv *)
Lemma sorted_full (n : nat) (s : seq nat) : sorted ltn s -> size s = n -> {in s, forall c, (c < n)%N} -> s = iota 0 n.
Proof.
  move=> So Sz Lt. have U : uniq s by apply: (sorted_uniq ltn_trans ltnn).
  apply: (irr_sorted_eq ltn_trans ltnn So (iota_ltn_sorted 0 n)) => x. 
  have [] := uniq_min_size U (s2 := iota 0 n).
  - by move=> c /Lt; rewrite mem_iota add0n.
  - by rewrite Sz size_iota.
  by move=> _ ->.
Qed.
Lemma inv_parts (n : nat) (A : 'M[F]_n) : exists2 P : 'M[F]_n, P \in unitmx & row_reduce (row_mx A 1%:M) n = row_mx (P *m A) P.
Proof. have [P U ->] := row_reduce_mul (row_mx A 1%:M) n. exists P => //. by rewrite mul_mx_row mulmx1. Qed.
Definition zero_row (n : nat) (C : 'M[F]_n) (i : 'I_n) : bool := [forall j, C i j == 0].
Lemma count_full (T : finType) (P : pred T) : (count P (enum T) == #|T|) = [forall i, P i].
Proof. rewrite cardE -all_count. apply/allP/forallP => [H i|H i _]; [by apply: H; rewrite mem_enum|exact: H]. Qed.
Lemma inv_some (n : nat) (A B : 'M[F]_n) : inv A = Some B -> B *m A = 1%:M.
Proof.
  rewrite /inv. have [P U E] := inv_parts A. have := @row_reduce_ok n (n + n) (row_mx A 1%:M) n (leq_addr n n). rewrite E row_mxKl row_mxKr.
  move=> [piv [[So Sz Lt] [On Le Ze]]]. set cnt := count _ _. case: eqP => // C [<-].
  have Nz : forall i : 'I_n, ~~ zero_row (P *m A) i.
    apply/forallP. rewrite -count_full card_ord. apply/eqP. exact: C.
  have Sn : size piv = n.
    apply/eqP. rewrite eqn_leq Sz /= leqNgt. apply/negP => H. pose i := Ordinal H. case/negP: (Nz i). apply/forallP => j. apply/eqP.
    rewrite -(row_mxEl (P *m A) P i j). by apply: Ze; rewrite //= ltn_ord.
  have Ep : map val piv = iota 0 n.
    apply: sorted_full => //; first by rewrite size_map. by move=> c /mapP[d D ->]; apply: Lt.
  apply/matrixP => i j. rewrite -(row_mxEl (P *m A) P i j) [RHS]mxE.
  have Mj : lshift n j \in piv by rewrite -(mem_map val_inj) Ep mem_iota /= add0n ltn_ord.
  rewrite (On _ Mj). congr (_%:R). have -> : index (lshift n j) piv = j; last by rewrite val_eqE.
  rewrite -(index_map val_inj) Ep /=. have := @index_uniq _ 0%N j (iota 0 n). rewrite nth_iota // add0n size_iota. by apply; rewrite ?iota_uniq.
Qed.
Lemma inv_unit (n : nat) (A : 'M[F]_n) : A \in unitmx -> exists B, inv A = Some B.
Proof.
  move=> U. rewrite /inv. have [P UP E] := inv_parts A. rewrite E row_mxKl row_mxKr.
  suff -> : (count (fun i => ~~ [forall j, (P *m A) i j == 0]) (enum 'I_n) == n) = true by eexists.
  rewrite -[X in _ == X](card_ord n) count_full. apply/forallP => i. apply/negP => /forallP Z.
  have : P *m A \in unitmx by rewrite unitmx_mul UP U. rewrite unitmxE. suff -> : \det (P *m A) = 0 by rewrite unitr0.
  rewrite (expand_det_row _ i) big1 // => j _. by rewrite (eqP (Z j)) mul0r.
Qed.
Lemma inv_correct (n : nat) (A B : 'M[F]_n) : inv A = Some B -> A *m B = 1%:M /\ B *m A = 1%:M.
Proof. move=> /inv_some H. split=> //. exact: mulmx1C. Qed.
Lemma inv_fails (n : nat) (A : 'M[F]_n) : inv A = None <-> \det A = 0.
Proof.
  split=> [H|D].
  - apply/eqP. apply: contraT => N. have [|B] := @inv_unit n A; first by rewrite unitmxE unitfE. by rewrite H.
  - case E: (inv A) => [B|//]. have /mulmx1_unit[_] := inv_some E. by rewrite unitmxE D unitr0.
Qed.
End Reduce.
