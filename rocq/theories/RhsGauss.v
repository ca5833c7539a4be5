(** The Gauss-Legendre points satisfy the conditions of the divergence theorem. *)
From Coq Require Import Reals Lra Lia.
From mathcomp Require Import all_ssreflect all_algebra.
From Coquelicot Require Import Coquelicot.
From Verif Require Import RField OpModel RhsSpec QuadModel QuadSpec QuadProofs.
Set Implicit Arguments.
Unset Strict Implicit.
Unset Printing Implicit Defensive.
Import GRing.Theory.
Delimit Scope R_scope with re.
Local Open Scope ring_scope.

Notation RF := R_fieldType.
Lemma poly_horner (cs : seq RF) (x : RF) : poly cs x = horner_rec cs x.
Proof. elim: cs => //= c cs ->. change (c + x * horner_rec cs x = horner_rec cs x * x + c). by rewrite addrC mulrC. Qed.
Lemma quad_sum (xs ws : seq RF) (f : RF -> RF) : size xs = size ws -> quad xs ws f = \sum_(i < size xs) ws`_i * f xs`_i.
Proof.
  elim: xs ws => [|x xs IH] [|w ws] //=; first by rewrite big_ord0.
  move=> [H]. rewrite big_ord_recl /= (IH _ H). by [].
Qed.
Lemma poly_derive (p : {poly RF}) (x : R) : is_derive (fun y : R => p.[y] : R) x (p^`().[x] : R).
Proof.
  elim/poly_ind: p => [|p c IH].
  - rewrite derivC horner0. apply: (is_derive_ext (fun _ => 0%re)); last exact: is_derive_const. by move=> t; rewrite horner0.
  - rewrite derivMXaddC hornerD hornerMX.
    apply: (is_derive_ext (fun y : R => (p.[y] * y + c)%re)); first by move=> t; rewrite hornerMXaddC.
    have H1 : is_derive (fun y : R => (p.[y] * y)%re) x (p^`().[x] * x + p.[x] * 1)%re.
    { apply: (is_derive_mult (fun y : R => p.[y] : R) (fun y => y)); [exact: IH|exact: is_derive_id|exact: Rmult_comm]. }
    have H2 := is_derive_plus _ _ _ _ _ H1 (is_derive_const c x).
    have -> : (p.[x] + p^`().[x] * x : R) = plus ((p^`().[x] * x) + p.[x] * 1)%re zero by rewrite /plus /zero /=; change ((p.[x] + p^`().[x] * x)%re = (p^`().[x] * x + p.[x] * 1 + 0)%re); ring.
    exact: H2.
Qed.
Lemma horner_poly_list (p : {poly RF}) (x : R) : poly p x = p.[x].
Proof. exact: poly_horner. Qed.
Lemma poly_fundamental (p : {poly RF}) : is_RInt (poly p^`()) (-1) 1 (p.[1] - p.[-1])%re.
Proof.
  apply: (is_RInt_ext (fun y : R => p^`().[y] : R)); first by move=> y _; rewrite horner_poly_list.
  apply: (is_RInt_derive (fun y : R => p.[y] : R) (fun y : R => p^`().[y] : R)).
  - move=> x _. exact: poly_derive.
  - move=> x _. apply: (ex_derive_continuous (fun y : R => p^`().[y] : R)). eexists. exact: poly_derive.
Qed.
Lemma gauss_integrates roots n pts ws : (0 < n <= 5)%N -> gauss_legendre roots n = Some (pts, ws) -> integrates (pts : seq RF) ws /\ size pts = n.
Proof.
  move=> Hn' E. have Hn : (1 <= n)%coq_nat /\ (n <= 5)%coq_nat by case/andP: Hn' => /leP ? /leP ?.
  have [L1 [L2 _]] := gauss_points roots n pts ws Hn E.
  have S1 : size pts = n by rewrite -[RHS]L1; elim: (pts) => //= ? ? ->.
  have S2 : size ws = n by rewrite -[RHS]L2; elim: (ws) => //= ? ? ->.
  split=> // p Hp. have Hq : (List.length (p^`() : seq RF) <= 2 * n)%coq_nat.
  { have -> : List.length (p^`() : seq RF) = size (p^`()) by elim: (polyseq p^`()) => //= ? ? ->.
    move: Hp. rewrite S1 => Hp. apply/leP. have H1 : (size p^`() <= n.+1)%N.
    { case: (posnP (size p)) => Hz; first by move/eqP: Hz; rewrite size_poly_eq0 => /eqP ->; rewrite derivC size_poly0. have := lt_size_deriv (p := p). rewrite -size_poly_gt0 => /(_ Hz) H. rewrite -ltnS. exact: leq_trans H Hp. }
    apply: (leq_trans H1). case/andP: Hn' => H0 _. by rewrite -addn1 mul2n -addnn leq_add2l. }
  have A := gauss_exact roots n pts ws p^`() Hn E Hq. have B := @poly_fundamental p.
  have C := is_RInt_unique _ _ _ _ A. have D := is_RInt_unique _ _ _ _ B. rewrite C in D.
  rewrite (quad_sum (xs := pts) (ws := ws)) in D; last by rewrite S1 S2.
  rewrite -[RHS]D. apply: eq_bigr => i _. by rewrite horner_poly_list.
Qed.
Lemma increasing_above (x : R) (l : seq R) : increasing (x :: l) -> forall y : RF, y \in (l : seq RF) -> (x < y)%re.
Proof.
  elim: l x => //= z l IH x [H1 H2] y. rewrite inE => /orP[/eqP -> //|Hy]. apply: Rlt_trans H1 _. exact: IH H2 _ Hy.
Qed.
Lemma increasing_uniq (l : seq R) : increasing l -> uniq (l : seq RF).
Proof.
  elim: l => //= x l IH H. apply/andP. split.
  - apply/negP => /(increasing_above H). exact: Rlt_irrefl.
  - apply: IH. case: l H => //= y l [_ H]. exact: H.
Qed.
Lemma increasing_ext (l : seq R) : increasing l -> List.Forall (fun x => (-1 < x < 1)%re) l -> increasing (extension (l : seq RF)).
Proof.
  move=> H F. rewrite /extension. change (increasing ((Ropp R1) :: l ++ [:: R1])).
  have G : increasing (l ++ [:: R1]).
  { elim: l H F => //= x l IH H F. inversion F as [|? ? Hx Fl]; subst. case: l IH H Fl F => [|y l] /= IH H Fl F; [split=> //; lra|]. case: H => H1 H2. split=> //. exact: IH. }
  case: l F {H} G => /= [_ _|x l F G]; [split=> //; lra|]. split=> //. inversion F; subst. lra.
Qed.
Lemma gauss_uniq roots n pts ws : (0 < n <= 5)%N -> gauss_legendre roots n = Some (pts, ws) -> uniq (extension (pts : seq RF)).
Proof.
  move=> Hn' E. have Hn : (1 <= n)%coq_nat /\ (n <= 5)%coq_nat by case/andP: Hn' => /leP ? /leP ?.
  have [_ [_ [Inc [F _]]]] := gauss_points roots n pts ws Hn E. apply: increasing_uniq. exact: increasing_ext.
Qed.
