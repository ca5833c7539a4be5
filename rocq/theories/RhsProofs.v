(** Conservation: plane. *)
From Coq Require Import Reals Lia Arith.
From mathcomp Require Import all_ssreflect all_algebra.
From Verif Require Import RField OpModel OpSpec OpDiverge FluxModel FluxSpec FluxLoops FluxFinal RhsModel RhsSpec RhsFlat.
Set Implicit Arguments.
Unset Strict Implicit.
Unset Printing Implicit Defensive.
Import GRing.Theory.
Local Open Scope ring_scope.

Lemma flat_in n1 n2 np q v e p : (e < n1 * n2)%coq_nat -> (p < np)%coq_nat -> in_memory n1 n2 np (flat n1 n2 np q) v e p = q v e p.
Proof.
  move=> He Hp. rewrite /in_memory /flat. have [A [B C]] := @address_parts (n1 * n2)%coq_nat v e np p He Hp. cbv zeta in A, B, C. congr (q _ _ _); [exact: A|exact: B|exact: C].
Qed.
Lemma eqb_nat a b : Nat.eqb a b = (a == b).
Proof. apply/idP/eqP => [H|->]; [exact: (proj1 (Nat.eqb_eq a b) H)|exact: Nat.eqb_refl]. Qed.
Section Telescope.
Variable V : zmodType.
Lemma telescope (n : nat) (a b : nat -> V) : (forall c, (c.+1 < n.+1)%N -> a c = b c.+1) -> \sum_(c < n.+1) (a c - b c) = a n - b 0%N.
Proof.
  elim: n => [|n IH] H; first by rewrite big_ord_recl big_ord0 addr0.
  rewrite big_ord_recr /= IH => [|c Hc]; last by apply: H; exact: ltnW.
  rewrite (H n) //. by rewrite addrC addrA subrK.
Qed.
End Telescope.
Delimit Scope R_scope with re.
Lemma scale_x (a b s : R) : a != 0 -> a * b / 4%:R * (s * (- 2%:R / a)) = - (b / 2%:R * s).
Proof.
  move=> /eqP Ha. have E4 : 4%:R = 4%re :> R_ringType by change (1 + (1 + (1 + 1)) = 4)%re; ring. have E2 : 2%:R = 2%re :> R_ringType by [].
  rewrite E4 E2. rewrite /GRing.mul /GRing.inv /GRing.opp /=. have Ha' : a <> 0%re by exact: Ha. field. exact: Ha'.
Qed.
Lemma wall_sum n ns (ws : seq R) (d : R) (f : nat -> nat -> R) : wall_integral n ns (ws : seq R_fieldType) d f = d / 2%:R * \sum_(e < n) \sum_(k < ns) ws`_k * f e k.
Proof. rewrite /wall_integral. do 2 (rewrite mulr_sumr; apply: eq_bigr => ? _). by rewrite -mulrA. Qed.
Section PlaneProofs.
Variables (n1 n2 : nat) (pts ws : seq R) (dx1 dx3 : R).
Let ns := size pts.
Hypothesis U : uniq (extension (pts : seq R_fieldType)).
Hypothesis I : integrates (pts : seq R_fieldType) ws.
Hypothesis N1 : (0 < n1)%N.
Hypothesis N2 : (0 < n2)%N.
Hypothesis X1 : dx1 != 0.
Hypothesis X3 : dx3 != 0.
Let W (f : nat -> nat -> R) : R := \sum_(r < n2) \sum_(c < n1) \sum_(j < ns) \sum_(i < ns) ws`_j * ws`_i * f (r * n1 + c)%N (j * ns + i)%N.
Lemma df1_total q f0 g0 v : (v < 4)%N ->
  W (plane_df1 n1 n2 ns pts q f0 g0 v) = \sum_(r < n2) \sum_(j < ns) ws`_j * (unflat n1 n2 (2 * ns)%coq_nat (plane_fluxes_itf n1 n2 ns pts q g0).1 v (r * n1 + n1.-1) (ns + j)%N - unflat n1 n2 (2 * ns)%coq_nat (plane_fluxes_itf n1 n2 ns pts q g0).1 v (r * n1) j).
Proof.
  move=> Hv. rewrite /W. apply: eq_bigr => r _.
  under eq_bigr => c _ do rewrite (plane_x U I). rewrite exchange_big /=. apply: eq_bigr => j _. rewrite -mulr_sumr. congr (_ * _).
  have [S _] := plane_cpp_x1 n1 n2 ns (flat n1 n2 (2 * ns)%coq_nat (plane_q_itf_x1 ns pts q)) (flat n1 n2 (2 * ns)%coq_nat (plane_q_itf_x3 ns pts q)) g0 v (elimT ltP Hv).
  have S' (c : nat) : (c.+1 < n1)%N -> unflat n1 n2 (2 * ns)%coq_nat (plane_fluxes_itf n1 n2 ns pts q g0).1 v (r * n1 + c)%N (ns + j)%N = unflat n1 n2 (2 * ns)%coq_nat (plane_fluxes_itf n1 n2 ns pts q g0).1 v (r * n1 + c.+1)%N j.
  { move=> Hc. have := S r c j. rewrite /in_memory /unflat !plusE !multE addn1. apply; apply/ltP => //; exact: ltn_ord. }
  move: S'. set F := unflat _ _ _ _ v. case: n1 N1 => // m _ S'.
  by rewrite (telescope (a := fun c => F (r * m.+1 + c)%N (ns + j)%N) (b := fun c => F (r * m.+1 + c)%N j)) // addn0.
Qed.
Lemma df3_total q f0 g0 v : (v < 4)%N ->
  W (plane_df3 n1 n2 ns pts q f0 g0 v) = \sum_(c < n1) \sum_(i < ns) ws`_i * (unflat n1 n2 (2 * ns)%coq_nat (plane_fluxes_itf n1 n2 ns pts q g0).2 v (n2.-1 * n1 + c) (ns + i)%N - unflat n1 n2 (2 * ns)%coq_nat (plane_fluxes_itf n1 n2 ns pts q g0).2 v c i).
Proof.
  move=> Hv. rewrite /W exchange_big /=. apply: eq_bigr => c _.
  under eq_bigr => r _ do rewrite (plane_y U I). rewrite exchange_big /=. apply: eq_bigr => j _. rewrite -mulr_sumr. congr (_ * _).
  have [S _] := plane_cpp_x2 n1 n2 ns (flat n1 n2 (2 * ns)%coq_nat (plane_q_itf_x1 ns pts q)) (flat n1 n2 (2 * ns)%coq_nat (plane_q_itf_x3 ns pts q)) g0 v (elimT ltP Hv).
  have S' (r : nat) : (r.+1 < n2)%N -> unflat n1 n2 (2 * ns)%coq_nat (plane_fluxes_itf n1 n2 ns pts q g0).2 v (r * n1 + c)%N (ns + j)%N = unflat n1 n2 (2 * ns)%coq_nat (plane_fluxes_itf n1 n2 ns pts q g0).2 v (r.+1 * n1 + c)%N j.
  { move=> Hc. have := S r c j. rewrite /in_memory /unflat !plusE !multE addn1. apply; apply/ltP => //; exact: ltn_ord. }
  move: S'. set F := unflat _ _ _ _ v. case: n2 N2 => // m _ S'.
  by rewrite (telescope (a := fun r => F (r * n1 + c)%N (ns + j)%N) (b := fun r => F (r * n1 + c)%N j)).
Qed.
(** the values at the walls *)
Lemma wall_x1 q g0 v r k : (v < 4)%N -> (r < n2)%N -> (k < ns)%N ->
  let P e k := FluxSpec.dry_pressure p0 Rd cpd cvd (plane_q_itf_x1 ns pts q 3 e k) in
  unflat n1 n2 (2 * ns)%coq_nat (plane_fluxes_itf n1 n2 ns pts q g0).1 v (r * n1) k = (if v == 1%N then P (r * n1)%N k else 0) /\
  unflat n1 n2 (2 * ns)%coq_nat (plane_fluxes_itf n1 n2 ns pts q g0).1 v (r * n1 + n1.-1) (ns + k)%N = (if v == 1%N then P (r * n1 + n1.-1)%N (ns + k)%N else 0).
Proof.
  move=> Hv Hr Hk P.
  have [_ S] := plane_cpp_x1 n1 n2 ns (flat n1 n2 (2 * ns)%coq_nat (plane_q_itf_x1 ns pts q)) (flat n1 n2 (2 * ns)%coq_nat (plane_q_itf_x3 ns pts q)) g0 v (elimT ltP Hv).
  have H1 : (0 < n1)%coq_nat by exact/ltP. have H2 : (r < n2)%coq_nat by exact/ltP. have H3 : (k < ns)%coq_nat by exact/ltP.
  have [A B] := S r k H2 H1 H3. rewrite (flat_in _ _ (wall_left _ _ _ H1 H2) (side_low _ _ H3)) in A. rewrite (flat_in _ _ (wall_right _ _ _ H1 H2) (side_high _ _ H3)) in B.
  rewrite eqb_nat in A B. rewrite -[n1.-1]subn1. by split.
Qed.
Lemma wall_x3 q g0 v c k : (v < 4)%N -> (c < n1)%N -> (k < ns)%N ->
  let P e k := FluxSpec.dry_pressure p0 Rd cpd cvd (plane_q_itf_x3 ns pts q 3 e k) in
  unflat n1 n2 (2 * ns)%coq_nat (plane_fluxes_itf n1 n2 ns pts q g0).2 v c k = (if v == 2%N then P c k else 0) /\
  unflat n1 n2 (2 * ns)%coq_nat (plane_fluxes_itf n1 n2 ns pts q g0).2 v (n2.-1 * n1 + c) (ns + k)%N = (if v == 2%N then P (n2.-1 * n1 + c)%N (ns + k)%N else 0).
Proof.
  move=> Hv Hr Hk P.
  have [_ S] := plane_cpp_x2 n1 n2 ns (flat n1 n2 (2 * ns)%coq_nat (plane_q_itf_x1 ns pts q)) (flat n1 n2 (2 * ns)%coq_nat (plane_q_itf_x3 ns pts q)) g0 v (elimT ltP Hv).
  have H1 : (0 < n2)%coq_nat by exact/ltP. have H2 : (c < n1)%coq_nat by exact/ltP. have H3 : (k < ns)%coq_nat by exact/ltP.
  have [A B] := S c k H1 H2 H3. rewrite (flat_in _ _ (wall_bottom _ _ _ H1 H2) (side_low _ _ H3)) in A. rewrite (flat_in _ _ (wall_top _ _ _ H1 H2) (side_high _ _ H3)) in B.
  rewrite eqb_nat in A B. rewrite -[n2.-1]subn1. by split.
Qed.
(** pressure at the walls, from the values extrapolated to them *)
Let P1 q e k := FluxSpec.dry_pressure p0 Rd cpd cvd (plane_q_itf_x1 ns pts q 3 e k).
Let P3 q e k := FluxSpec.dry_pressure p0 Rd cpd cvd (plane_q_itf_x3 ns pts q 3 e k).
Let integral := plane_integral n1 n2 ns (ws : seq R_fieldType) dx1 dx3.
Lemma integral_W f : integral f = dx1 * dx3 / 4%:R * W f.
Proof.
  rewrite /integral /plane_integral /W. do 4 (rewrite mulr_sumr; apply: eq_bigr => ? _). by rewrite -mulrA.
Qed.
Lemma W_lin f g a b : W (fun e p => f e p * a + g e p * b) = W f * a + W g * b.
Proof.
  rewrite /W !mulr_suml -big_split. apply: eq_bigr => ? _. rewrite !mulr_suml -big_split. apply: eq_bigr => ? _. rewrite !mulr_suml -big_split. apply: eq_bigr => ? _. rewrite !mulr_suml -big_split. apply: eq_bigr => ? _.
  by rewrite /= mulrDr !mulrA.
Qed.
Lemma plane_balance q f0 g0 v : (v < 4)%N ->
  integral (plane_rhs n1 n2 ns pts dx1 dx3 q f0 g0 v) =
  (if v == 1%N then wall_integral n2 ns (ws : seq R_fieldType) dx3 (fun r k => P1 q (r * n1)%N k) - wall_integral n2 ns (ws : seq R_fieldType) dx3 (fun r k => P1 q (r * n1 + n1.-1)%N (ns + k)%N) else 0)
  + (if v == 2%N then wall_integral n1 ns (ws : seq R_fieldType) dx1 (fun c k => P3 q c k) - wall_integral n1 ns (ws : seq R_fieldType) dx1 (fun c k => P3 q (n2.-1 * n1 + c)%N (ns + k)%N) - gravity * integral (q 0%N) else 0).
Proof.
  move=> Hv.
  have A : integral (fun e p => plane_df1 n1 n2 ns pts q f0 g0 v e p * (- 2%:R / dx1) + plane_df3 n1 n2 ns pts q f0 g0 v e p * (- 2%:R / dx3)) =
    (if v == 1%N then wall_integral n2 ns (ws : seq R_fieldType) dx3 (fun r k => P1 q (r * n1)%N k) - wall_integral n2 ns (ws : seq R_fieldType) dx3 (fun r k => P1 q (r * n1 + n1.-1)%N (ns + k)%N) else 0)
    + (if v == 2%N then wall_integral n1 ns (ws : seq R_fieldType) dx1 (fun c k => P3 q c k) - wall_integral n1 ns (ws : seq R_fieldType) dx1 (fun c k => P3 q (n2.-1 * n1 + c)%N (ns + k)%N) else 0).
  { rewrite integral_W W_lin (df1_total _ _ _ Hv) (df3_total _ _ _ Hv) mulrDr scale_x // [dx1 * dx3]mulrC scale_x //. congr (_ + _).
    - under eq_bigr => r _. under eq_bigr => j _ do have [-> ->] := wall_x1 q g0 Hv (ltn_ord r) (ltn_ord j). over.
      rewrite !wall_sum. case: (v == 1%N) => //.
      + rewrite -mulrBr -mulrN. congr (_ * _). rewrite -sumrN -sumrB. apply: eq_bigr => r _. rewrite -sumrN -sumrB. apply: eq_bigr => j _. by rewrite -(mulrBr (ws`_j)) -(mulrN (ws`_j)) opprB.
      + rewrite big1 ?mulr0 ?oppr0 // => r _. rewrite big1 // => j _. by rewrite addr0 mulr0.
    - under eq_bigr => c _. under eq_bigr => j _ do have [-> ->] := wall_x3 q g0 Hv (ltn_ord c) (ltn_ord j). over.
      rewrite !wall_sum. case: (v == 2%N) => //.
      + rewrite -mulrBr -mulrN. congr (_ * _). rewrite -sumrN -sumrB. apply: eq_bigr => r _. rewrite -sumrN -sumrB. apply: eq_bigr => j _. by rewrite -(mulrBr (ws`_j)) -(mulrN (ws`_j)) opprB.
      + rewrite big1 ?mulr0 ?oppr0 // => r _. rewrite big1 // => j _. by rewrite addr0 mulr0. }
  rewrite /plane_rhs. case: (v == 2%N) A => A; last exact: A.
  rewrite addrA -A !integral_W.
  have E (X Y : nat -> nat -> R) : W (fun e p => X e p - Y e p * gravity) = W X - W Y * gravity.
  { rewrite -[W X]mulr1 -mulrN -W_lin. do 4 (apply: eq_bigr => ? _). by rewrite mulr1 mulrN. }
  rewrite (E (fun e p => _) (q 0%N)) mulrBr. congr (_ - _). by rewrite mulrA mulrC.
Qed.
Lemma plane_keeps q f0 g0 v : v = 0%N \/ v = 3%N -> integral (plane_rhs n1 n2 ns pts dx1 dx3 q f0 g0 v) = 0.
Proof. move=> H. have Hv : (v < 4)%N by case: H => ->. rewrite plane_balance //. by case: H => -> /=; rewrite addr0. Qed.
End PlaneProofs.
