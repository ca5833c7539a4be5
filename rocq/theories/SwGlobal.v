(** Conservation of mass by the shallow water equations on the whole sphere. *)
From Coq Require Import Reals ZArith Lia Arith.
From Verif Require Import TopologyModel TopologySpec GeoModel GeoTiles SwModel SwSpec SwEdges SwTotal.
From mathcomp Require Import all_ssreflect all_algebra.
From Verif Require Import RField OpModel OpSpec OpTensor OpDiverge FluxModel FluxProofs FluxSpec RhsModel RhsSpec RhsFlat RhsProofs SwRhs.
Set Implicit Arguments.
Unset Strict Implicit.
Unset Printing Implicit Defensive.
Import GRing.Theory.
Delimit Scope R_scope with re.
Local Open Scope ring_scope.

Lemma total_sum (f : nat -> R) a m : SwTotal.total f (List.seq a m) = \sum_(i < m) f (a + i)%N.
Proof.
  elim: m a => [|m IH] a /=; first by rewrite big_ord0.
  rewrite big_ord_recl addn0 -/(SwTotal.total f _) IH. congr (_ + _). apply: eq_bigr => i _. by rewrite /= addSnnS.
Qed.
Lemma telescope_pos (n : nat) (a b : nat -> R) : (0 < n)%N -> (forall c, (c.+1 < n)%N -> a c = b c.+1) -> \sum_(c < n) (a c - b c) = a n.-1 - b 0%N.
Proof. case: n => // n _ H. exact: telescope. Qed.
Section Global.
Variables (k N : nat) (pts ws : seq R) (radius Omega : R) (rot : Z -> rotation) (topo : option topography) (q : Z -> nat -> nat -> nat -> nat -> R).
Let ns := size pts.
Hypothesis Hk : (0 < k)%N.
Hypothesis HN : (0 < N)%N.
Hypothesis Hns : (0 < ns)%N.
Hypothesis U : uniq (extension (pts : seq R_fieldType)).
Hypothesis I : integrates (pts : seq R_fieldType) ws.
Hypothesis Hr : radius <> 0%re.
Let fi r row := itf_flux_i k N ns pts radius topo q r 0 row.
Let fj r col := itf_flux_j k N ns pts radius topo q r 0 col.
Lemma fi_single r row c j : (c.+1 < N)%N -> (j < ns)%N -> fi r row c.+1 (ns + j)%N = fi r row c.+2 j.
Proof. move=> Hc Hj. apply: (sw_single_x1 (N + 2)%coq_nat ns); [|exact/ltP]. move/ltP: Hc. lia. Qed.
Lemma fj_single r col c j : (c.+1 < N)%N -> (j < ns)%N -> fj r col c.+1 (ns + j)%N = fj r col c.+2 j.
Proof. move=> Hc Hj. apply: (sw_single_x2 (N + 2)%coq_nat ns); [|exact/ltP]. move/ltP: Hc. lia. Qed.
Let df1 r := sw_df1 k N ns pts radius topo q r 0.
Let df2 r := sw_df2 k N ns pts radius topo q r 0.
Lemma tile_df1 r : \sum_(row < N) \sum_(col < N) \sum_(j < ns) \sum_(i < ns) ws`_j * ws`_i * df1 r row col (j * ns + i)%N = \sum_(row < N) \sum_(j < ns) ws`_j * (fi r row N (ns + j)%N - fi r row 1%N j).
Proof.
  apply: eq_bigr => row _. under eq_bigr => c _ do rewrite /df1 /sw_df1 (plane_x U I). rewrite exchange_big /=. apply: eq_bigr => j _. rewrite -mulr_sumr. congr (_ * _).
  rewrite (telescope_pos (a := fun c => fi r row c.+1 (ns + j)%N) (b := fun c => fi r row c.+1 j)) // ?prednK // => c Hc. exact: fi_single.
Qed.
Lemma tile_df2 r : \sum_(row < N) \sum_(col < N) \sum_(j < ns) \sum_(i < ns) ws`_j * ws`_i * df2 r row col (j * ns + i)%N = \sum_(col < N) \sum_(i < ns) ws`_i * (fj r col N (ns + i)%N - fj r col 1%N i).
Proof.
  rewrite exchange_big /=. apply: eq_bigr => col _. under eq_bigr => c _ do rewrite /df2 /sw_df2 (plane_y U I). rewrite exchange_big /=. apply: eq_bigr => i _. rewrite -mulr_sumr. congr (_ * _).
  rewrite (telescope_pos (a := fun c => fj r col c.+1 (ns + i)%N) (b := fun c => fj r col c.+1 i)) // ?prednK // => c Hc. exact: fj_single.
Qed.
(** metric factors are not zero *)
Lemma sqrtG_neq r row col p : sqrtG_pt k N ns (point pts) radius r row col p != 0.
Proof. apply/eqP. apply: sqrtG_nonzero => //. apply: dx_pos; exact/ltP. Qed.
Let lv := leaves k N ns (point pts) radius (ext_i ns pts topo q) (ext_j ns pts topo q) (hsurf_itf_i (ground topo)) (hsurf_itf_j (ground topo)).
Lemma side_sum (f : nat -> R) (g : nat -> nat -> R) : (forall x, f x = (ws`_(Nat.modulo x ns) : R) * g (Nat.div x ns) (Nat.modulo x ns)) ->
  SwTotal.total f (List.seq 0 (N * ns)%coq_nat) = \sum_(row < N) \sum_(j < ns) ws`_j * g row j.
Proof.
  move=> Hf. rewrite total_sum. rewrite (sum_split (F := R_fieldType) N ns f). apply: eq_bigr => row _. apply: eq_bigr => j _.
  rewrite Hf. have [-> ->] := @divmod row ns j (elimT ltP (ltn_ord j)). by [].
Qed.
Lemma tile_total r : \sum_(row < N) \sum_(col < N) \sum_(j < ns) \sum_(i < ns) sw_rhs k N ns pts radius Omega rot topo q r 0 row col (j * ns + i)%N * sqrtG_pt k N ns (point pts) radius r row col (j * ns + i)%N * (ws`_j * ws`_i)
  = - SwTotal.total (fun d => SwTotal.total (fun x => ((ws`_(Nat.modulo x ns) : R) * lv r 0 d x)%re) (List.seq 0 (N * ns)%coq_nat)) all_sides.
Proof.
  transitivity (- (\sum_(row < N) \sum_(col < N) \sum_(j < ns) \sum_(i < ns) ws`_j * ws`_i * df1 r row col (j * ns + i)%N + \sum_(row < N) \sum_(col < N) \sum_(j < ns) \sum_(i < ns) ws`_j * ws`_i * df2 r row col (j * ns + i)%N)).
  - rewrite -big_split -sumrN. apply: eq_bigr => row _. rewrite -big_split -sumrN. apply: eq_bigr => col _. rewrite -big_split -sumrN. apply: eq_bigr => j _. rewrite -big_split -sumrN. apply: eq_bigr => i _.
    rewrite /sw_rhs. have E : forcing k N ns (point pts) radius q Omega rot (dzdx1 (ground topo)) (dzdx2 (ground topo)) r 0 row col (j * ns + i)%N = 0 by [].
    rewrite E Rminus_0_r. rewrite -/(df1 r) -/(df2 r). move: (df1 r row col _) (df2 r row col _) (sqrtG_neq r row col (j * ns + i)%N) => a b.
    move: (sqrtG_pt _ _ _ _ _ _ _ _ _) => g Hg. change ((g^-1 * (- a - b)) * g * (ws`_j * ws`_i) = - (ws`_j * ws`_i * a + ws`_j * ws`_i * b) :> R_ringType).
    rewrite -mulrDr -mulrN mulrC. congr (_ * _). by rewrite mulrC mulrA mulfV // mul1r opprD.
  - congr (- _). rewrite tile_df1 tile_df2.
    have -> : SwTotal.total (fun d => SwTotal.total (fun x => ((ws`_(Nat.modulo x ns) : R) * lv r 0 d x)%re) (List.seq 0 (N * ns)%coq_nat)) all_sides =
      \sum_(col < N) \sum_(i < ns) ws`_i * (- fj r col 1%N i) + (\sum_(col < N) \sum_(i < ns) ws`_i * fj r col N (ns + i)%N + (\sum_(row < N) \sum_(j < ns) ws`_j * (- fi r row 1%N j) + (\sum_(row < N) \sum_(j < ns) ws`_j * fi r row N (ns + j)%N + 0))).
    { rewrite -(side_sum (f := fun x => ((ws`_(Nat.modulo x ns) : R) * lv r 0 South x)%re) (g := fun x j => - fj r x 1%N j)) //.
      rewrite -(side_sum (f := fun x => ((ws`_(Nat.modulo x ns) : R) * lv r 0 North x)%re) (g := fun x j => fj r x N (ns + j)%N)) //.
      rewrite -(side_sum (f := fun x => ((ws`_(Nat.modulo x ns) : R) * lv r 0 West x)%re) (g := fun x j => - fi r x 1%N j)) //.
      rewrite -(side_sum (f := fun x => ((ws`_(Nat.modulo x ns) : R) * lv r 0 East x)%re) (g := fun x j => fi r x N (ns + j)%N)) //. }
    have split (a b : nat -> nat -> R) : \sum_(row < N) \sum_(j < ns) ws`_j * (a row j - b row j) = \sum_(row < N) \sum_(j < ns) ws`_j * (- b row j) + \sum_(row < N) \sum_(j < ns) ws`_j * a row j.
    { rewrite -big_split. apply: eq_bigr => row _. rewrite -big_split. apply: eq_bigr => j _. by rewrite /= -mulrDr addrC. }
    rewrite (split (fun row j => fi r row N (ns + j)%N) (fun row j => fi r row 1%N j)) (split (fun row j => fj r row N (ns + j)%N) (fun row j => fj r row 1%N j)).
    by rewrite addr0 addrC -addrA.
Qed.
Hypothesis sym : forall i, (i < ns)%N -> point pts (ns - 1 - i)%N = (- point pts i)%re.
Hypothesis symw : forall i, (i < ns)%N -> (ws`_(ns - 1 - i) = ws`_i :> R).
Hypothesis surface : one_surface k N ns (point pts) (hsurf_itf_i (ground topo)) (hsurf_itf_j (ground topo)).
Lemma sw_mass : global_integral_2d k N ns pts ws radius (fun r => sw_rhs k N ns pts radius Omega rot topo q r 0) = 0.
Proof.
  rewrite /global_integral_2d. under eq_bigr => r _ do rewrite tile_total.
  have A := @all_leaves k N ns (point pts) (fun i => ws`_i : R) radius (ext_i ns pts topo q) (ext_j ns pts topo q) (hsurf_itf_i (ground topo)) (hsurf_itf_j (ground topo)) (elimT ltP Hk) (elimT ltP HN) (elimT ltP Hns)
    (fun i Hi => sym (introT ltP Hi)) (fun i Hi => symw (introT ltP Hi)) surface.
  rewrite sumrN. apply/eqP. rewrite oppr_eq0. apply/eqP. rewrite -[RHS]A /ranks total_map total_sum. by [].
Qed.
End Global.
