(** The integral of a divergence over a rectangle of elements. *)
From Coq Require Import Reals Lra.
From Verif Require Import FluxModel.
From mathcomp Require Import all_ssreflect all_algebra.
From Verif Require Import RField OpModel OpSpec OpDiverge RhsModel RhsSpec RhsGauss SwGlobal QuadModel SwSplitModel SwSplitProofs PlnModel PlnSpec PlnFaces.
Set Implicit Arguments.
Unset Strict Implicit.
Unset Printing Implicit Defensive.
Import GRing.Theory.
Delimit Scope R_scope with re.
Local Open Scope ring_scope.

Section Total.
Variables (pts ws : seq R).
Let ns := seq.size pts.
Hypothesis W : seq.size ws = ns.
Hypothesis U : uniq (extension (pts : seq R_fieldType)).
Hypothesis I : integrates (pts : seq R_fieldType) ws.
Lemma slope_total c0 n dx (flux : nat -> R) (f : nat -> nat -> R) : (0 < n)%N -> dx <> 0%re -> (forall e, (e.+1 < n)%N -> f (c0 + e)%N 1%N = f (c0 + e.+1)%N 0%N) ->
  \sum_(e < n) \sum_(i < ns) ((dx / 2)%re * (ws`_i * slope ns pts dx flux f ((c0 + e) * ns + i)%N)) = f (c0 + n.-1)%N 1%N - f c0 0%N.
Proof.
  move=> Hn Hdx H. have T := @telescope_pos n (fun e => f (c0 + e)%N 1%N) (fun e => f (c0 + e)%N 0%N) Hn H. rewrite addn0 in T. rewrite -T.
  apply: eq_bigr => e _. rewrite -(line_divergence U I (fun l => flux ((c0 + e) * ns + l)%N) (f (c0 + e)%N 0%N) (f (c0 + e)%N 1%N)).
  apply: eq_bigr => i _. rewrite /slope. have [-> ->] := divmod_small (c0 + e)%N (ltn_ord i).
  rewrite -/ns. set s := (\sum_(l < ns) _ + _). set w := ws`_i.
  change ((dx / 2 * (w * (s * 2 / dx)) = w * s)%re). by field.
Qed.
Lemma region_total c0 nc nz dx1 dx3 (F1 F3 : nat -> nat -> R) (f1 f3 : nat -> nat -> nat -> R) (src : nat -> nat -> R) :
  (0 < nc)%N -> (0 < nz)%N -> dx1 <> 0%re -> dx3 <> 0%re ->
  (forall z e, (e.+1 < nc)%N -> f1 z (c0 + e)%N 1%N = f1 z (c0 + e.+1)%N 0%N) -> (forall x e, (e.+1 < nz)%N -> f3 x e 1%N = f3 x e.+1 0%N) ->
  region_integral c0 nc nz ws dx1 dx3 (fun z x => - (slope ns pts dx1 (F1 z) (f1 z) x + slope ns pts dx3 (F3 x) (f3 x) z) - src z x)%re
  = (line_integral 0 nz ws dx3 (fun z => f1 z c0 0%N - f1 z (c0 + nc.-1)%N 1%N) + line_integral c0 nc ws dx1 (fun x => f3 x 0%N 0%N - f3 x nz.-1 1%N)
     - region_integral c0 nc nz ws dx1 dx3 src)%re.
Proof.
  move=> Hc Hz H1 H3 C1 C3. rewrite /region_integral /line_integral W -/ns.
  set A := fun row col j i => ((dx3 / 2)%re * ws`_j * ((dx1 / 2)%re * (ws`_i * slope ns pts dx1 (F1 (row * ns + j)%N) (f1 (row * ns + j)%N) ((c0 + col) * ns + i)%N))) : R.
  set B := fun row col j i => ((dx1 / 2)%re * ws`_i * ((dx3 / 2)%re * (ws`_j * slope ns pts dx3 (F3 ((c0 + col) * ns + i)%N) (f3 ((c0 + col) * ns + i)%N) (row * ns + j)%N))) : R.
  set C := fun row col j i => ((dx1 / 2) * (dx3 / 2) * (ws`_j * ws`_i)%R * src (row * ns + j)%N ((c0 + col) * ns + i)%N)%re.
  transitivity (\sum_(row < nz) \sum_(col < nc) \sum_(j < ns) \sum_(i < ns) (- A row col j i - B row col j i - C row col j i)).
  { apply: eq_bigr => row _. apply: eq_bigr => col _. apply: eq_bigr => j _. apply: eq_bigr => i _. rewrite /A /B /C.
    set a := slope _ _ _ _ _ _. set b := slope _ _ _ _ _ _. set c := src _ _. move: (ws`_j) (ws`_i) => x y. move: a b c => a b c.
    change ((dx1 / 2 * (dx3 / 2) * (x * y) * (- (a + b) - c) = - (dx3 / 2 * x * (dx1 / 2 * (y * a))) + - (dx1 / 2 * y * (dx3 / 2 * (x * b))) + - (dx1 / 2 * (dx3 / 2) * (x * y) * c))%re). ring. }
  transitivity (- (\sum_(row < nz) \sum_(col < nc) \sum_(j < ns) \sum_(i < ns) A row col j i) - (\sum_(row < nz) \sum_(col < nc) \sum_(j < ns) \sum_(i < ns) B row col j i) - (\sum_(row < nz) \sum_(col < nc) \sum_(j < ns) \sum_(i < ns) C row col j i)).
  { rewrite -!sumrN -!big_split. apply: eq_bigr => row _. rewrite -!sumrN -!big_split. apply: eq_bigr => col _. rewrite -!sumrN -!big_split. apply: eq_bigr => j _. rewrite -!sumrN -!big_split. by []. }
  have EA : - (\sum_(row < nz) \sum_(col < nc) \sum_(j < ns) \sum_(i < ns) A row col j i) = \sum_(e < nz) \sum_(i < ns) (dx3 / 2 * ws`_i * (f1 ((0 + e) * ns + i)%N c0 0%N - f1 ((0 + e) * ns + i)%N (c0 + nc.-1)%N 1%N))%re.
  { rewrite -sumrN. apply: eq_bigr => row _. rewrite exchange_big -sumrN. apply: eq_bigr => j _. rewrite add0n.
    have T := slope_total (F1 (row * ns + j)%N) Hc H1 (C1 (row * ns + j)%N).
    under eq_bigr => col _ do rewrite -mulr_sumr. rewrite -mulr_sumr T.
    change ((- (dx3 / 2 * ws`_j * (f1 (row * ns + j)%N (c0 + nc.-1)%N 1%N - f1 (row * ns + j)%N c0 0%N)) = dx3 / 2 * ws`_j * (f1 (row * ns + j)%N c0 0%N - f1 (row * ns + j)%N (c0 + nc.-1)%N 1%N))%re). ring. }
  have EB : - (\sum_(row < nz) \sum_(col < nc) \sum_(j < ns) \sum_(i < ns) B row col j i) = \sum_(e < nc) \sum_(i < ns) (dx1 / 2 * ws`_i * (f3 ((c0 + e) * ns + i)%N 0%N 0%N - f3 ((c0 + e) * ns + i)%N nz.-1 1%N))%re.
  { rewrite exchange_big -sumrN. apply: eq_bigr => col _. under eq_bigr => row _ do rewrite exchange_big. rewrite exchange_big -sumrN. apply: eq_bigr => i _.
    have T := @slope_total 0 nz dx3 (F3 ((c0 + col) * ns + i)%N) (f3 ((c0 + col) * ns + i)%N) Hz H3 (C3 ((c0 + col) * ns + i)%N).
    under eq_bigr => row _ do rewrite -mulr_sumr. rewrite -mulr_sumr T add0n.
    change ((- (dx1 / 2 * ws`_i * (f3 ((c0 + col) * ns + i)%N nz.-1 1%N - f3 ((c0 + col) * ns + i)%N 0%N 0%N)) = dx1 / 2 * ws`_i * (f3 ((c0 + col) * ns + i)%N 0%N 0%N - f3 ((c0 + col) * ns + i)%N nz.-1 1%N))%re). ring. }
  by rewrite EA EB.
Qed.
Lemma region_ext c0 nc nz dx1 dx3 (f g : nat -> nat -> R) : (forall z x, f z x = g z x) -> region_integral c0 nc nz ws dx1 dx3 f = region_integral c0 nc nz ws dx1 dx3 g.
Proof. move=> H. rewrite /region_integral. apply: eq_bigr => row _. apply: eq_bigr => col _. apply: eq_bigr => j _. apply: eq_bigr => i _. by rewrite H. Qed.
Lemma line_ext c0 n dx (f g : nat -> R) : (forall x, f x = g x) -> line_integral c0 n ws dx f = line_integral c0 n ws dx g.
Proof. move=> H. rewrite /line_integral. apply: eq_bigr => e _. apply: eq_bigr => i _. by rewrite H. Qed.
Lemma line_zero c0 n dx : line_integral c0 n ws dx (fun _ => 0 - 0)%re = 0%re.
Proof. rewrite /line_integral. apply: big1 => e _. apply: big1 => i _. set w := ws`_i. change ((dx / 2 * w * (0 - 0) = 0)%re). ring. Qed.
Lemma region_zero c0 nc nz dx1 dx3 : region_integral c0 nc nz ws dx1 dx3 (fun _ _ => 0%re) = 0%re.
Proof. rewrite /region_integral. apply: big1 => row _. apply: big1 => col _. apply: big1 => j _. apply: big1 => i _. exact: Rmult_0_r. Qed.
End Total.
