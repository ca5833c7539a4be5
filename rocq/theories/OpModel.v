(** Polynomial operators of an element: wx_factory/geometry/operators.py, over an arbitrary field (numbers are exact; the code computes some of them with 20 to 34 digits and rounds to doubles).
    A matrix is its entries, indexed by naturals; its dimensions are given where they matter. *)
From mathcomp Require Import all_ssreflect all_algebra.
Set Implicit Arguments.
Unset Strict Implicit.
Unset Printing Implicit Defensive.
Import GRing.Theory.
Local Open Scope ring_scope.

(** ** row_reduce and inv: 868-925 *)
Section Reduce.
Variable F : fieldType.
Section Shape.
Variables (m n : nat).
Implicit Type A : 'M[F]_(m, n).
(** first row at or below p with a non-zero entry in column j: numpy.nonzero(A_rre[p:, j])[0], 907-910 *)
Definition pivot_row A (p : nat) (j : 'I_n) : option 'I_m := ohead [seq i : 'I_m <- enum 'I_m | (p <= i)%N && (A i j != 0)].
(** one pass of the loop for column j with a pivot at row i, moved to row p: 912-921 *)
Definition reduce_pivot A (p i : 'I_m) (j : 'I_n) : 'M[F]_(m, n) :=
  let S := xrow p i A in
  let D := \matrix_(r, c) (if r == p then S r c / S p j else S r c) in
  \matrix_(r, c) (if (r != p) && (D r j != 0) then D r c - D r j * D p c else D r c).
(** 906-925. [js]: the columns that remain; p: the pivot *)
Fixpoint reduce_cols (js : seq 'I_n) (p : nat) A : 'M[F]_(m, n) :=
  match js with
  | [::] => A
  | j :: js' =>
      match insub p, pivot_row A p j with
      | Some p', Some i => let A' := reduce_pivot A p' i j in if (p.+1 == m)%N then A' else reduce_cols js' p.+1 A'
      | _, _ => reduce_cols js' p A
      end
  end.
Definition row_reduce A (ncols : nat) : 'M[F]_(m, n) := reduce_cols [seq j : 'I_n <- enum 'I_n | (j < ncols)%N] 0 A.
End Shape.
(** 868-891: [None] is the error for matrices that are not of full rank *)
Definition inv (n : nat) (A : 'M[F]_n) : option 'M[F]_n :=
  let AI := row_mx A 1%:M in
  let AI_rre := row_reduce AI n in
  let rank := count (fun i => ~~ [forall j, lsubmx AI_rre i j == 0]) (enum 'I_n) in
  if (rank == n)%N then Some (rsubmx AI_rre) else None.
End Reduce.

(** ** Lagrange polynomials *)
Section Lagrange.
Variable F : fieldType.
Implicit Types (xi : seq F) (x : F) (i j n : nat).
(** 742-746 *)
Definition lagrange_poly n i xi : {poly F} := \prod_(j <- [seq j <- iota 0 n | j != i]) (('X - (xi`_j)%:P) * ((xi`_i - xi`_j)^-1)%:P).
(** 713-723 *)
Definition lagrange_eval xi x : seq F :=
  let M := size xi in if (M == 1)%N then [:: 1] else [seq (lagrange_poly M i xi).[x] | i <- iota 0 M].
(** 726-739: row j, column i *)
Definition diffmat xi j i : F := ((lagrange_poly (size xi) i xi)^`()).[xi`_j].

(** ** Legendre polynomials *)
(** legvander, 928-943: entry k of the row of the point x *)
Fixpoint legpair x k : F * F :=
  match k with
  | 0%N => (1, x)
  | k'.+1 => let (v2, v1) := legpair x k' in let i := k'.+2 in (v1, (v1 * x * (2 * i - 1)%:R - v2 * (i - 1)%:R) / i%:R)
  end.
Definition legval x k : F := (legpair x k).1.
Definition legvander xi (n : nat) : 'M[F]_(size xi, n) := \matrix_(i, k) legval xi`_i k.

(** products of matrices with nat indices: m inner columns *)
Definition mmul (m : nat) (A B : nat -> nat -> F) i j : F := \sum_(k < m) A i k * B k j.
(** ** DFROperators.__init__, 33-207. [pts]: the solution points. xp.linalg.inv is modelled by the exact inverse *)
Definition vander pts : 'M[F]_(size pts) := legvander pts (size pts).
(** 65-66 *)
Definition extrap pts (x : F) : 'rV[F]_(size pts) := (\row_k legval x k) *m invmx (vander pts).
(** 75-79 *)
Definition feye (n : nat) : 'M[F]_n := \matrix_(i, j) (if (i == j) && (i.+1 != n) then 1 else 0).
Definition highfilter pts : 'M[F]_(size pts) := vander pts *m (feye (size pts) *m invmx (vander pts)).
(** 86: points with the two ends of the element (geometry.py 31-34); 100: without filter *)
Definition extension pts : seq F := -1 :: pts ++ [:: 1].
Definition diff_ext pts : nat -> nat -> F := diffmat (extension pts).
(** 141-142: diff_ext[1:-1, 1:-1], and the columns of the two ends *)
Definition diff_solpt pts i j : F := diff_ext pts i.+1 j.+1.
Definition correction_neg pts i : F := diff_ext pts i.+1 0.
Definition correction_pos pts i : F := diff_ext pts i.+1 (size pts).+1.

(** entries of a matrix by natural indices, as the tensor products below read them *)
Definition entries m n (M : 'M[F]_(m, n)) (i j : nat) : F := if (insub i, insub j) is (Some i', Some j') then M i' j' else 0.
(** extrap_west = extrap_south = extrap_down and extrap_east = extrap_north = extrap_up, 65-73 *)
Definition extrap_neg pts : nat -> F := entries (extrap pts (-1)) 0.
Definition extrap_pos pts : nat -> F := entries (extrap pts 1) 0.
(** numpy: kron with B of dimensions p x q; one-dimensional arrays are rows; vstack with A of p rows *)
Definition kron p q (A B : nat -> nat -> F) i j : F := A (i %/ p)%N (j %/ q)%N * B (i %% p)%N (j %% q)%N.
Definition eye i j : F := if i == j then 1 else 0.
Definition as_row (v : nat -> F) (i j : nat) : F := v j.
Definition vstack p (A B : nat -> nat -> F) i j : F := if (i < p)%N then A i j else B (i - p)%N j.
Definition tr (A : nat -> nat -> F) i j : F := A j i.
Section Tensor.
Variables (ns : nat) (neg pos : nat -> F) (D : nat -> nat -> F).
(** 153-165 (three dimensions); neg and pos: extrap_west = extrap_south = extrap_down and extrap_east = extrap_north = extrap_up; D: diff_solpt *)
Definition extrap_x_3d := tr (vstack (ns ^ 2) (kron 1 ns eye (as_row neg)) (kron 1 ns eye (as_row pos))).
Definition extrap_y_3d := tr (vstack (ns ^ 2) (kron ns (ns * ns) eye (kron ns ns (as_row neg) eye)) (kron ns (ns * ns) eye (kron ns ns (as_row pos) eye))).
Definition extrap_z_3d := tr (vstack (ns ^ 2) (kron (ns ^ 2) (ns ^ 2) (as_row neg) eye) (kron (ns ^ 2) (ns ^ 2) (as_row pos) eye)).
Definition derivative_x_3d := tr (kron ns ns eye D).
Definition derivative_y_3d := tr (kron (ns * ns) (ns * ns) eye (kron ns ns D eye)).
Definition derivative_z_3d := tr (kron (ns ^ 2) (ns ^ 2) D eye).
(** 170-179; neg and pos: corr_west and corr_east *)
Definition correction_WE_3d := vstack (ns ^ 2) (kron 1 ns eye (as_row neg)) (kron 1 ns eye (as_row pos)).
Definition correction_SN_3d := vstack (ns ^ 2) (kron ns (ns * ns) eye (kron ns ns (as_row neg) eye)) (kron ns (ns * ns) eye (kron ns ns (as_row pos) eye)).
Definition correction_DU_3d := vstack (ns ^ 2) (kron (ns ^ 2) (ns ^ 2) (as_row neg) eye) (kron (ns ^ 2) (ns ^ 2) (as_row pos) eye).
(** 187-205 (two dimensions); y and z have the same operators *)
Definition extrap_x_2d := tr (vstack ns (kron 1 ns eye (as_row neg)) (kron 1 ns eye (as_row pos))).
Definition extrap_y_2d := tr (vstack ns (kron ns ns (as_row neg) eye) (kron ns ns (as_row pos) eye)).
Definition derivative_x_2d := tr (kron ns ns eye D).
Definition derivative_y_2d := tr (kron ns ns D eye).
Definition correction_WE_2d := vstack ns (kron 1 ns eye (as_row neg)) (kron 1 ns eye (as_row pos)).
Definition correction_SN_2d := vstack ns (kron ns ns (as_row neg) eye) (kron ns ns (as_row pos) eye).
(** 80: highfilter_k; D: highfilter *)
Definition highfilter_k := kron (ns ^ 2) (ns ^ 2) (tr D) eye.
(** 113-118: expfilter_new; D: expfilter *)
Definition expfilter_new := mmul (ns ^ 3) (mmul (ns ^ 3) (tr (kron ns ns eye D)) (tr (kron (ns * ns) (ns * ns) eye (kron ns ns D eye)))) (tr (kron (ns ^ 2) (ns ^ 2) D eye)).
(** field @ operator, for a field of m values per element *)
Definition apply_op m (f : nat -> F) (M : nat -> nat -> F) j : F := \sum_(k < m) f k * M k j.
End Tensor.
(** check_skewcentrosymmetry, 836-863, for a square matrix of size n *)
Definition check_skewcentrosymmetry n (A : nat -> nat -> F) : bool :=
  let middle_row := if (n %% 2 == 0)%N then (n %/ 2)%N else (n %/ 2).+1 in
  if (n %% 2 != 0)%N && (A middle_row.-1 middle_row.-1 != 0) then false
  else all (fun i => all (fun j => A i j == - A (n - i - 1)%N (n - j - 1)%N) (iota 0 n)) (iota 0 middle_row).
(** ** Filters *)
(** sympy.legendre(j, y), used by vandermonde (760-770), which gives the same values as legvander *)
(** remesh_operator, 773-787. The loop variable i keeps its last value min - 1 after the loop *)
Definition remesh_modes (nt nsrc : nat) : 'M[F]_(nt, nsrc) :=
  let last := (minn nsrc nt).-1 in
  \matrix_(i, j) (if (i == last :> nat) && (j == last :> nat) then 2%:R^-1 else if (i == j :> nat) then 1 else 0).
Definition remesh_operator src target : 'M[F]_(size target, size src) :=
  legvander target (size target) *m remesh_modes (size target) (size src) *m invmx (vander src).
(** filter_exponential, 790-833, and make_filter, 209-232: sigma k is the factor of the mode k *)
Definition modal_filter pts (sigma : nat -> F) : 'M[F]_(size pts) := vander pts *m diag_mx (\row_k sigma k) *m invmx (vander pts).
(** 89-97: the differentiation matrix with a filter. The entries below 1e-20 that are set to zero are not modelled *)
Definition diff_filtered xi (sigma : nat -> F) : 'M[F]_(size xi) := modal_filter xi sigma *m (\matrix_(j, i) diffmat xi j i).
Section Factors.
Variable expo : F -> F.
(** 827-829. N - Nc = 0 gives sympy.nan, not modelled (division by zero is 0 here) *)
Definition sigma_exponential (alpha : F) (N Nc s i : nat) : F :=
  if (Nc <= i)%N then expo (- alpha * ((i - Nc)%:R / (N - Nc)%:R) ^+ s) else 1.
End Factors.
End Lagrange.
Section Order.
Variable F : realFieldType.
(** 214-221 *)
Definition sigma_make_filter (expo : F -> F) (alpha cutoff : F) (order n k : nat) : F :=
  let mode := k%:R / (n - 1)%:R in if cutoff < mode then expo (- alpha * ((mode - cutoff) / (1 - cutoff)) ^+ order) else 1.
(** common/interpolation.py 56-78. [f] points: the loop *)
Fixpoint find_interval (points : seq F) (x : F) (fuel ix : nat) : nat :=
  match fuel with
  | 0%N => ix
  | fuel'.+1 => if points`_ix.+1 < x then (if (size points <= ix + 2)%N then ix else find_interval points x fuel' ix.+1) else ix
  end.
Definition get_linear_weights (points : seq F) (x : F) : option (seq F) :=
  if (size points == 1)%N then Some [:: 1]
  else if (size points == 0)%N then None
  else
    let ix := find_interval points x (size points) 0 in
    let x_small := points`_ix in let x_large := points`_ix.+1 in
    let alpha := 1 - (x - x_small) / (x_large - x_small) in
    Some (mkseq (fun k => if k == ix then alpha else if k == ix.+1 then 1 - alpha else 0) (size points)).
End Order.
