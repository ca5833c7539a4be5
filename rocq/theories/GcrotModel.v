(** The GCROT(m, k) solver. Models wx_factory/solvers/gcrot.py with exact reals; a vector space V and the scalar product [dot] stand for numpy arrays and v @ w.
    scipy's qr, qr_insert, lstsq and svd are not modelled: what they return is an argument, and the theorems state what they assume of it. *)
From Coq Require Import Reals List Bool.
From Coquelicot Require Import Hierarchy.
From Verif Require Import InnerSpec.
Import ListNotations.
Local Open Scope R_scope.

Section Gcrot.
Context {V : ModuleSpace R_Ring}.
Variable dot : V -> V -> R.
Variable A : V -> V.          (* A.matvec *)
Variable M : V -> V.          (* M.matvec, or the identity when M is None, lines 12-13 and 150-153 *)
Let nrm := norm dot.
Let axpy (x : V) (a : R) (y : V) : V := plus x (scal (V := V) a y).

(** lines 60-63 and 67-70: orthogonalise w against the vectors in turn; the coefficients and what is left of w *)
Fixpoint against (qs : list V) (w : V) : list R * V :=
  match qs with
  | [] => ([], w)
  | q :: qs => let a := dot q w in let (c, w1) := against qs (axpy w (- a) q) in (a :: c, w1)
  end.

(** vs, zs, and the columns of B and H = Q R, lines 15-32 *)
Record krylov := Krylov { vs : list V; zs : list V; cols_b : list (list R); cols_h : list (list R) }.
(** one pass of the loop of lines 36-99 (outer_v is always empty). 1/0 is not finite, so a vanishing w is not scaled (lines 73-78) *)
Definition arnoldi (cs : list V) (s : krylov) : krylov :=
  let z := M (last (vs s) zero) in
  let (b, w1) := against cs (A z) in
  let (h, w2) := against (vs s) w1 in
  let n := nrm w2 in
  let w3 := if Req_EM_T n 0 then w2 else scal (V := V) (1 / n) w2 in
  Krylov (vs s ++ [w3]) (zs s ++ [z]) (cols_b s ++ [b]) (cols_h s ++ [h ++ [n]]).
(** lines 8-126; [n] is the number of passes until line 109 breaks the loop or m is reached *)
Definition fgmres (v0 : V) (n : nat) (cs : list V) : krylov := Nat.iter n (arnoldi cs) (Krylov [v0] [] [] []).

(** sums of coefficient vectors, the shorter one padded with zeros *)
Fixpoint add_pad (a b : list R) : list R := match a, b with x :: a, y :: b => (x + y) :: add_pad a b | [], b => b | a, [] => a end.
Fixpoint times_cols (cols : list (list R)) (y : list R) : list R := match cols, y with c :: cols, v :: y => add_pad (map (Rmult v) c) (times_cols cols y) | _, _ => [] end.

(** a recycled pair (c, u); c is None for a pair whose product is not known *)
Definition pair := (option V * V)%type.
(** lines 177-193: pairs without c come first (list.sort is stable and False < True), c is computed *)
Definition known (p : pair) : bool := match fst p with Some _ => true | None => false end.
Definition fill (p : pair) : V * V := (match fst p with Some c => c | None => A (snd p) end, snd p).
Definition filled (CU : list pair) : list (V * V) := map fill (filter (fun p => negb (known p)) CU ++ filter known CU).

(** lines 195-215. The result of scipy's pivoted QR: the columns of Q, the entries of R and the permutation P.
    u is the array us[P[j]] itself, changed in place, so that the earlier vectors used in line 207 are the new ones. [rank] is the number of passes before line 208 breaks the loop *)
Record qr_result := Qr { q_cols : list V; r_entry : nat -> nat -> R; perm : nat -> nat }.
Fixpoint new_us (us : list V) (qr : qr_result) (n : nat) : list V :=
  match n with
  | O => []
  | S j => let done := new_us us qr j in
      let u := axpy (nth (perm qr j) us zero) (-1) (combination (map (fun i => r_entry qr i j) (seq 0 j)) done) in
      done ++ [scal (V := V) (/ r_entry qr j j) u]
  end.
Definition reorthogonalised (us : list V) (qr : qr_result) (rank : nat) : list (V * V) := rev (combine (q_cols qr) (new_us us qr rank)).

(** lines 217-230 *)
Definition project (xr : V * V) (cu : V * V) : V * V := let (x, r) := xr in let (c, u) := cu in let yc := dot c r in (axpy x yc u, axpy r (- yc) c).

(** lines 310-313 *)
Fixpoint oldest (k : nat) (CU : list (V * V)) : list (V * V) := match CU with [] => [] | p :: l => if Nat.leb k (length CU) then oldest k l else CU end.
(** lines 314-342: the columns w of W[:, :k-1]; each is combined, orthogonalised against the new pairs and normalised *)
Definition combined (CU : list (V * V)) (w : list R) : V * V := (combination w (map fst CU), combination w (map snd CU)).
Definition ortho_pair (p q : V * V) : V * V := let a := dot (fst q) (fst p) in (axpy (fst p) (- a) (fst q), axpy (snd p) (- a) (snd q)).
Definition normal_pair (p : V * V) : V * V := let a := nrm (fst p) in (scal (V := V) (/ a) (fst p), scal (V := V) (/ a) (snd p)).
Definition smallest (k : nat) (W : list (list R)) (CU : list (V * V)) : list (V * V) :=
  if (Nat.leb k (length CU) && negb (Nat.eqb (length CU) 0))%bool then fold_left (fun acc w => acc ++ [normal_pair (fold_left ortho_pair acc (combined CU w))]) W [] else CU.

Inductive truncation := Oldest | Smallest.
(** what one pass of the main loop learns: the number of inner iterations, y from lstsq (times beta, line 254), the columns of W[:, :k-1], where W has one row for each recycled pair *)
Record inner := Inner { passes : nat; y : list R; W : nat -> list (list R) }.
Record state := State { x : V; r : V; CU : list (V * V); niter : nat }.

(** lines 249-345 *)
Definition update (k : nat) (tr : truncation) (s : state) (i : inner) : state :=
  let beta := nrm (r s) in
  let K := fgmres (scal (V := V) (/ beta) (r s)) (passes i) (map fst (CU s)) in
  let ux := axpy (combination (y i) (zs K)) (-1) (combination (times_cols (cols_b K) (y i)) (map snd (CU s))) in
  let cx := combination (times_cols (cols_h K) (y i)) (vs K) in
  let n := nrm cx in
  let it := (niter s + passes i)%nat in
  if Req_EM_T n 0 then State (x s) (r s) (CU s) it
  else
    let cx := scal (V := V) (1 / n) cx in
    let ux := scal (V := V) (1 / n) ux in
    let gamma := dot cx (r s) in
    let kept := match tr with Oldest => oldest k (CU s) | Smallest => smallest k (W i (length (CU s))) (CU s) end in
    State (axpy (x s) gamma ux) (axpy (r s) (- gamma) cx) (kept ++ [(cx, ux)]) it.

(** the main loop, lines 233-345: the state, the last beta (None: the loop did not run, and beta is unbound at line 354), and whether line 247 was reached. [first] tells whether j_outer is 0 *)
Fixpoint main_loop (b : V) (tol : R) (k : nat) (tr : truncation) (first : bool) (is : list inner) (beta0 : option R) (s : state) : state * option R * bool :=
  match is with
  | [] => (s, beta0, false)
  | i :: is =>
    let beta_tol := tol * nrm b in
    let recompute := (if Rle_dec (nrm (r s)) beta_tol then true else false) && (negb first || negb (Nat.eqb (length (CU s)) 0)) in
    let s := if recompute then State (x s) (plus b (opp (A (x s)))) (CU s) (niter s) else s in
    let beta := nrm (r s) in
    if Rle_dec beta beta_tol then (s, Some beta, true)
    else main_loop b tol k tr false is (Some beta) (update k tr s i)
  end.

(** what gcrot returns, and the recycled pairs left for the next call; the last element of the tuple, always 0, is left out *)
Record result := Result { solution : V; residual : R; iterations : nat; flag : nat; recycled : list pair }.
(** lines 129-354. x0 is None or a vector; [pairs] is gcrot.CU; [is] has one element for every pass of the main loop, at most maxiter. With CU empty the QR is not used *)
Definition gcrot (b : V) (x0 : option V) (tol : R) (k : nat) (tr : truncation) (discard_C : bool) (pairs : list pair) (qr : qr_result) (rank : nat) (is : list inner) : option result :=
  if Req_EM_T (nrm b) 0 then Some (Result b 0 0 0 pairs)
  else
    let x1 := match x0 with None => zero | Some v => v end in
    let r1 := match x0 with None => b | Some v => plus b (opp (A v)) end in
    let forget (l : list pair) : list pair := if discard_C then map (fun p => (None, snd p)) l else l in
    let CU1 := match pairs with [] => [] | _ => reorthogonalised (map snd (filled (forget pairs))) qr rank end in
    let (x2, r2) := fold_left project CU1 (x1, r1) in
    match main_loop b tol k tr true is None (State x2 r2 CU1 0) with
    | (s, Some beta, _) => Some (Result (x s) beta (niter s) 0 (forget (map (fun p => (Some (fst p), snd p)) (CU s) ++ [(None, x s)])))
    | (_, None, _) => None
    end.
End Gcrot.
