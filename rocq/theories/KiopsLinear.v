(** The linear algebra of wx_factory/solvers/kiops.py; the control is that of KiopsModel. Numbers are exact reals, scipy's expm is a parameter, None stands for an exception.
    The rows of V, the augmented product and the first row are written as in pmex.py and are those of PmexModel. task1 is False. *)
From Coq Require Import Reals ZArith List Bool Arith.
From Coquelicot Require Import Hierarchy.
From Verif Require Import FgmresModel KiopsModel PmexModel.
Import ListNotations.
Local Open Scope R_scope.

Section Kiops.
Context {X : ModuleSpace R_Ring}.
Notation row := (@row X).
Variable dot : X -> X -> R.
Variable A : X -> X.
Variable u : nat -> X.          (* the rows of u *)
Variable p : nat.               (* the number of rows after the first, at least 1 *)
Variable ex : Z.                (* lines 119-125: nu = 2 ** (-ex), mu = 2 ** ex *)
Variable iop : nat.             (* the number of basis vectors to orthogonalise against, line 18 *)
Variable expm : nat -> (nat -> nat -> R) -> nat -> nat -> R.   (* expm of a matrix with n rows and columns *)

(** the arrays V and H (lines 89-90), and beta *)
Record basis := Basis { bv : nat -> row; bh : nat -> nat -> R; bb : R }.
(** lines 89-90 *)
Definition basis0 : basis := Basis (fun _ => zero) (fun _ _ => 0) 0.
(** lines 155-173. H is kept *)
Definition k_first (K : basis) (x : X) (now : R) : basis :=
  let v := start_row p ex x now in
  let b := sqrt (adot dot p v v) in
  Basis (set1 (bv K) 0 (scal (V := row) (/ b) v)) (bh K) b.
(** lines 181-209 for the incremented j; true: breakdown, after which H[j, j - 1] is not set and V[j] not divided *)
Definition k_orth (tolerance : R) (K : basis) (j : nat) : basis * bool :=
  let v1 := set1 (bv K) j (augmented_product A u p ex (bv K (j - 1)%nat)) in
  let ilow := (j - iop)%nat in
  let H1 i k := if (Nat.eqb k (j - 1) && Nat.leb ilow i && Nat.ltb i j)%bool then adot dot p (v1 i) (v1 j) else bh K i k in
  let v := plus (v1 j) (opp (vsum (j - ilow) (fun i => scal (V := row) (H1 (ilow + i)%nat (j - 1)%nat) (v1 (ilow + i)%nat)))) in
  let nrm := sqrt (adot dot p v v) in
  if Rlt_dec nrm tolerance then (Basis (set1 v1 j v) H1 (bb K), true)
  else (Basis (set1 v1 j (scal (V := row) (/ nrm) v)) (fun i k => if (Nat.eqb i j && Nat.eqb k (j - 1))%bool then nrm else H1 i k) (bb K), false).
(** the loop of line 176; [rest] is m - j *)
Fixpoint k_orths (tolerance : R) (rest : nat) (K : basis) (j : nat) : basis * nat * bool :=
  match rest with
  | O => (K, j, false)
  | S rest => let (K1, happy) := k_orth tolerance K (S j) in if happy then (K1, S j, true) else k_orths tolerance rest K1 (S j)
  end.
(** beta * F[:j, 0] @ V[:j, :n], lines 311 and 317 *)
Definition k_combine (K : basis) (h : nat) (F : nat -> nat -> R) : X := vsum h (fun i => scal (V := X) (bb K * F i 0%nat) (fst (bv K i))).

Record kstate := KState { kctl : state; kbs : basis; kw : nat -> X }.
(** the basis used by a pass: lines 155-211; the arrays, j and happy *)
Definition k_basis (a : args) (f : kstate) : basis * nat * bool :=
  let s := kctl f in
  let K0 := if (j s =? 0)%Z then k_first (kbs f) (kw f (l s)) (tau_now s) else kbs f in
  k_orths (tol a) (Z.to_nat (m s - j s)) K0 (Z.to_nat (j s)).
(** one pass of the loop, lines 152-338. The entry set in line 214 stays after an accepted substep (line 332 is only reached otherwise) *)
Definition k_pass (a : args) (f : kstate) : option kstate :=
  let s := kctl f in
  let '(K, h, happy) := k_basis a f in
  let F := expm (S h) (fun i k => sgn a * tau s * with_phi (bh K) h i k) in
  let nrm := bh K h (h - 1)%nat in
  match pass a s (Probe (if happy then Some (Z.of_nat h) else None) (bb K * nrm * F (h - 1)%nat h)) with
  | None => None
  | Some s' =>
    let accepted := Nat.ltb (step s) (step s') in
    let K' := Basis (bv K) (fun i k => if Nat.eqb i 0 && Nat.eqb k h then if accepted then 1 else 0 else bh K i k) (bb K) in
    if accepted then
      let b := blown a s in
      Some (KState s' K' (fun k =>
        if Nat.eqb k (l s + b) then k_combine K h F
        else if (Nat.leb (l s) k && Nat.ltb k (l s + b))%bool then k_combine K h (expm h (fun i q => sgn a * (nth k (tau_out a) 0 - tau_now s) * bh K i q))
        else kw f k))
    else Some (KState s' K' (kw f))
  end.
(** lines 86-109, 131, 150: the state before the loop *)
Definition k_start (a : args) : kstate := KState (start a) basis0 (fun k => match k with O => u 0%nat | _ => zero end).
(** at most [n] passes *)
Fixpoint k_run (a : args) (n : nat) (f : kstate) : option kstate :=
  match n with
  | O => Some f
  | S n => if Rlt_dec (tau_now (kctl f)) (tau_end a) then match k_pass a f with None => None | Some f' => k_run a n f' end else Some f
  end.
End Kiops.
