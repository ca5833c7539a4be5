(** What the theorems on GCROT assume of scipy's factorisations, and the vocabulary of their conclusions *)
From Coq Require Import Reals List.
From Coquelicot Require Import Hierarchy.
From Verif Require Import InnerSpec GcrotModel.
Import ListNotations.
Local Open Scope R_scope.

(** scalar products of coefficient vectors *)
Fixpoint rdot (a b : list R) : R := match a, b with x :: a, y :: b => x * y + rdot a b | _, _ => 0 end.
Definition orthonormal_columns (n : nat) (W : list (list R)) : Prop :=
  (forall w, In w W -> length w = n) /\ (forall i j, (i < length W)%nat -> (j < length W)%nat -> rdot (nth i W []) (nth j W []) = if Nat.eqb i j then 1 else 0).
(** the singular vectors W used by the truncation 'smallest' are orthonormal, with one entry for each recycled pair; nothing is assumed of the inner solver or of lstsq *)
Definition good_inner (tr : truncation) (i : inner) : Prop := match tr with Oldest => True | Smallest => forall n, orthonormal_columns n (W i n) end.


Section Spec.
Context {V : ModuleSpace R_Ring}.
Variable dot : V -> V -> R.
Variable A : V -> V.
(** what scipy's QR with pivoting returns for the columns cs *)
Definition pivoted_qr (cs : list V) (qr : qr_result) (rank : nat) : Prop :=
  orthonormal dot (q_cols qr) /\ (rank <= length (q_cols qr))%nat /\
  forall j, (j < rank)%nat -> r_entry qr j j <> 0 /\ nth (perm qr j) cs zero = combination (map (fun i => r_entry qr i j) (seq 0 (S j))) (q_cols qr).

(** pairs left by an earlier solve with the same A *)
Definition known_products (pairs : list pair) : Prop := forall c u, In (Some c, u) pairs -> c = A u.
(** gcrot.CU with the products dropped when discard_C is set *)
Definition forgotten (discard_C : bool) (l : list (pair (V := V))) : list pair := if discard_C then map (fun p => (None, snd p)) l else l.
(** the residual of the initial guess, and that of a vector *)
Definition initial (b : V) (x0 : option V) : V := match x0 with None => b | Some v => plus b (opp (A v)) end.

Definition true_residual (b x : V) : R := norm dot (plus b (opp (A x))).
End Spec.
