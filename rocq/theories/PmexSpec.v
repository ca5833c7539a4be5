(** What is expected of a Krylov approximation of an exponential. Nothing here refers to the model *)
From Coq Require Import Reals Arith.
From Coquelicot Require Import Coquelicot.
Local Open Scope R_scope.

(** sums over range(n) *)
Fixpoint sum_to (n : nat) (f : nat -> R) : R := match n with O => 0 | S n => sum_to n f + f n end.
Fixpoint vec_sum {V : ModuleSpace R_Ring} (n : nat) (f : nat -> V) : V := match n with O => zero | S n => plus (vec_sum n f) (f n) end.
(** the powers of a matrix with n rows and columns *)
Fixpoint mat_pow (n : nat) (H : nat -> nat -> R) (k : nat) : nat -> nat -> R :=
  match k with O => fun i l => if Nat.eqb i l then 1 else 0 | S k => fun i l => sum_to n (fun q => H i q * mat_pow n H k q l) end.
(** F is the exponential of H: every entry is the sum of its series *)
Definition is_expm (n : nat) (H F : nat -> nat -> R) : Prop := forall i l, (i < n)%nat -> (l < n)%nat -> is_series (fun k => / INR (Factorial.fact k) * mat_pow n H k i l) (F i l).
(** F is the first column of the exponential of H *)
Definition exp_column (n : nat) (H : nat -> nat -> R) (F : nat -> R) : Prop := forall i, (i < n)%nat -> is_series (fun k => / INR (Factorial.fact k) * mat_pow n H k i 0) (F i).
(** The vectors V and the matrix H reproduce the first [d] powers of the operator on x: p(A) x = sum of b p(H)[i, 0] V[i] for all polynomials p of degree below d *)
Definition reproduces {W : ModuleSpace R_Ring} (A : W -> W) (x : W) (d : nat) (b : R) (n : nat) (H : nat -> nat -> R) (h : nat) (V : nat -> W) : Prop :=
  forall k, (k < d)%nat -> vec_sum h (fun i => scal (V := W) (b * mat_pow n H k i 0) (V i)) = Nat.iter k A x.
