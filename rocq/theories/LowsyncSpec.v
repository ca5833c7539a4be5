(** What is expected of the basis of a Krylov space. Nothing here refers to the model *)
From Coq Require Import Reals List Arith.
From Coquelicot Require Import Hierarchy.
From Verif Require Import PmexSpec.
Import ListNotations.
Local Open Scope R_scope.

Section Arnoldi.
Context {W : ModuleSpace R_Ring}.
(** the Arnoldi decomposition of [op] with start x and m steps: x = b V_0, the vectors V_0 ... V_m are orthonormal, op V_k = sum of H_ik V_i with a matrix that is zero below the subdiagonal and positive on it *)
Definition decomposition (product : W -> W -> R) (op : W -> W) (x : W) (m : nat) (b : R) (V : nat -> W) (H : nat -> nat -> R) : Prop :=
  0 < b /\ scal (V := W) b (V 0%nat) = x /\
  (forall i k, (i <= m)%nat -> (k <= m)%nat -> product (V i) (V k) = if Nat.eqb i k then 1 else 0) /\
  (forall k, (k < m)%nat -> op (V k) = vec_sum (k + 2) (fun i => scal (V := W) (H i k) (V i))) /\
  (forall k, (k < m)%nat -> 0 < H (k + 1)%nat k) /\
  (forall i k, (k + 1 < i)%nat -> (i <= m)%nat -> H i k = 0).
(** the last product up to a remainder: op V_(h - 1) = sum of H_i(h - 1) V_i + r with r orthogonal to the vectors *)
Definition remainder (product : W -> W -> R) (op : W -> W) (h : nat) (V : nat -> W) (H : nat -> nat -> R) (r : W) : Prop :=
  op (V (h - 1)%nat) = plus (vec_sum h (fun i => scal (V := W) (H i (h - 1)%nat) (V i))) r /\ (forall i, (i < h)%nat -> product r (V i) = 0).
End Arnoldi.
(** the sizes that a substep goes through: they grow until the largest size is reached, and then stay *)
Fixpoint growing (mmax j : nat) (ms : list nat) : Prop :=
  match ms with [] => True | m :: ms => ((j < m <= mmax)%nat \/ (j = mmax /\ m = mmax /\ j <> 0%nat)) /\ growing mmax m ms end.
(** the largest of them *)
Definition largest (ms : list nat) : nat := last ms 0%nat.
(** a matrix with ones on its diagonal and zeros above *)
Definition unit_lower (T : nat -> nat -> R) : Prop := forall i k, (i <= k)%nat -> T i k = if Nat.eqb i k then 1 else 0.
(** zeros on and below the diagonal *)
Definition strictly_upper (N : nat -> nat -> R) : Prop := forall i k, (k <= i)%nat -> N i k = 0.
(** the modified Gram-Schmidt process: the vectors are taken off one after the other, each with the coefficient of what is left *)
Fixpoint swept {W : ModuleSpace R_Ring} (product : W -> W -> R) (V : nat -> W) (w : W) (i : nat) : W :=
  match i with O => w | S i => let x := swept product V w i in plus x (opp (scal (V := W) (product (V i) x) (V i))) end.
Definition sweep {W : ModuleSpace R_Ring} (product : W -> W -> R) (V : nat -> W) (w : W) (i : nat) : R := product (V i) (swept product V w i).
