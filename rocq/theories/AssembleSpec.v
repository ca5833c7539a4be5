(** Vocabulary of the properties of the assembled matrices: linear operators on distributed vectors, products, unit vectors; matrix sets that can be stored. *)
From Coq Require Import Reals ZArith String List Arith.
From Verif Require Import AssembleModel.
Import ListNotations.
Local Open Scope R_scope.

(** a vector in P parts of n numbers *)
Definition shaped (P n : nat) (x : list (list R)) : Prop := length x = P /\ Forall (fun v => length v = n) x.
Definition sum_vectors (x y : list (list R)) : list (list R) := map (fun p => map (fun q => fst q + snd q) (combine (fst p) (snd p))) (combine x y).
Definition multiple (a : R) (x : list (list R)) : list (list R) := map (map (Rmult a)) x.
Definition keeps_shape (P n : nat) (A : list (list R) -> list (list R)) : Prop := forall x, shaped P n x -> shaped P n (A x).
Definition linear (P n : nat) (A : list (list R) -> list (list R)) : Prop :=
  keeps_shape P n A /\
  (forall x y, shaped P n x -> shaped P n y -> A (sum_vectors x y) = sum_vectors (A x) (A y)) /\
  (forall a x, shaped P n x -> A (multiple a x) = multiple a (A x)).

Fixpoint total (f : nat -> R) (n : nat) : R := match n with O => 0 | S k => total f k + f k end.
(** the product of the matrix with the columns M, which have [rows] entries, and v *)
Definition product (rows : nat) (M : list (list R)) (v : list R) : list R :=
  map (fun i => total (fun j => nth i (nth j M []) 0 * nth j v 0) (length M)) (seq 0 rows).
(** the vector with one 1, at place i of part r *)
Definition unit_vector (P n r i : nat) : list (list R) :=
  map (fun k => map (fun l => if andb (k =? r)%nat (l =? i)%nat then 1 else 0) (seq 0 n)) (seq 0 P).
(** v in part r, 0 elsewhere *)
Definition only (P n r : nat) (v : list R) : list (list R) := map (fun k => if (k =? r)%nat then v else repeat 0 n) (seq 0 P).
(** M is a matrix with [rows] rows and [cols] columns *)
Definition size_of (rows cols : nat) (M : list (list R)) : Prop := length M = cols /\ Forall (fun c => length c = rows) M.

(** formats that can be read back *)
Definition plain (m : sparse) : Prop := match m with Compressed _ _ _ _ _ | Dia _ _ _ => True | _ => False end.
Definition is_coo (m : sparse) : Prop := match m with Coo _ row _ _ => length (dims row) = 1%nat | _ => False end.
(** dictionaries as they are handed to store_matrix_set: distinct keys; the two objects; the preconditioner with both matrices or not at all; under the other keys linear systems *)
Definition good_set {O} (s : list (string * value O)) : Prop :=
  NoDup (map fst s) /\ (exists p, get s "param" = Some (Obj O p)) /\ (exists q, get s "permutation" = Some (Obj O q)) /\
  ((get s "precond" = None /\ get s "precond_p" = None) \/ (exists a b, get s "precond" = Some (Mat O a) /\ get s "precond_p" = Some (Mat O b) /\ plain a /\ plain b)) /\
  (forall k v, get s k = Some v -> ~ In k ["param"; "permutation"; "precond"; "precond_p"]%string -> exists r rp m mp, v = System O r rp m mp /\ plain m /\ plain mp).
(** a set with at least one matrix *)
Definition has_matrix {O} (s : list (string * value O)) : Prop := exists k v, get s k = Some v /\ ~ In k ["param"; "permutation"]%string.
