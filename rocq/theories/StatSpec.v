(** What is expected of the statistics *)
From Coq Require Import Reals List Arith ZArith.
From Verif Require Import StatModel.
Import ListNotations.
Local Open Scope R_scope.

(** the points of all tiles: process, tile, element, row and column in the element *)
Definition points (ns : nat) (tiles : list tile) : list (nat * tile * nat * nat * nat) :=
  flat_map (fun p => map (fun c => (fst p, snd p, fst c, fst (snd c), snd (snd c))) (cells ns (snd p))) (combine (seq 0 (length tiles)) tiles).
Definition weight (ns : nat) (qw : nat -> nat -> R) (x : nat * tile * nat * nat * nat) : R := let '(r, t, e, i, k) := x in sqrtG t e (i * ns + k)%nat * qw i k.
Definition value (ns : nat) (f : field) (x : nat * tile * nat * nat * nat) : R := let '(r, t, e, i, k) := x in f r e (i * ns + k)%nat.
(** every process has a point, and the weights are positive *)
Definition proper (ns : nat) (qw : nat -> nat -> R) (tiles : list tile) : Prop :=
  (0 < ns)%nat /\ tiles <> [] /\ (forall t, In t tiles -> (0 < elements t)%nat) /\ forall x, In x (points ns tiles) -> 0 < weight ns qw x.
(** the first multiple of f that is not below s *)
Definition first_multiple (f s r : nat) : Prop := (s <= r)%nat /\ (exists m, r = (m * f)%nat) /\ forall m, (s <= m * f)%nat -> (r <= m * f)%nat.
(** the change of an integral relative to a value that is not 0 *)
Definition relative (now first : R) (c : option R) : Prop := (first <> 0 -> c = Some ((now - first) / first)) /\ (first = 0 -> c = None).
