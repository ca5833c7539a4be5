(** Specification for array shapes, gather and distribute. *)
From Coq Require Import ZArith List.
From Verif Require Import ShapeModel.
Import ListNotations.

(** Entry (l, r, c) of an array; None outside of it. *)
Definition entry {E} (a : array E) (l r c : nat) : option E :=
  match nth_error a l with
  | Some m => match nth_error m r with Some row => nth_error row c | None => None end
  | None => None
  end.

(** The array has nl leading indices, nr rows and nc columns. *)
Definition has_shape {E} (nl nr nc : nat) (a : array E) : Prop :=
  length a = nl /\ Forall (fun m => length m = nr /\ Forall (fun row => length row = nc) m) a.

(** All dimensions of a shape are positive. *)
Definition positive (s : list Z) : Prop := Forall (fun d => (0 < d)%Z) s.

(** The last dimensions [suf] of [shape] hold exactly as many entries as [boundary]. *)
Definition fits (shape pre suf boundary : list Z) : Prop :=
  shape = pre ++ suf /\ suf <> [] /\ prod suf = prod boundary.
