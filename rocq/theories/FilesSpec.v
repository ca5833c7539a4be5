(** What it means to read back a text, for C25. *)
From Coq Require Import List Bool Ascii ZArith.
From Verif Require Import FilesModel.
Import ListNotations.

(** numpy.load recovers what numpy.save wrote at the front of a file, whatever follows *)
Definition npy_ok {S} (npy : S -> text) (npy_load : text -> option (S * text)) : Prop :=
  forall x rest, npy_load (npy x ++ rest) = Some (x, rest).

(** The lines of a text, without their ends *)
Fixpoint lines (s : text) : list text :=
  match s with
  | [] => [[]]
  | c :: r => if Ascii.eqb c (ascii_of_nat 10) then [] :: lines r else match lines r with [] => [[c]] | l :: ls => (c :: l) :: ls end
  end.
(** The lines that hold more than blank characters, each without blank characters at its ends *)
Definition has_text (l : text) : bool := existsb (fun c => negb (is_space c)) l.
Definition content_lines (s : text) : list text := map strip (filter has_text (lines s)).
(** A text that neither begins nor ends with a blank character, or is empty *)
Definition trimmed (s : text) : Prop := (forall c r, s = c :: r -> is_space c = false) /\ (forall c r, s = r ++ [c] -> is_space c = false).
