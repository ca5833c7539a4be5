(** Model of the state files: names (wx_factory/output/output_manager.py) and contents (wx_factory/output/state.py). *)
From Coq Require Import ZArith List Bool Ascii String.
Import ListNotations.
Local Open Scope list_scope.

(** Characters and bytes are both [ascii]: text is restricted to 8-bit characters, so that the conversions
    bytes(..., "utf-8") and str(..., "utf-8") are the identity. *)
Notation text := (list ascii).
Definition lit (s : string) : text := list_ascii_of_string s.

(** * Python's integer formatting *)

(** Digits of n >= 0 in base b, least significant first; at least one digit *)
Fixpoint digits (fuel : nat) (b n : Z) : list Z :=
  match fuel with
  | O => []
  | S f => (n mod b)%Z :: (if (n / b =? 0)%Z then [] else digits f b (n / b))
  end.
Definition all_digits (b n : Z) : list Z := digits (S (Z.to_nat (Z.log2 n))) b n.
Definition pad (width : nat) (l : list Z) : list Z := l ++ repeat 0%Z (width - List.length l).
Definition digit_char (d : Z) : ascii :=
  nth (Z.to_nat d) (lit "0123456789abcdef") "?"%char.
(** format(n, f"0{width}x") for n >= 0 *)
Definition format_x (width : nat) (n : Z) : text := map digit_char (rev (pad width (all_digits 16 n))).
(** format(n, f"0{width}d"): the sign counts in the width *)
Definition format_d (width : nat) (n : Z) : text :=
  if (n <? 0)%Z then "-"%char :: map digit_char (rev (pad (width - 1) (all_digits 10 (- n))))
  else map digit_char (rev (pad width (all_digits 10 n))).

(** * File names *)

(** output_manager.py:78-84 -- the parameters that are hashed, and config_hash.  [hash] is Python's hash of the tuple. *)
Record hashed (F : Type) := { h_dt : F; h_num_elements_horizontal_total : Z; h_num_elements_vertical : Z; h_num_solpts : Z }.
Definition config_hash {F} (hash : hashed F -> Z) (c : hashed F) : Z := Z.land (hash c) (2 ^ 48 - 1).   (* 0xFFFFFFFFFFFF *)
(** output_manager.py:93-97 -- state_file_name *)
Definition state_file_name (output_dir : text) (hash_value step_id : Z) : text :=
  let base_name := lit "state_vector_" ++ format_x 12 hash_value in
  output_dir ++ lit "/" ++ base_name ++ lit "." ++ format_d 8 step_id ++ lit ".npy".

(** * Contents *)
Definition newline : ascii := ascii_of_nat 10.
Definition is_newline (c : ascii) : bool := Ascii.eqb c newline.
(** str.isspace on ASCII: 9-13, 28-32 *)
Definition is_space (c : ascii) : bool :=
  let n := nat_of_ascii c in (Nat.leb 9 n && Nat.leb n 13) || (Nat.leb 28 n && Nat.leb n 32).
Fixpoint lstrip (s : text) : text := match s with c :: r => if is_space c then lstrip r else s | [] => [] end.
Definition strip (s : text) : text := rev (lstrip (rev (lstrip s))).

(** file.readline() on the bytes that remain: the line with its newline, and the rest *)
Fixpoint readline (s : text) : text * text :=
  match s with
  | [] => ([], [])
  | c :: r => if is_newline c then ([c], r) else let '(l, r') := readline r in (c :: l, r')
  end.
(** file.readlines(): the lines, each with its newline (the last one may lack it) *)
Fixpoint readlines (s : text) : list text :=
  match s with
  | [] => []
  | c :: r =>
      if is_newline c then [c] :: readlines r
      else match readlines r with [] => [[c]] | l :: ls => (c :: l) :: ls end
  end.
(** "\n".join(lines) *)
Fixpoint join_newline (ls : list text) : text :=
  match ls with [] => [] | [l] => l | l :: r => l ++ [newline] ++ join_newline r end.

Section StateFile.
(** numpy.save and numpy.load: [npy] is what is written for an array; [npy_load] reads one array from the front of a file
    and leaves the file position behind it (None: an exception). *)
Variable S : Type.
Variable npy : S -> text.
Variable npy_load : text -> option (S * text).

(** state.py:9-16 -- save_state *)
Definition save_state (state : S) (state_version config_content : text) : text :=
  npy state ++ state_version ++ [newline] ++ config_content.
(** state.py:19-33 -- load_state: the state, the version line (which is not used) and the text given to Configuration *)
Definition load_state (file : text) : option (S * text * text) :=
  match npy_load file with
  | None => None
  | Some (state, rest) =>
      let '(version, rest') := readline rest in
      Some (state, version, strip (join_newline (readlines rest')))
  end.
End StateFile.
Arguments save_state {S}. Arguments load_state {S}.
