(** Model of alpha_coeff (wx_factory/integrators/integrator.py) over an arbitrary field. *)
From mathcomp Require Import all_ssreflect all_algebra.
Set Implicit Arguments.
Unset Strict Implicit.
Unset Printing Implicit Defensive.
Import GRing.Theory.
Local Open Scope ring_scope.

(** itertools.combinations(l, r) *)
Fixpoint combinations {T : Type} (l : seq T) (r : nat) : seq (seq T) :=
  match l, r with
  | _, 0%N => [:: [::]]
  | [::], r'.+1 => [::]
  | x :: l', r'.+1 => [seq x :: v | v <- combinations l' r'] ++ combinations l' r
  end.

Section Alpha.
Variable F : fieldType.
Implicit Types (c : seq F) (i k : nat).

(** integrator.py:140 -- [cc for (j, cc) in enumerate(c) if j != i] *)
Definition c_no_i c i : seq F := [seq p.2 | p <- zip (iota 0 (size c)) c & p.1 != i].
(** integrator.py:141 *)
Definition denom c i : F := c`_i ^+ 2 * \prod_(cl <- c_no_i c i) (c`_i - cl).
(** integrator.py:143 *)
Definition sp c i k : F := \sum_(v <- combinations (c_no_i c i) (size c - k - 1)) \prod_(x <- v) x.
(** integrator.py:135-146 -- alpha_coeff: entry [k, i] of the matrix *)
Definition alpha_coeff c k i : F := (-1) ^+ (size c - k + 1) * ((k.+2)`!)%:R * sp c i k / denom c i.
End Alpha.

(** range(start, stop, -1) of Python: start, start - 1, ..., above stop *)
Definition range_down (start stop : int) : seq int :=
  match start - stop with Posz n => [seq start - (Posz j) | j <- iota 0 n] | Negz _ => [::] end.
(** epi_stiff.py:27 -- the nodes [-i for i in range(-1, 1 - order, -1)] given to alpha_coeff *)
Definition epi_stiff_nodes (order : nat) : seq int := [seq - i | i <- range_down (-1) (1 - Posz order)].
