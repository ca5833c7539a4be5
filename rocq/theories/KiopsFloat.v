(** The count of the output times passed by a substep, in double precision. Models wx_factory/solvers/kiops.py lines 231, 267 and 298-306 with Coq's primitive binary64 numbers. *)
From Coq Require Import Floats List.
Import ListNotations.
Local Open Scope float_scope.

(** the substep that is left, line 267 (and 231) with min choosing its first argument: tau_end - (tau_now + tau), which is tau_end - tau_now once tau_now is updated (line 320) *)
Definition remaining (tau_end tau_now : float) : float := tau_end - tau_now.
(** lines 298-302 *)
Definition blown_float (out : list float) (l : nat) (tau_now tau : float) : nat :=
  length (filter (fun k => abs (nth k out 0) <? abs (tau_now + tau)) (seq l (length out - l))).
(** line 306: w[l + blownTs, :] with w of numSteps rows; None is IndexError. The statement is executed only when blownTs is not 0 (line 304) *)
Definition continue_row (out : list float) (l : nat) (tau_now tau : float) : option nat :=
  let b := blown_float out l tau_now tau in if Nat.ltb (l + b) (length out) then Some (l + b)%nat else None.
