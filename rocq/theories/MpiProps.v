(** Properties C11 to C13: single- and multiple-process contexts and the NaN check (wx_factory/wx_mpi.py,
    wx_factory/simulation/simulation.py). *)
From Coq Require Import ZArith List Bool Lia Floats.SpecFloat.
From Verif Require Import MpiModel MpiSpec MpiProofs.
Import ListNotations.

(** Results of a terminated execution are unique, so each "all_finish_with" below describes the only possible outcome. *)
Theorem C11_outcome_unique : forall (A : Type) size (p : nat -> prog A) res1 res2,
  all_finish_with size p res1 -> all_finish_with size p res2 -> forall r, r < size -> res1 r = res2 r.
Proof. exact @finish_deterministic. Qed.
Print Assumptions C11_outcome_unique.

(** C11: the body completes at the root *)
Theorem C11_body_completes : forall root body size v,
  root < size -> body root = {| b_value := v; b_exn := None |} -> v <> PFailure ->
  all_finish_with size (with_single root body) (fun r => {| ran := Nat.eqb r root; raised := None; value := v |}).
Proof. exact single_ok. Qed.
Print Assumptions C11_body_completes.

(** C11: the body raises at the root *)
Theorem C11_body_raises : forall root body size v e,
  root < size -> body root = {| b_value := v; b_exn := Some e |} ->
  all_finish_with size (with_single root body)
    (fun r => {| ran := Nat.eqb r root; raised := Some (if Nat.eqb r root then e else ESkip); value := PFailure |}).
Proof. exact single_fail. Qed.
Print Assumptions C11_body_raises.

Theorem C11_one_collective : forall root body r, calls 1 (with_single root body r).
Proof. exact single_calls. Qed.
Print Assumptions C11_one_collective.
Example C11_ex : let body := fun r => if Nat.eqb r 2 then {| b_value := PObj 5; b_exn := None |} else {| b_value := PNone; b_exn := Some (EOther 1) |} in
  2 < 4 /\ body 2 = {| b_value := PObj 5; b_exn := None |} /\ PObj 5 <> PFailure /\
  exec 1 (map (with_single 2 body) (seq 0 4)) =
    Done (map (fun b => {| ran := b; raised := None; value := PObj 5 |}) [false; false; true; false]).
Proof. repeat split; [lia | discriminate]. Qed.

(** The value must not be an instance of the private class _SkippableFailure: with such a value the ranks disagree. *)
Theorem C11_private_value_refuted : exists size root body, root < size /\ b_exn (body root) = None /\
  ~ (exists v, all_finish_with size (with_single root body) (fun r => {| ran := Nat.eqb r root; raised := None; value := v |})).
Proof. exact single_forged. Qed.
Print Assumptions C11_private_value_refuted.

(** C11 for do_once, and for every sequence of calls of do_once *)
Theorem C11_do_once_returns : forall action size v,
  0 < size -> action 0 = AValue v -> v <> PFailure -> all_finish_with size (do_once action) (fun _ => inl v).
Proof. exact do_once_ok. Qed.
Print Assumptions C11_do_once_returns.
Theorem C11_do_once_raises : forall action size e,
  0 < size -> action 0 = ARaise e -> all_finish_with size (do_once action) (fun r => inr (if Nat.eqb r 0 then e else ESkip)).
Proof. exact do_once_fail. Qed.
Print Assumptions C11_do_once_raises.
Theorem C11_do_once_sequence : forall actions size, 0 < size -> Forall (fun a => a 0 <> AValue PFailure) actions ->
  (exists vs, map (fun a => a 0) actions = map AValue vs /\ all_finish_with size (do_all actions) (fun _ => inl vs)) \/
  (exists before a after vs e, actions = before ++ a :: after /\ map (fun b => b 0) before = map AValue vs /\ a 0 = ARaise e /\
     all_finish_with size (do_all actions) (fun r => inr (if Nat.eqb r 0 then e else ESkip))).
Proof. exact do_all_agree. Qed.
Print Assumptions C11_do_once_sequence.
Example C11_ex2 : let acts := [fun r => AValue (PObj (3 + r)); fun r => if Nat.eqb r 0 then ARaise (EOther 2) else AValue PNone; fun _ => AValue PNone] in
  Forall (fun a => a 0 <> AValue PFailure) acts /\
  exec 3 (map (do_all acts) (seq 0 3)) = Done [inr (EOther 2); inr ESkip; inr ESkip].
Proof. split; [repeat constructor; discriminate | reflexivity]. Qed.

(** C12: [run r] says which ranks execute the body, [group] is the communicator they get (None: the original one) *)
Theorem C12_multiple_processes : forall n body size, 0 < size ->
  let run r := (n <= 0)%Z \/ (Z.of_nat r < n)%Z in
  let group := if (0 <? n)%Z then Some (seq 0 (Nat.min (Z.to_nat n) size)) else None in
  exists result, all_finish_with size (with_multi n body) result /\
  (forall r, r < size -> m_ran (result r) = true <-> run r) /\
  (forall r, r < size -> run r -> m_comm (result r) = group) /\
  ((forall r x, r < size -> run r -> body r group <> Some (EOther x)) -> forall r, r < size -> m_raised (result r) = None) /\
  ((exists r x, r < size /\ run r /\ body r group = Some (EOther x)) ->
     forall r, r < size -> (run r -> m_raised (result r) = body r group) /\ (~ run r -> m_raised (result r) = Some ESkip)).
Proof. exact multi_spec. Qed.
Print Assumptions C12_multiple_processes.
Example C12_ex : exec 2 (map (with_multi 3 (fun r _ => if Nat.eqb r 1 then Some (EOther 4) else None)) (seq 0 4)) =
  Done [{| m_ran := true; m_comm := Some [0; 1; 2]; m_raised := None |}; {| m_ran := true; m_comm := Some [0; 1; 2]; m_raised := Some (EOther 4) |};
        {| m_ran := true; m_comm := Some [0; 1; 2]; m_raised := None |}; {| m_ran := false; m_comm := Some [3]; m_raised := Some ESkip |}].
Proof. reflexivity. Qed.

(** Unlike SingleProcess, a failure is not raised by the active ranks that did not fail themselves: they go on alone. *)
Theorem C12_everybody_raises_refuted : exists size n body result, 0 < size /\
  all_finish_with size (with_multi n body) result /\
  (exists r, r < size /\ m_raised (result r) = Some (EOther 7)) /\ (exists r, r < size /\ m_raised (result r) = None).
Proof. exact multi_partial_failure. Qed.
Print Assumptions C12_everybody_raises_refuted.

(** C13 *)
Theorem C13_nan_check : forall size (Q : nat -> list spec_float), 0 < size ->
  exists flag, all_finish_with size (fun r => check_for_nan (Q r)) (fun _ => flag) /\
  (flag = true <-> exists r, r < size /\ In S754_nan (Q r)).
Proof. exact nan_run. Qed.
Print Assumptions C13_nan_check.
Example C13_ex : exec 1 (map (fun r => check_for_nan (if Nat.eqb r 1 then [S754_zero false; S754_nan] else [S754_infinity true])) (seq 0 3))
  = Done [true; true; true].
Proof. reflexivity. Qed.
