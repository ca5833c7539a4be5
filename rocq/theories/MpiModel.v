(** Model of wx_factory/wx_mpi.py and of Simulation._check_for_nan. *)
From Coq Require Import ZArith List Bool Floats.SpecFloat.
Import ListNotations.

(** Python objects that travel through return_value: None, an instance of _SkippableFailure (wx_mpi.py:12-13), or any
    other object, identified by a number. *)
Inductive pyval := PNone | PFailure | PObj (n : nat).

(** Exception classes: _Skip (wx_mpi.py:8-9, a subclass of SystemExit), or any other class, identified by a number. *)
Inductive exn := ESkip | EOther (n : nat).

(** * Communication

    The program of one rank is a tree of collective calls.  A collective call of mpi4py is a message given to the
    communicator, and the rank goes on with the reply. *)
Inductive call :=
| CBcast (root : nat) (x : pyval)        (* comm.bcast(x, root=root) *)
| CSum (x : Z)                           (* comm.allreduce(x), the default operation is SUM *)
| CMax (x : Z)                           (* comm.Allreduce(x, out, MPI.MAX) *)
| CSplit (color key : nat).              (* comm.Split(color, key) *)
Inductive reply := RVal (v : pyval) | RInt (z : Z) | RGroup (members : list nat).

Inductive prog (A : Type) :=
| Ret (a : A)
| Coll (c : call) (k : reply -> prog A).
Arguments Ret {A} a.
Arguments Coll {A} c k.

Fixpoint bind {A B} (p : prog A) (f : A -> prog B) : prog B :=
  match p with Ret a => f a | Coll c k => Coll c (fun r => bind (k r) f) end.

(** The replies of the MPI library when all ranks have posted their call: nothing happens (None) unless all the ranks
    have posted the same operation, with the same root. *)
Definition all_some {A} : list (option A) -> option (list A) :=
  fold_right (fun o acc => match o, acc with Some a, Some l => Some (a :: l) | _, _ => None end) (Some []).
Definition as_bcast (root : nat) (c : call) := match c with CBcast r x => if Nat.eqb r root then Some x else None | _ => None end.
Definition as_sum (c : call) := match c with CSum z => Some z | _ => None end.
Definition as_max (c : call) := match c with CMax z => Some z | _ => None end.
Definition as_split (c : call) := match c with CSplit color key => Some (color, key) | _ => None end.

(** Members of the new communicator, by increasing key; the code only uses the old rank as key, hence old ranks of the
    same colour in increasing order.  Keys that differ from the old rank are not modelled (no reply). *)
Definition split_groups (ck : list (nat * nat)) : option (list (list nat)) :=
  if forallb (fun p => Nat.eqb (fst p) (snd (snd p))) (combine (seq 0 (length ck)) ck) then
    Some (map (fun c => filter (fun r => Nat.eqb (nth r (map fst ck) 0) (fst c)) (seq 0 (length ck))) ck)
  else None.

Definition respond (cs : list call) : option (list reply) :=
  match cs with
  | [] => None
  | CBcast root _ :: _ =>
      match all_some (map (as_bcast root) cs) with
      | Some xs => match nth_error xs root with Some v => Some (map (fun _ => RVal v) cs) | None => None end
      | None => None
      end
  | CSum _ :: _ =>
      match all_some (map as_sum cs) with
      | Some zs => Some (map (fun _ => RInt (fold_right Z.add 0%Z zs)) cs)
      | None => None
      end
  | CMax _ :: _ =>
      match all_some (map as_max cs) with
      | Some zs => Some (map (fun _ => RInt (fold_right Z.max (hd 0%Z zs) zs)) cs)
      | None => None
      end
  | CSplit _ _ :: _ =>
      match all_some (map as_split cs) with
      | Some ck => match split_groups ck with Some gs => Some (map RGroup gs) | None => None end
      | None => None
      end
  end.

(** Execution of all the ranks of a communicator, one collective after the other.  [Stuck]: some ranks wait in a
    collective that the others never enter. *)
Inductive status (A : Type) := Done (l : list A) | Stuck | OutOfFuel.
Arguments Done {A} l.
Arguments Stuck {A}.
Arguments OutOfFuel {A}.
Definition as_ret {A} (p : prog A) := match p with Ret a => Some a | _ => None end.
Definition as_coll {A} (p : prog A) := match p with Coll c k => Some (c, k) | _ => None end.
Fixpoint exec {A} (fuel : nat) (ps : list (prog A)) : status A :=
  match all_some (map as_ret ps) with
  | Some l => Done l
  | None =>
      match fuel with
      | 0 => OutOfFuel
      | S f =>
          match all_some (map as_coll ps) with
          | None => Stuck
          | Some cks =>
              match respond (map fst cks) with
              | None => Stuck
              | Some rs => exec f (map (fun p => snd (fst p) (snd p)) (combine cks rs))
              end
          end
      end
  end.

(** * SingleProcess and Conditional *)

(** What a rank does in the body of a context: the value left in return_value, and the exception raised, if any.  The
    body itself is assumed not to use the communicator of the context. *)
Record body_result := { b_value : pyval; b_exn : option exn }.

(** What is observable of one rank after the with statement: whether it executed the body (ghost), the exception that
    leaves the with statement, and return_value. *)
Record observed := { ran : bool; raised : option exn; value : pyval }.

(** wx_mpi.py:63-75 -- SingleProcess.__init__ (should_skip) *)
Definition single_should_skip (rank root_rank : nat) : bool := negb (Nat.eqb rank root_rank).

(** wx_mpi.py:89-90 -- value given to the broadcast *)
Definition single_transmit (should_skip : bool) (return_value : pyval) (exception : option exn) : pyval :=
  let is_ok := (match exception with None => true | Some _ => false end) || should_skip in
  if is_ok then return_value else PFailure.

(** wx_mpi.py:93 -- whether the exception in flight is ignored *)
Definition single_ignore (return_value : pyval) : bool :=
  match return_value with PNone => true | PFailure => negb true | PObj _ => negb false end.

(** Python's with statement: what leaves it, from the exception in flight and what __exit__ returned *)
Definition leave (exception : option exn) (ignore : bool) : option exn :=
  match exception with None => None | Some e => if ignore then None else Some e end.

(** wx_mpi.py:81-94 -- SingleProcess.__exit__ *)
Definition single_exit (should_skip : bool) (root_rank : nat) (did : bool) (return_value : pyval)
  (exception : option exn) : prog observed :=
  Coll (CBcast root_rank (single_transmit should_skip return_value exception))
    (fun r => match r with
              | RVal v => Ret {| ran := did; raised := leave exception (single_ignore v); value := v |}
              | _ => Ret {| ran := did; raised := exception; value := return_value |}     (* not a reply of bcast *)
              end).

(** wx_mpi.py:136-149 -- the body inside Conditional: _Skip is raised on entering when should_skip, and its __exit__
    returns None.  Result: did the body run, return_value and the exception in flight. *)
Definition conditional (should_skip : bool) (initial : pyval) (body : body_result) : bool * pyval * option exn :=
  if should_skip then (false, initial, Some ESkip) else (true, b_value body, b_exn body).

(** with SingleProcess(comm, root) as s, Conditional(s): body *)
Definition with_single (root_rank : nat) (body : nat -> body_result) (rank : nat) : prog observed :=
  let should_skip := single_should_skip rank root_rank in
  match conditional should_skip PNone (body rank) with
  | (did, v, e) => single_exit should_skip root_rank did v e
  end.

(** An action called by do_once: a value or an exception *)
Inductive action_result := AValue (v : pyval) | ARaise (e : exn).

(** wx_mpi.py:152-165 -- do_once: [inl v] is returned, [inr e] is raised *)
Definition do_once (action : nat -> action_result) (rank : nat) : prog (pyval + exn) :=
  bind (with_single 0 (fun r => match action r with
                                | AValue v => {| b_value := v; b_exn := None |}
                                | ARaise e => {| b_value := PNone; b_exn := Some e |}
                                end) rank)
    (fun o => Ret (match raised o with None => inl (value o) | Some e => inr e end)).

(** A sequence of calls of do_once, stopping at the first exception (e.g. simulation.py:67-68) *)
Fixpoint do_all (actions : list (nat -> action_result)) (rank : nat) : prog (list pyval + exn) :=
  match actions with
  | [] => Ret (inl [])
  | a :: rest =>
      bind (do_once a rank) (fun o =>
        match o with
        | inr e => Ret (inr e)
        | inl v => bind (do_all rest rank) (fun o' => Ret (match o' with inl vs => inl (v :: vs) | inr e => inr e end))
        end)
  end.

(** * MultipleProcesses *)

(** What is observable of one rank: whether it executed the body, with which sub-communicator (None: the communicator
    itself), and the exception that leaves the with statement. *)
Record multi_observed := { m_ran : bool; m_comm : option (list nat); m_raised : option exn }.

(** wx_mpi.py:112-119 -- MultipleProcesses.__exit__ *)
Definition multi_exit (did : bool) (sub_comm : option (list nat)) (exception : option exn) : prog multi_observed :=
  let num_errors := match exception with None => 0%Z | Some ESkip => 0%Z | Some (EOther _) => 1%Z end in
  Coll (CSum num_errors)
    (fun r => match r with
              | RInt total => Ret {| m_ran := did; m_comm := sub_comm; m_raised := leave exception (Z.eqb total 0) |}
              | _ => Ret {| m_ran := did; m_comm := sub_comm; m_raised := exception |}   (* not a reply of allreduce *)
              end).

(** wx_mpi.py:98-106, and the with statement; the body is a function of the rank and of the sub-communicator *)
Definition with_multi (num_procs : Z) (body : nat -> option (list nat) -> option exn) (rank : nat) : prog multi_observed :=
  if (0 <? num_procs)%Z then
    let should_skip := (num_procs <=? Z.of_nat rank)%Z in
    Coll (CSplit (if should_skip then 0 else 1) rank)
      (fun r => match r with
                | RGroup g =>
                    match conditional should_skip PNone {| b_value := PNone; b_exn := body rank (Some g) |} with
                    | (did, _, e) => multi_exit did (Some g) e
                    end
                | _ => Ret {| m_ran := false; m_comm := None; m_raised := None |}       (* not a reply of Split *)
                end)
  else
    match conditional false PNone {| b_value := PNone; b_exn := body rank None |} with
    | (did, _, e) => multi_exit did None e
    end.

(** * NaN check *)

(** numpy.isnan on a binary64 number *)
Definition isnan (x : spec_float) : bool := match x with S754_nan => true | _ => false end.

(** simulation.py:399-408 -- _check_for_nan; [true] when ValueError is raised *)
Definition check_for_nan (Q : list spec_float) : prog bool :=
  let error_detected := if existsb isnan Q then 1%Z else 0%Z in
  Coll (CMax error_detected)
    (fun r => match r with
              | RInt out => Ret (0 <? out)%Z
              | _ => Ret true                                                             (* not a reply of Allreduce *)
              end).
