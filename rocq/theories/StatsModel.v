(** Model of the solver statistics database (wx_factory/output/solver_stats.py), statement by statement, with any number of
    runs that share one SQLite file.  SQLite is modelled as far as it is used: one writing transaction at a time, opened by
    the first insertion and made visible by commit; a process that dies or raises loses its open transaction.  Columns that
    are not keys are left out (the arguments of the call stand for them), and so are the creation and extension of the
    tables (create_results_table). *)
From Coq Require Import ZArith List Bool Arith.
Import ListNotations.

Section Stats.
(** V: a residual tuple; W: one time measurement *)
Variables V W : Type.

(** The arguments of write_output that decide which rows are written *)
Record job := { residuals : list V; rhs_times : option (list (list W)) }.

(** Rows.  The field [author] is a ghost: the run (process) that wrote the row. *)
Record prow := { p_author : nat; p_job : job; entry_id : Z; p_run : Z; p_step : Z }.
Record drow := { d_author : nat; d_run : Z; d_step : Z; d_iter : Z; d_value : V }.
Record trow := { t_author : nat; t_run : Z; t_step : Z; t_iter : Z; t_values : list W }.
Record db := { params : list prow; data : list drow; timing : list trow }.

(** Where a run is in _exec_write_output: outside, or after the insertion (with the entry_id returned), after the update of
    run_id, after the insertion of the residuals, after the insertion of the timings *)
Inductive phase := Idle | Inserted (new : Z) (j : job) | Keyed (j : job) | Filled (j : job) | Timed (j : job).
Record run := { run_id : Z; step_id : Z; where_ : phase; alive : bool }.
Record state := { committed : db; txn : option (nat * db); runs : nat -> run }.

(** solver_stats.py:113-114 (run_id = -1, step_id = 0), with an empty database *)
Definition start : state := {|
  committed := {| params := []; data := []; timing := [] |}; txn := None;
  runs := fun _ => {| run_id := -1; step_id := 0; where_ := Idle; alive := true |} |}.

Definition set_run (rs : nat -> run) (r : nat) (x : run) : nat -> run := fun r' => if Nat.eqb r' r then x else rs r'.

(** SQLite: a new row of a table with an "integer PRIMARY KEY" gets one more than the largest key *)
Definition next_id (l : list prow) : Z := (fold_right Z.max 0 (map entry_id l) + 1)%Z.

(** enumerate(l) *)
Fixpoint enumerate {X} (k : Z) (l : list X) : list (Z * X) := match l with [] => [] | x :: r => (k, x) :: enumerate (k + 1) r end.

Inductive action :=
| Begin (r : nat) (j : job)      (* write_output is called; first statement *)
| Key (r : nat) | Data (r : nat) | Timing (r : nat) | Commit (r : nat)
| Fail (r : nat).                (* exception in, or death of, the process *)

(** solver_stats.py:257-264 -- insert into results_param ... returning entry_id *)
Definition insert_param (r : nat) (j : job) (x : run) (d : db) : db := {|
  params := params d ++ [{| p_author := r; p_job := j; entry_id := next_id (params d); p_run := run_id x; p_step := step_id x |}];
  data := data d; timing := timing d |}.
(** solver_stats.py:268-275 -- update results_param set run_id = ? where entry_id = ? *)
Definition update_run (new : Z) (d : db) : db := {|
  params := map (fun p => if Z.eqb (entry_id p) new
                          then {| p_author := p_author p; p_job := p_job p; entry_id := entry_id p; p_run := new; p_step := p_step p |}
                          else p) (params d);
  data := data d; timing := timing d |}.
(** solver_stats.py:277-285 -- the residuals *)
Definition insert_data (r : nat) (j : job) (x : run) (d : db) : db := {|
  params := params d;
  data := data d ++ map (fun '(i, v) => {| d_author := r; d_run := run_id x; d_step := step_id x; d_iter := i; d_value := v |}) (enumerate 0 (residuals j));
  timing := timing d |}.
(** solver_stats.py:287-300 -- the timings; None: IndexError on rhs_times[0].  Rows of another length than the first one
    make sqlite3 raise: that is the action Fail. *)
Definition insert_timing (r : nat) (j : job) (x : run) (d : db) : option db :=
  match rhs_times j with
  | None => Some d
  | Some [] => None
  | Some (t0 :: ts) =>
      if Nat.eqb (length t0) 9 then
        Some {| params := params d; data := data d;
                timing := timing d ++ map (fun '(i, t) => {| t_author := r; t_run := run_id x; t_step := step_id x; t_iter := i; t_values := t |}) (enumerate 0 (t0 :: ts)) |}
      else Some d
  end.

Definition die (s : state) (r : nat) : state :=
  let x := runs s r in
  {| committed := committed s;
     txn := match txn s with Some (o, d) => if Nat.eqb o r then None else Some (o, d) | None => None end;
     runs := set_run (runs s) r {| run_id := run_id x; step_id := step_id x; where_ := Idle; alive := false |} |}.

(** One action; an action that cannot happen (the process is dead or elsewhere, the database is locked) changes nothing *)
Definition act (s : state) (a : action) : state :=
  match a with
  | Begin r j =>
      let x := runs s r in
      match alive x, where_ x, txn s with
      | true, Idle, None =>
          {| committed := committed s; txn := Some (r, insert_param r j x (committed s));
             runs := set_run (runs s) r {| run_id := run_id x; step_id := step_id x; where_ := Inserted (next_id (params (committed s))) j; alive := true |} |}
      | _, _, _ => s
      end
  | Key r =>
      let x := runs s r in
      match alive x, where_ x, txn s with
      | true, Inserted new j, Some (o, d) =>
          if Z.ltb (run_id x) 0 then
            {| committed := committed s; txn := Some (o, update_run new d);
               runs := set_run (runs s) r {| run_id := new; step_id := step_id x; where_ := Keyed j; alive := true |} |}
          else {| committed := committed s; txn := Some (o, d);
                  runs := set_run (runs s) r {| run_id := run_id x; step_id := step_id x; where_ := Keyed j; alive := true |} |}
      | _, _, _ => s
      end
  | Data r =>
      let x := runs s r in
      match alive x, where_ x, txn s with
      | true, Keyed j, Some (o, d) =>
          {| committed := committed s; txn := Some (o, insert_data r j x d);
             runs := set_run (runs s) r {| run_id := run_id x; step_id := step_id x; where_ := Filled j; alive := true |} |}
      | _, _, _ => s
      end
  | Timing r =>
      let x := runs s r in
      match alive x, where_ x, txn s with
      | true, Filled j, Some (o, d) =>
          match insert_timing r j x d with
          | Some d' => {| committed := committed s; txn := Some (o, d');
                          runs := set_run (runs s) r {| run_id := run_id x; step_id := step_id x; where_ := Timed j; alive := true |} |}
          | None => die s r
          end
      | _, _, _ => s
      end
  | Commit r =>      (* solver_stats.py:302-303 *)
      let x := runs s r in
      match alive x, where_ x, txn s with
      | true, Timed j, Some (o, d) =>
          {| committed := d; txn := None;
             runs := set_run (runs s) r {| run_id := run_id x; step_id := step_id x + 1; where_ := Idle; alive := true |} |}
      | _, _, _ => s
      end
  | Fail r => die s r
  end.
Definition exec (l : list action) : state := fold_left act l start.
End Stats.
Arguments residuals {V W}. Arguments rhs_times {V W}. Arguments p_author {V W}. Arguments p_job {V W}. Arguments entry_id {V W}.
Arguments p_run {V W}. Arguments p_step {V W}. Arguments d_author {V}. Arguments d_run {V}. Arguments d_step {V}. Arguments d_iter {V}. Arguments d_value {V}.
Arguments t_author {W}. Arguments t_run {W}. Arguments t_step {W}. Arguments t_iter {W}. Arguments t_values {W}.
Arguments params {V W}. Arguments data {V W}. Arguments timing {V W}. Arguments run_id {V W}. Arguments step_id {V W}. Arguments where_ {V W}. Arguments alive {V W}.
Arguments committed {V W}. Arguments txn {V W}. Arguments runs {V W}. Arguments exec {V W}. Arguments act {V W}. Arguments start {V W}. Arguments next_id {V W}.
Arguments set_run {V W}. Arguments insert_param {V W}. Arguments update_run {V W}. Arguments insert_data {V W}. Arguments insert_timing {V W}. Arguments die {V W}.
Arguments Idle {V W}. Arguments Inserted {V W}. Arguments Keyed {V W}. Arguments Filled {V W}. Arguments Timed {V W}.
Arguments Begin {V W}. Arguments Key {V W}. Arguments Data {V W}. Arguments Timing {V W}. Arguments Commit {V W}. Arguments Fail {V W}.
