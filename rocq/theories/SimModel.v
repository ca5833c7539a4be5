(** Model of the time loop (wx_factory/simulation/simulation.py), of the output manager (wx_factory/output/output_manager.py)
    and of what the netCDF writer does to the state (wx_factory/output/output_cubesphere_netcdf.py). *)
From Coq Require Import ZArith Reals List Bool Floats.SpecFloat.
From Flocq Require Import Core.Raux.
Import ListNotations.

(** * Arithmetic on times: the same program over the real numbers and over binary64 *)
Record arith := {
  num : Type;
  add : num -> num -> num;
  sub : num -> num -> num;
  ltb : num -> num -> bool;
  times : num -> Z -> num;                      (* float * int *)
  ceil_div : num -> num -> option Z }.          (* int(numpy.ceil(a / b)); None: ZeroDivisionError or OverflowError *)

Definition R_arith : arith := {|
  num := R; add := Rplus; sub := Rminus;
  ltb := fun a b => if Rlt_dec a b then true else false;
  times := fun a n => (a * IZR n)%R;
  ceil_div := fun a b => if Req_EM_T b 0 then None else Some (Zceil (a / b)) |}.

(** binary64 with round to nearest even, from the standard library's specification of floating point *)
Definition sf_ceil (x : spec_float) : option Z :=
  match x with
  | S754_zero _ => Some 0%Z
  | S754_finite s m e =>
      let z := if s then Z.neg m else Z.pos m in
      Some (if (0 <=? e)%Z then (z * 2 ^ e)%Z else (- ((- z) / 2 ^ (- e)))%Z)
  | _ => None
  end.
Definition f64_arith : arith := {|
  num := spec_float; add := SFadd 53 1024; sub := SFsub 53 1024; ltb := SFltb;
  times := fun a n => SFmul 53 1024 a (binary_normalize 53 1024 n 0 false);
  ceil_div := fun a b => match b with S754_zero _ => None | _ => sf_ceil (SFdiv 53 1024 a b) end |}.

(** * Output manager *)
Record freqs := { output_freq : Z; save_state_freq : Z; stat_freq : Z }.

(** Files written so far: which action, at which step, with which state, and for dynamic output the time coordinate that
    is written (output_cubesphere_netcdf.py:306-309: step_id * self.config.dt) *)
Inductive event (T Q : Type) := Wrote (step : Z) (stamp : T) (q : Q) | Saved (step : Z) (q : Q) | Stats (step : Z) (q : Q).
Arguments Wrote {T Q}. Arguments Saved {T Q}. Arguments Stats {T Q}.
Record outstate (T Q : Type) := { num_writes : Z; num_save_states : Z; num_blockstats : Z; world : list (event T Q) }.
Arguments num_writes {T Q}. Arguments num_save_states {T Q}. Arguments num_blockstats {T Q}. Arguments world {T Q}.

(** output_manager.py:125, 136, 145 -- the three tests (Python's % with a positive right operand is Z.modulo) *)
Definition due (freq step_id : Z) : bool := (0 <? freq)%Z && (step_id mod freq =? 0)%Z.

(** output_manager.py:123-149 -- OutputManager.step.  [write_effect] is what the class-specific __write_result__ does in
    place to the array Q it is given.  Timers are left out.  The gathering of the field (line 138) is modelled in
    ShapeModel.v. *)
Definition output_step {T Q} (times : T -> Z -> T) (fr : freqs) (write_effect : Q -> Q) (o : outstate T Q) (q : Q) (dt : T) (step_id : Z)
  : outstate T Q * Q :=
  let '(o1, q1) :=
    if due (output_freq fr) step_id then
      let q' := write_effect q in
      ({| num_writes := num_writes o + 1; num_save_states := num_save_states o; num_blockstats := num_blockstats o;
          world := world o ++ [Wrote step_id (times dt step_id) q'] |}, q')
    else (o, q) in
  let o2 :=
    if due (save_state_freq fr) step_id then
      {| num_writes := num_writes o1; num_save_states := num_save_states o1 + 1; num_blockstats := num_blockstats o1;
         world := world o1 ++ [Saved step_id q1] |}
    else o1 in
  let o3 :=
    if due (stat_freq fr) step_id then
      {| num_writes := num_writes o2; num_save_states := num_save_states o2; num_blockstats := num_blockstats o2 + 1;
         world := world o2 ++ [Stats step_id q1] |}
    else o2 in
  (o3, q1).

(** output_cubesphere_netcdf.py:311-316 -- the shallow-water branch of __write_result__ as far as it changes its argument:
    [h = Q[idx_h, :, :]] is a view of Q, and [h += self.topo.hsurf] adds the topography in place. *)
Record sw_state := { sw_h : list R; sw_hu1 : list R; sw_hu2 : list R }.
Fixpoint list_add (a b : list R) : list R :=
  match a, b with x :: a', y :: b' => (x + y)%R :: list_add a' b' | _, _ => a end.
Definition netcdf_write_effect (hsurf : option (list R)) (q : sw_state) : sw_state :=
  match hsurf with
  | None => q
  | Some hs => {| sw_h := list_add (sw_h q) hs; sw_hu1 := sw_hu1 q; sw_hu2 := sw_hu2 q |}
  end.

(** * Simulation *)
Section Simulation.
Variable A : arith.
Variables Q I : Type.

(** What the time loop calls: integrator.step (with its internal state and failure flag), operators.apply_filters,
    _check_for_nan (true: ValueError), the wind overwrite of cases 11 and 12 (identity otherwise) *)
Record env := {
  t_end : num A;
  starting_step : Z;
  integ_step : I -> Q -> num A -> I * Q;
  failure_flag : I -> Z;
  filters : Q -> num A -> Q;
  has_nan : Q -> bool;
  winds : num A -> Q -> Q;
  out_freqs : freqs;
  write_effect : Q -> Q }.

(** One call of the integrator: the step size it was given, the time reached, the step number, the failure flag after it *)
Record call := { c_dt : num A; c_t : num A; c_step : Z; c_flag : Z }.

(** The attributes of Simulation used by the loop; [calls] is a ghost log *)
Record sim := {
  t : num A; dt : num A; step_id : Z; q : Q; initial_q : Q; integ : I; out : outstate (num A) Q; calls : list call }.

Inductive outcome := Going (s : sim) | Stopped (s : sim) | Raised (s : sim).

(** simulation.py:133-180 -- Simulation.step *)
Definition step (e : env) (s : sim) : outcome :=
  if ltb A (t s) (t_end e) then
    let '(t', dt') :=
      if ltb A (t_end e) (add A (t s) (dt s)) then (t_end e, sub A (t_end e) (t s)) else (add A (t s) (dt s), dt s) in
    let id' := (step_id s + 1)%Z in
    let '(i', q1) := integ_step e (integ s) (q s) dt' in
    let log := calls s ++ [{| c_dt := dt'; c_t := t'; c_step := id'; c_flag := failure_flag e i' |}] in
    let q2 := filters e q1 dt' in
    if has_nan e q2 then
      Raised {| t := t'; dt := dt'; step_id := id'; q := q2; initial_q := initial_q s; integ := i'; out := out s; calls := log |}
    else
      let q3 := winds e t' q2 in
      let '(o', q4) := output_step (times A) (out_freqs e) (write_effect e) (out s) q3 dt' id' in
      let s' := {| t := t'; dt := dt'; step_id := id'; q := q4; initial_q := initial_q s; integ := i'; out := o'; calls := log |} in
      if (failure_flag e i' =? 0)%Z then Going s' else Stopped s'
  else Stopped s.

(** simulation.py:189 -- while self.step(): pass *)
Inductive run_result := Finished (s : sim) | Error (s : sim) | OutOfFuel.
Fixpoint loop (e : env) (fuel : nat) (s : sim) : run_result :=
  match step e s with
  | Raised s' => Error s'
  | Stopped s' => Finished s'
  | Going s' => match fuel with 0%nat => OutOfFuel | S f => loop e f s' end
  end.

(** simulation.py:182-192 -- Simulation.run, without output.finalize *)
Definition run (e : env) (fuel : nat) (s : sim) : run_result :=
  loop e fuel {| t := t s; dt := dt s; step_id := starting_step e; q := initial_q s; initial_q := initial_q s;
                 integ := integ s; out := out s; calls := calls s |}.

(** simulation.py:106-131 -- the end of Simulation.__init__: the state [q0] and the starting step are those of
    _determine_starting_state; self.Q and self.initial_Q are the same array, so that what the output does in place is
    done to both.  [None]: an exception at line 131. *)
Definition init (e : env) (dt0 : num A) (q0 : Q) (i0 : I) : option (sim * Z) :=
  let '(o, q1) := output_step (times A) (out_freqs e) (write_effect e)
                    {| num_writes := 0; num_save_states := 0; num_blockstats := 0; world := [] |} q0 dt0 (starting_step e) in
  match ceil_div A (t_end e) dt0 with
  | None => None
  | Some n => Some ({| t := times A dt0 (starting_step e); dt := dt0; step_id := starting_step e; q := q1; initial_q := q1;
                       integ := i0; out := o; calls := [] |}, n - starting_step e)%Z
  end.

(** simulation.py:314-330 -- _determine_starting_state; [load] is the result of reading the state file, [None] when any
    Exception (or SystemExit) is raised by it *)
Definition determine_starting_state (config_starting_step : Z) (load : option Q) (initial : Q) : Q * Z :=
  if (0 <? config_starting_step)%Z then
    match load with Some q => (q, config_starting_step) | None => (initial, 0%Z) end
  else (initial, 0%Z).
End Simulation.
Arguments t_end {A Q I}. Arguments starting_step {A Q I}. Arguments integ_step {A Q I}. Arguments failure_flag {A Q I}.
Arguments filters {A Q I}. Arguments has_nan {A Q I}. Arguments winds {A Q I}. Arguments out_freqs {A Q I}. Arguments write_effect {A Q I}.
Arguments c_dt {A}. Arguments c_t {A}. Arguments c_step {A}. Arguments c_flag {A}.
Arguments t {A Q I}. Arguments dt {A Q I}. Arguments step_id {A Q I}. Arguments q {A Q I}. Arguments initial_q {A Q I}.
Arguments integ {A Q I}. Arguments out {A Q I}. Arguments calls {A Q I}.
Arguments Going {A Q I}. Arguments Stopped {A Q I}. Arguments Raised {A Q I}.
Arguments step {A Q I}. Arguments Finished {A Q I}. Arguments Error {A Q I}. Arguments OutOfFuel {A Q I}.
Arguments loop {A Q I}. Arguments run {A Q I}. Arguments init {A Q I}. Arguments determine_starting_state {Q}.

(** * Process counts *)

(** Python's range(a, b) *)
Definition zrange (a b : Z) : list Z := map (fun k => (a + Z.of_nat k)%Z) (seq 0 (Z.to_nat (b - a))).
(** simulation.py:78-86 -- allowed_pe_counts for the cubed sphere *)
Definition allowed_pe_counts (n : Z) : list Z :=
  map (fun i => (i ^ 2 * 6)%Z) (filter (fun i => (n mod i =? 0)%Z) (zrange 1 (Z.max (n / 2 + 1) 2))).
(** simulation.py:209-224 -- _adjust_num_elements for the cubed sphere: the number of elements per process and panel
    side, or ValueError.  int(numpy.sqrt(x)) is modelled by the integer square root. *)
Definition adjust_num_elements (n size : Z) : option Z :=
  if existsb (Z.eqb size) (allowed_pe_counts n) then Some (n / Z.sqrt (size / 6))%Z else None.

(** * Durations *)
Inductive pynum := PyInt (n : Z) | PyFloat (x : R).
Definition value_of (x : pynum) : R := match x with PyInt n => IZR n | PyFloat r => r end.
(** What is displayed: a value with a number of decimals and a unit, or h:mm:ss *)
Inductive shown := Zero | Short (value : R) (decimals : nat) (unit_ : R) | Clock (h m s : Z).
(** output_manager.py:19-36 -- _readable_time; None: ValueError "Unknown format code 'd' for object of type 'float'".
    The unit of the last branch is not printed. *)
Definition readable_time (seconds : pynum) : option shown :=
  let x := value_of seconds in
  if Req_EM_T x 0 then Some Zero
  else if Rlt_dec x (/ 1000000) then Some (Short (x * 1000000000) 1 (/ 1000000000))
  else if Rlt_dec x (/ 1000) then Some (Short (x * 1000000) 1 (/ 1000000))
  else if Rlt_dec x 1 then Some (Short (x * 1000) 1 (/ 1000))
  else if Rlt_dec 1000 x then
    match seconds with
    | PyFloat _ => None                       (* m and s are floats: rem = seconds - h_s *)
    | PyInt n => let rem := (n - n)%Z in Some (Clock (n / 3600) (rem / 60) (rem mod 60))
    end
  else Some (Short x 2 1).
