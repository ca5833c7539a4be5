(** Specification vocabulary for properties C19 to C24, C26 and C53. *)
From Coq Require Import ZArith Reals List Bool.
From Verif Require Import SimModel.
Import ListNotations.
Local Open Scope R_scope.

(** The calls an ideal time loop makes to go from step s0 to step s0 + n: call number j (from 1) reaches the time
    min(t_end, (s0 + j) dt), with the step size that leads there from min(t_end, (s0 + j - 1) dt). *)
Definition time_at (t_end dt : R) (k : Z) : R := Rmin t_end (dt * IZR k).
Definition ideal_call (t_end dt : R) (s0 : Z) (c : call R_arith) (j : nat) : Prop :=
  let k := (s0 + Z.of_nat j)%Z in
  c_step c = k /\ c_t c = time_at t_end dt k /\ c_dt c = time_at t_end dt k - time_at t_end dt (k - 1).
Definition ideal_calls (t_end dt : R) (s0 : Z) (l : list (call R_arith)) : Prop :=
  forall j c, nth_error l j = Some c -> ideal_call t_end dt s0 c (S j).

(** The number of steps needed: the least k >= s0 with k dt >= t_end, minus s0 *)
Definition steps_needed (t_end dt : R) (s0 n : Z) : Prop :=
  (0 <= n)%Z /\ t_end <= dt * IZR (s0 + n) /\ forall k, (s0 <= k < s0 + n)%Z -> dt * IZR k < t_end.

(** The integrator reports success at every step and no NaN appears *)
Definition never_fails {A Q I} (e : env A Q I) : Prop := (forall i, failure_flag e i = 0%Z) /\ (forall x, has_nan e x = false).

(** The steps at which an action was performed *)
Definition wrote_at {T Q} (l : list (event T Q)) : list Z := flat_map (fun e => match e with Wrote s _ _ => [s] | _ => [] end) l.
Definition saved_at {T Q} (l : list (event T Q)) : list Z := flat_map (fun e => match e with Saved s _ => [s] | _ => [] end) l.
Definition stats_at {T Q} (l : list (event T Q)) : list Z := flat_map (fun e => match e with Stats s _ => [s] | _ => [] end) l.

(** l is the increasing list of the multiples of freq between a and b (empty when freq <= 0) *)
Fixpoint increasing (l : list Z) : Prop := match l with x :: ((y :: _) as r) => (x < y)%Z /\ increasing r | _ => True end.
Definition multiples_between (freq a b : Z) (l : list Z) : Prop :=
  increasing l /\ forall s, In s l <-> ((0 < freq)%Z /\ (a <= s <= b)%Z /\ exists k, s = (k * freq)%Z).

(** The part of the simulation that matters for its future: everything but output *)
Definition same_trajectory {A Q I} (s1 s2 : sim A Q I) : Prop :=
  t s1 = t s2 /\ dt s1 = dt s2 /\ step_id s1 = step_id s2 /\ q s1 = q s2.
Definition same_state {A Q I} (s1 s2 : sim A Q I) : Prop := same_trajectory s1 s2 /\ integ s1 = integ s2.

(** [k] successful steps of the loop *)
Inductive steps {A Q I} (e : env A Q I) : nat -> sim A Q I -> sim A Q I -> Prop :=
| steps_0 s : steps e 0 s s
| steps_S n s s1 s2 : step e s = Going s1 -> steps e n s1 s2 -> steps e (S n) s s2.

(** The same simulation with another starting step and other output frequencies *)
Definition restarted {A Q I} (e : env A Q I) (k : Z) (fr : freqs) : env A Q I :=
  {| t_end := t_end e; starting_step := k; integ_step := integ_step e; failure_flag := failure_flag e; filters := filters e; has_nan := has_nan e;
     winds := winds e; out_freqs := fr; write_effect := write_effect e |}.
Definition with_freqs {A Q I} (e : env A Q I) (fr : freqs) : env A Q I := restarted e (starting_step e) fr.

(** A one-step integrator: what it computes does not depend on its internal state *)
Definition memoryless {A Q I} (e : env A Q I) : Prop := forall i i' x d,
  snd (integ_step e i x d) = snd (integ_step e i' x d) /\ failure_flag e (fst (integ_step e i x d)) = failure_flag e (fst (integ_step e i' x d)).

(** Two runs that end in the same way after the same calls of the integrator *)
Definition twin {A Q I} (s1 s2 : sim A Q I) : Prop := same_state s1 s2 /\ calls s1 = calls s2 /\ initial_q s1 = initial_q s2.
Definition twins {A Q I} (r1 r2 : run_result A Q I) : Prop :=
  match r1, r2 with Finished a, Finished b => twin a b | Error a, Error b => twin a b | OutOfFuel, OutOfFuel => True | _, _ => False end.

(** What the calls made so far do to the integrator's internal state and to the model state: each call advances the state
    with its step size, applies the filters, checks for NaN, and imposes the prescribed winds of the time reached *)
Inductive evolves {A Q I} (e : env A Q I) (i : I) (x : Q) : list (call A) -> I -> Q -> Prop :=
| evolves_nil : evolves e i x [] i x
| evolves_snoc cs i1 x1 c i2 x2 : evolves e i x cs i1 x1 -> integ_step e i1 x1 (c_dt c) = (i2, x2) -> c_flag c = failure_flag e i2 ->
    has_nan e (filters e x2 (c_dt c)) = false -> evolves e i x (cs ++ [c]) i2 (winds e (c_t c) (filters e x2 (c_dt c))).
