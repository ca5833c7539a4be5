(** The statistics printed during a run on the two-dimensional cubed sphere: wx_factory/output/output_cubesphere.py, __blockstats__ (lines 41-127), with global_integral_2d of wx_factory/output/diagnostic.py (60-65) and the calls made by wx_factory/output/output_manager.py (144-148) and wx_factory/simulation/simulation.py (126-174).
    Numbers are exact reals. The fields (depth, energy, enstrophy, analytic depth) are arbitrary; energy and enstrophy are modelled in DiagModel. Printing is left out: a report is what is printed. *)
From Coq Require Import Reals List Arith ZArith Bool.
Import ListNotations.
Local Open Scope R_scope.

(** the tile of a process: number of elements, sqrtG *)
Record tile := Tile { elements : nat; sqrtG : nat -> nat -> R }.
(** a field: process, element, point *)
Definition field := nat -> nat -> nat -> R.
Definition total (l : list R) : R := fold_right Rplus 0 l.

Section Grid.
Variables (ns : nat) (quad_weights : nat -> nat -> R) (tiles : list tile).
(** the elements and points of a tile in the shape (ny, nx, num_solpts, num_solpts); ny and nx are one index *)
Definition cells (t : tile) : list (nat * (nat * nat)) := list_prod (seq 0 (elements t)) (list_prod (seq 0 ns) (seq 0 ns)).
(** diagnostic.py 63 *)
Definition local_sum (r : nat) (t : tile) (f : field) : R := total (map (fun c => let '(e, (i, k)) := c in f r e (i * ns + k)%nat * sqrtG t e (i * ns + k)%nat * quad_weights i k) (cells t)).
(** diagnostic.py 65: allreduce *)
Definition global_integral (f : field) : R := total (map (fun p => local_sum (fst p) (snd p) f) (combine (seq 0 (length tiles)) tiles)).
(** numpy.max; an empty array raises *)
Definition largest (l : list R) : option R := match l with [] => None | x :: l => Some (fold_right Rmax x l) end.
Fixpoint each {A B} (f : A -> option B) (l : list A) : option (list B) :=
  match l with [] => Some [] | a :: l => match f a, each f l with Some b, Some r => Some (b :: r) | _, _ => None end end.
(** comm.allreduce(numpy.max(f), op=MPI.MAX): output_cubesphere.py 102-103 *)
Definition global_max (f : field) : option R :=
  match each (fun p => largest (map (fun c => let '(e, (i, k)) := c in f (fst p) e (i * ns + k)%nat) (cells (snd p)))) (combine (seq 0 (length tiles)) tiles) with
  | Some l => largest l
  | None => None
  end.
(** the fields of one step *)
Record fields := Fields { depth : field; energy : field; enstrophy : field }.
(** a quotient of two numpy numbers; None: not finite *)
Definition quot (a b : R) : option R := if Req_EM_T b 0 then None else Some (a / b).
(** l1, l2 and linf: output_cubesphere.py 92-107. math.sqrt is of a number that is not negative *)
Record errors := Errors { l1 : option R; l2 : option R; linf : option R }.
Definition error_norms (h exact : field) : option errors :=
  let absol_err := global_integral (fun r e p => Rabs (h r e p - exact r e p)) in
  let int_h_anal := global_integral (fun r e p => Rabs (exact r e p)) in
  let absol_err2 := global_integral (fun r e p => (h r e p - exact r e p) ^ 2) in
  let int_h_anal2 := global_integral (fun r e p => exact r e p ^ 2) in
  match global_max (fun r e p => Rabs (h r e p - exact r e p)), global_max exact with
  | Some max_absol_err, Some max_h_anal => Some (Errors (quot absol_err int_h_anal) (option_map sqrt (quot absol_err2 int_h_anal2)) (quot max_absol_err max_h_anal))
  | _, _ => None
  end.
(** initial_mass, initial_energy, initial_enstrophy *)
Record integrals := Integrals { mass : R; total_energy : R; total_enstrophy : R }.
Definition integrate (q : fields) : integrals := Integrals (global_integral (depth q)) (global_integral (energy q)) (global_integral (enstrophy q)).
Record changes := Changes { d_mass : option R; d_energy : option R; d_enstrophy : option R }.
(** 118-120 *)
Definition normalized (now first : integrals) : changes :=
  let rel a b := quot (a - b) b in Changes (rel (mass now) (mass first)) (rel (total_energy now) (total_energy first)) (rel (total_enstrophy now) (total_enstrophy first)).
Record report := Report { norms : option errors; drift : option changes }.

(** 48-55: the analytic depth, given the time at which it is evaluated (step * config.dt: shallow_water_test.py 121; cases 2 and 10 are steady). height_vortex unpacks a shape of three numbers into two and raises (shallow_water_test.py 92), and other cases below 2 have no analytic depth *)
Variable analytic : Z -> R -> field.
Definition known (case : Z) : bool := (case =? 1)%Z || (case =? 2)%Z || (case =? 10)%Z.
(** 41-127 -- __blockstats__: [first] are the integrals kept from the first call; None: an exception *)
Definition blockstats (case : Z) (time : R) (q : fields) (first : option integrals) : option (option integrals * report) :=
  let first1 := if (2 <=? case)%Z then match first with None => Some (integrate q) | Some _ => first end else first in
  let drift := if (2 <=? case)%Z then match first1 with Some i => Some (normalized (integrate q) i) | None => None end else None in
  if (case <=? 2)%Z || (case =? 10)%Z then
    if known case then match error_norms (depth q) (analytic case time) with Some n => Some (first1, Report (Some n) drift) | None => None end else None
  else Some (first1, Report None drift).

(** the clock of a run: time and config.dt. simulation.py 129 and 133-138; the step is shortened to end at t_end, and config.dt with it *)
Definition tick (t_end : R) (c : R * R) : R * R :=
  let (t, dt) := c in if Rlt_dec t t_end then if Rlt_dec t_end (t + dt) then (t_end, t_end - t) else (t + dt, dt) else c.
Definition clock (t_end dt : R) (start n : nat) : R * R := Nat.iter n (tick t_end) (dt * INR start, dt).
(** the statistics of step start and of the [n] steps after it: output_manager.py 144 (stat_freq is positive), simulation.py 126 and 174. [state s]: the fields after step s *)
Fixpoint printed (case : Z) (freq : nat) (t_end dt : R) (state : nat -> fields) (start : nat) (first : option integrals) (s n : nat) : option (list (nat * report)) :=
  match (if Nat.eqb (s mod freq) 0 then match blockstats case (INR s * snd (clock t_end dt start (s - start))) (state s) first with Some (f, r) => Some (f, [(s, r)]) | None => None end else Some (first, [])) with
  | None => None
  | Some (f, out) => match n with O => Some out | S n => match printed case freq t_end dt state start f (S s) n with Some l => Some (out ++ l) | None => None end end
  end.
(** initial_mass and the others are None when the output is created: 36-38 *)
Definition run (case : Z) (freq : nat) (t_end dt : R) (state : nat -> fields) (start n : nat) : option (list (nat * report)) := printed case freq t_end dt state start None start n.
End Grid.
