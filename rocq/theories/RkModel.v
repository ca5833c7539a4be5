(** Model of wx_factory/integrators/explicit_runge_kutta.py (adaptive explicit Runge-Kutta methods) and of
    wx_factory/solvers/exode.py (the exponential solver built on them). *)
From Coq Require Import Reals List Bool Lra String.
From Coquelicot Require Import Hierarchy.
Import ListNotations.
Local Open Scope R_scope.

(** explicit_runge_kutta.py:16-30 *)
Definition limiter (u kappa : R) : R := 1 + kappa * atan ((u - 1) / kappa).
(** explicit_runge_kutta.py:13 *)
Definition BIG_FACTOR : R := 4.

(** A non-negative double that may be infinite or NaN *)
Inductive ext := Fin (x : R) | Inf | NaN.

(** explicit_runge_kutta.py:53-59 -- n_stages, A, B, C, E of a method *)
Record tableau := { n_stages : nat; tA : list (list R); tB : list R; tC : list R; tE : list R }.

(** explicit_runge_kutta.py:286-291 -- parameters of the step size control.  [powers] are real here. *)
Record control := { error_exponent : R; minbeta1 : R; minbeta2 : R; minalpha : R; safety : R; safety_sc : R }.
(** explicit_runge_kutta.py:125, 287-291 *)
Definition mk_control (error_estimator_order : nat) (kb1 kb2 a g : R) : control :=
  let ee := -1 / (INR error_estimator_order + 1) in
  {| error_exponent := ee; minbeta1 := kb1 * ee; minbeta2 := kb2 * ee; minalpha := - a; safety := g; safety_sc := Rpower g (kb1 + kb2) |}.
(** explicit_runge_kutta.py:257-265 *)
Definition controllers : list (string * (R * R * R * R)) :=
  [("DEADBEAT", (1, 0, 0, 9 / 10)); ("PI3040", (7 / 10, - (4 / 10), 0, 8 / 10)); ("PI4020", (6 / 10, - (2 / 10), 0, 8 / 10));
   ("H211PI", (1 / 6, 1 / 6, 0, 8 / 10)); ("H110", (1 / 3, 0, 0, 8 / 10)); ("H211D", (1 / 2, 1 / 2, 1 / 2, 8 / 10));
   ("H211B", (1 / 4, 1 / 4, 1 / 4, 8 / 10))]%string.

(** explicit_runge_kutta.py:267-284 -- which coefficients are used for the argument [controller] of the constructor, when the
    class has a default controller (all classes have one); [None]: ValueError.  [upper] is str.upper. *)
Inductive controller_arg := NoController | Named (s : string) | Tuple (c : R * R * R * R).
Definition find_controller (name : string) : option (R * R * R * R) :=
  option_map snd (find (fun p => String.eqb (fst p) name) controllers).
Definition choose_controller (upper : string -> string) (default : string) (arg : controller_arg) : option (R * R * R * R) :=
  let controller_str := match arg with Named s => Some (upper s) | NoController => Some (upper default) | Tuple _ => None end in
  (* controller = controller_str or self.controller.upper(): None and the empty string are false *)
  let controller := match controller_str with Some s => if String.eqb s "" then upper default else s | None => upper default end in
  find_controller controller.

(** explicit_runge_kutta.py:448-458 -- the smallest difference between distinct C values, at least 1e-3 *)
Definition cdiff (C : list R) : R :=
  let d := fold_left (fun acc p => let diff := Rabs (fst p - snd p) in if Req_EM_T diff 0 then acc else Rmin acc diff) (list_prod C C) 1 in
  if Rlt_dec d (/ 1000) then / 1000 else d.

Section RK.
Variable V : ModuleSpace R_Ring.

(** What a solver object keeps unchanged.  [enorm y y_new err] stands for global_inf_norm(err / scale) with
    scale = atol + max(|y|, |y_new|) * rtol (lines 366, 370).  max_step: [None] is infinity. *)
Record solver := { tab : tableau; ctl : control; fun_ : R -> V -> V; enorm : V -> V -> V -> ext;
  h_min_a : R; h_min_b : R; max_step : option R; t_bound : R }.
Inductive status := Running | Finished | Failed.
(** h: [None] is NaN (see exode).  error_norm_old: [None] is Python's None. *)
Record state := { t : R; y : V; f : V; h : option R; standard_sc : bool; error_norm_old : option R; stat : status }.

Variable s : solver.

(** K.T @ coefficients *)
Fixpoint comb (c : list R) (K : list V) : V :=
  match c, K with a :: c', k :: K' => plus (scal (V := V) a k) (comb c' K') | _, _ => zero end.

(** explicit_runge_kutta.py:147 *)
Definition FSAL : bool := if Req_EM_T (nth (n_stages (tab s)) (tE (tab s)) 0) 0 then false else true.

(** explicit_runge_kutta.py:354-356 -- stages i, i+1, ..., appended to K[0..i-1] *)
Fixpoint stages (n i : nat) (tt hh : R) (yy : V) (K : list V) : list V :=
  match n with
  | O => K
  | S n' =>
      let dy := scal (V := V) hh (comb (firstn i (nth i (tA (tab s)) [])) K) in
      stages n' (S i) tt hh yy (K ++ [fun_ s (tt + nth i (tC (tab s)) 0 * hh) (plus yy dy)])
  end.
(** explicit_runge_kutta.py:353-356 *)
Definition all_stages (tt hh : R) (yy ff : V) : list V := stages (n_stages (tab s) - 1) 1 tt hh yy [ff].
(** explicit_runge_kutta.py:359 *)
Definition y_new (tt hh : R) (yy ff : V) : V := plus yy (scal (V := V) hh (comb (tB (tab s)) (all_stages tt hh yy ff))).
(** explicit_runge_kutta.py:362-369 *)
Definition err_estimate (tt hh : R) (yy ff : V) : V :=
  let K := all_stages tt hh yy ff in
  let yn := y_new tt hh yy ff in
  scal (V := V) hh (if FSAL then comb (tE (tab s)) (K ++ [fun_ s (tt + hh) yn]) else comb (firstn (n_stages (tab s)) (tE (tab s))) K).
(** explicit_runge_kutta.py:366-370 *)
Definition error_norm (tt hh : R) (yy ff : V) : ext := enorm s yy (y_new tt hh yy ff) (err_estimate tt hh yy ff).

(** explicit_runge_kutta.py:485-507 -- _reassess_stepsize: step size, minimum and the new standard_sc *)
Definition reassess (tt hh : R) (sc : bool) : R * R * bool :=
  let min_step := Rmax (h_min_a s * (Rabs tt + hh)) (h_min_b s) in
  let over := match max_step s with None => false | Some m => if Rlt_dec m hh then true else false end in
  let out := (if Rlt_dec hh min_step then true else false) || over in
  let h1 := if out then (match max_step s with None => Rmax min_step hh | Some m => Rmin m (Rmax min_step hh) end) else hh in
  let sc1 := out || sc in
  let d := Rabs (t_bound s - tt) in
  if Rlt_dec d (2 * h1) then
    if Rlt_dec h1 d then (Rmax (/ 2 * d) min_step, min_step, true) else (d, min_step, sc1)
  else (h1, min_step, sc1).

(** explicit_runge_kutta.py:378-395 -- the factor after an accepted attempt, and the new standard_sc; [None]: TypeError
    because error_norm_old is None *)
Definition factor (x hh h_previous : R) (sc : bool) (old : option R) (rejected : bool) : option (R * bool) :=
  let c := ctl s in
  let fac :=
    if Rlt_dec x (h_min_b s) then Some (BIG_FACTOR, true)
    else if sc then Some (safety c * Rpower x (error_exponent c), false)
    else match old with
         | None => None
         | Some o => Some (safety_sc c * (Rpower x (minbeta1 c) * Rpower o (minbeta2 c) * Rpower (hh / h_previous) (minalpha c)), sc)
         end in
  match fac with None => None | Some (u, sc') => Some (if rejected then Rmin 1 u else u, sc') end.

(** The outcome of the loop of _step_impl; [tried]: the step sizes of the rejected attempts, in order (ghost) *)
Inductive outcome :=
| Accepted (tried : list R) (h_used h_next x : R) (sc : bool)
| Rejected (tried : list R)
| Crash
| OutOfFuel.

(** explicit_runge_kutta.py:345-418 -- the loop; a NaN or infinite error norm ends it (lines 408-418) *)
Fixpoint loop (fuel : nat) (tt : R) (yy ff : V) (min_step h_previous : R) (sc : bool) (old : option R) (hh : R) (tried : list R) : outcome :=
  match fuel with
  | O => OutOfFuel
  | S fuel' =>
      if Rlt_dec hh min_step then Rejected tried else
      match error_norm tt hh yy ff with
      | Fin x =>
          if Rlt_dec x 1 then
            match factor x hh h_previous sc old (match tried with [] => false | _ => true end) with
            | None => Crash
            | Some (u, sc') => Accepted tried hh (hh * limiter u 2) x sc'
            end
          else
            let h' := hh * limiter (safety (ctl s) * Rpower x (error_exponent (ctl s))) 2 in
            if Rlt_dec h' (/ 10 ^ 12) then Rejected (tried ++ [hh])
            else loop fuel' tt yy ff min_step h_previous sc old h' (tried ++ [hh])
      | _ => Rejected (tried ++ [hh])
      end
  end.

(** explicit_runge_kutta.py:294-322 and 324-435 -- step and _step_impl.  [None]: RuntimeError or TypeError or out of fuel.
    With h NaN (only exode can do this) every comparison is false, y_new and error_norm are NaN and lines 416-418 return
    False.  Empty states (n = 0, line 307) are not modelled. *)
Definition step (fuel : nat) (st : state) : option state :=
  match stat st with
  | Running =>
      if Req_EM_T (t st) (t_bound s) then
        Some {| t := t_bound s; y := y st; f := f st; h := h st; standard_sc := standard_sc st; error_norm_old := error_norm_old st; stat := Finished |}
      else
        match h st with
        | None => Some {| t := t st; y := y st; f := f st; h := h st; standard_sc := standard_sc st; error_norm_old := error_norm_old st; stat := Failed |}
        | Some h0 =>
            let '(h1, min_step, sc1) := reassess (t st) h0 (standard_sc st) in
            match loop fuel (t st) (y st) (f st) min_step h1 sc1 (error_norm_old st) h1 [] with
            | Accepted _ h_used h_next x sc2 =>
                let yn := y_new (t st) h_used (y st) (f st) in
                let tn := t st + h_used in
                Some {| t := tn; y := yn; f := (if FSAL then fun_ s (t st + h_used) yn else fun_ s (t st + h_next) yn);
                        h := Some h_next; standard_sc := sc2; error_norm_old := Some x;
                        stat := if Rle_dec 0 (tn - t_bound s) then Finished else Running |}
            | Rejected _ => Some {| t := t st; y := y st; f := f st; h := h st; standard_sc := sc1; error_norm_old := error_norm_old st; stat := Failed |}
            | Crash | OutOfFuel => None
            end
        end
  | _ => None
  end.

(** explicit_runge_kutta.py:62-151 -- the constructor; [None]: ValueError.  Comparisons with NaN are false. *)
Definition construct (t0 : R) (y0 : V) (first_step : option R) : option state :=
  match first_step with
  | Some fs => if Rle_dec fs 0 then None else if Rlt_dec (Rabs (t_bound s - t0)) fs then None
               else Some {| t := t0; y := y0; f := fun_ s t0 y0; h := Some fs; standard_sc := true; error_norm_old := None; stat := Running |}
  | None => Some {| t := t0; y := y0; f := fun_ s t0 y0; h := None; standard_sc := true; error_norm_old := None; stat := Running |}
  end.

(** exode.py:64-118 -- call step until the solver is no longer running; the times reached, in order, and the final state *)
Fixpoint drive (fuel n : nat) (st : state) (ts : list R) : option (state * list R) :=
  match n with
  | O => None
  | S n' =>
      match step fuel st with
      | None => None
      | Some st' =>
          match stat st' with
          | Running => drive fuel n' st' (ts ++ [t st'])
          | Finished => Some (st', ts ++ [t st'])
          | Failed => Some (st', ts)
          end
      end
  end.
End RK.
Arguments tab {V} _.
Arguments ctl {V} _.
Arguments fun_ {V} _ _ _.
Arguments enorm {V} _ _ _ _.
Arguments h_min_a {V} _.
Arguments h_min_b {V} _.
Arguments max_step {V} _.
Arguments t_bound {V} _.
Arguments t {V} _.
Arguments y {V} _.
Arguments f {V} _.
Arguments h {V} _.
Arguments standard_sc {V} _.
Arguments error_norm_old {V} _.
Arguments stat {V} _.
Arguments step {V} _ _ _.
Arguments construct {V} _ _ _ _.
Arguments drive {V} _ _ _ _ _.
Arguments y_new {V} _ _ _ _ _.
Arguments error_norm {V} _ _ _ _ _.
Arguments err_estimate {V} _ _ _ _ _.
Arguments all_stages {V} _ _ _ _ _.
Arguments reassess {V} _ _ _ _.
Arguments loop {V} _ _ _ _ _ _ _ _ _ _ _.
Arguments factor {V} _ _ _ _ _ _ _.
Arguments FSAL {V} _.
Arguments comb {V} _ _.
Arguments stages {V} _ _ _ _ _ _ _.

(** exode.py:38-42 -- the right-hand side: A(x) + sum_{j<p} t^j / j! * u[j+1] *)
Definition exode_fun {V : ModuleSpace R_Ring} (A : V -> V) (u : list V) (tt : R) (x : V) : V :=
  fold_left (fun acc j => plus acc (scal (V := V) (tt ^ j / INR (fact j)) (nth (S j) u zero))) (seq 0 (List.length u - 1)) (A x).

(** numpy.median(numpy.diff(ts)): NaN for fewer than two values; otherwise [median], left abstract by callers *)
Definition diffs (ts : list R) : list R := match ts with [] => [] | _ :: r => map (fun p => snd p - fst p) (combine ts r) end.
(** exode.py:9-137 -- one call: the solution and the first_step remembered in the function object for the next call.
    [first]: exode.first_step, [None] when absent, [Some None] when NaN; tau_out only serves as the very first step size.
    The final status is not looked at after the loop.  [None]: an exception.  The branch p = 0 is not modelled. *)
Definition exode {V : ModuleSpace R_Ring} (mk : (R -> V -> V) -> solver V) (median : list R -> R) (fuel n : nat)
  (tau_out : R) (A : V -> V) (u : list V) (first : option (option R)) : option (V * option R) :=
  let fs := match first with None => Some tau_out | Some x => x end in
  let s := mk (exode_fun A u) in
  match construct s 0 (nth 0 u zero) fs with
  | None => None
  | Some st =>
      match drive s fuel n st [0] with
      | None => None
      | Some (st', ts) => Some (y st', match diffs ts with [] => None | d => Some (median d) end)
      end
  end.
