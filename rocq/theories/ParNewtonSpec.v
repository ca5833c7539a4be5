(** Two runs of newton_krylov or of an integrator on two distributions of the same vectors. *)
From Coq Require Import Reals List ZArith Bool.
From Coquelicot Require Import Hierarchy.
From Verif Require Import StepModel StableModel EpiModel KiopsModel KiopsLinear ParSolveSpec NewtonModel ParNewtonModel ParExpModel.
Import ListNotations.
Local Open Scope R_scope.

(** both raise, or both give a value, and the values are the same; no processes waiting for others *)
Definition same_res {X Y : Type} (r : X -> Y -> Prop) (a : res X) (b : res Y) : Prop := match a, b with Value v, Value w => r v w | Error, Error => True | _, _ => False end.
(** the same solution, the same iterations and residuals, the same announcement *)
Definition same_found {V W : ModuleSpace R_Ring} (rel : V -> W -> Prop) (a : found (V := V)) (b : found (V := W)) : Prop :=
  rel (f_x a) (f_x b) /\ f_it a = f_it b /\ f_residuals a = f_residuals b /\ f_ok a = f_ok b.
(** if the first gives a value, the second gives the same *)
Definition gives {X Y : Type} (r : X -> Y -> Prop) (a : res X) (b : res Y) : Prop := forall v, a = Value v -> exists w, b = Value w /\ r v w.
Definition same_previous {V W : Type} (rel : V -> W -> Prop) (p : option V * V) (p' : option W * W) : Prop := same_option rel (fst p) (fst p') /\ rel (snd p) (snd p').
(** newton_krylov, if it announces a solution after fewer than [lim] iterations *)
Definition call_within {V : ModuleSpace R_Ring} (lim : nat) (holds : list (list (V -> R))) (M : V -> V) (rdiff : R) (o : goptions) (F : V -> V) (x : V) : res V :=
  bind (newton_dist holds F M rdiff o x) (fun a => if (f_ok a && Nat.ltb (f_it a) lim)%bool then Value (f_x a) else Error).
(** two runs of kiops: the same counters and substeps, the same values at the output times *)
Definition same_kiops {V W : ModuleSpace R_Ring} (rel : V -> W -> Prop) (o : option (kstate (X := V))) (o' : option (kstate (X := W))) : Prop :=
  match o, o' with Some f, Some f' => kctl f = kctl f' /\ (forall k, rel (kw f k) (kw f' k)) | None, None => True | _, _ => False end.
(** the implicit integrators with newton_krylov, on two distributions with [size] and [size'] entries per process: the same with a given number of passes; and with the default number, if each solution is found soon enough *)
Definition implicit_same {V W : ModuleSpace R_Ring} (holds : list (list (V -> R))) (holds' : list (list (W -> R))) (rel : V -> W -> Prop) (size size' : nat) (f : V -> V) (f' : W -> W) : Prop :=
  forall M M' rdiff search tol dt n sc q q', same_map rel M M' -> rel q q' ->
  (forall k, same_res rel (implicit_steps sc (call holds M rdiff (usual search tol (Some k))) (call holds (fun v => v) rdiff (usual search tol (Some k))) f dt n q)
    (implicit_steps sc (call holds' M' rdiff (usual search tol (Some k))) (call holds' (fun v => v) rdiff (usual search tol (Some k))) f' dt n q')) /\
  (let a := call_within (100 * (size' + 1)) holds in
   gives rel (implicit_steps sc (a M rdiff (usual search tol None)) (a (fun v => v) rdiff (usual search tol None)) f dt n q)
    (implicit_steps sc (call holds' M' rdiff (usual search tol None)) (call holds' (fun v => v) rdiff (usual search tol None)) f' dt n q')).
(** the exponential integrators with kiops, and the stiffness resilient ones with pmex and with kiops *)
Definition exponential_same {V W : ModuleSpace R_Ring} (holds : list (list (V -> R))) (holds' : list (list (W -> R))) (rel : V -> W -> Prop) (f : V -> V) (f' : W -> W) : Prop :=
  forall expm tol n size q q' dts, rel q q' ->
  (forall order I I' (same_i : I -> I' -> Prop) init init' sub e e' i i', (forall i i' q q' dt, same_i i i' -> rel q q' -> same_i (fst (init i q dt)) (fst (init' i' q' dt)) /\ rel (snd (init i q dt)) (snd (init' i' q' dt))) ->
    Epi order f (fun q r v => matvec_fd v 1 q r f) (kiops_phi holds expm tol n f) init sub = Some e -> Epi order f' (fun q r v => matvec_fd v 1 q r f') (kiops_phi holds' expm tol n f') init' sub = Some e' ->
    same_i i i' -> same_option rel (epi_run e (initial size i) q dts) (epi_run e' (initial size i') q' dts)) /\
  (forall alpha nodes, let same_step a b := fst a = fst b /\ rel (snd a) (snd b) in
    same_option same_step (srerk_run alpha (pmex_solve holds expm tol n) f nodes dts (size, q)) (srerk_run alpha (pmex_solve holds' expm tol n) f' nodes dts (size, q')) /\
    same_option same_step (srerk_run alpha (kiops_solve holds expm tol n) f nodes dts (size, q)) (srerk_run alpha (kiops_solve holds' expm tol n) f' nodes dts (size, q'))).
(** the array of the entries of one process; the entries are linear *)
Definition array_of {V : ModuleSpace R_Ring} (es : list (V -> R)) (v : V) : list R := map (fun e => e v) es.
Definition linear_entry {V : ModuleSpace R_Ring} (e : V -> R) : Prop := (forall u v, e (plus u v) = e u + e v) /\ (forall a v, e (scal (V := V) a v) = a * e v).
(** the same options for the solver of C79; scipy's search sees the norms of x and dx *)
Definition options_of (o : goptions) : options :=
  Opts (go_ftol o) (go_frtol o) (go_xtol o) (go_xrtol o) (match go_maxiter o with Some n => n | None => 0%nat end) (option_map (fun st x fx dx => st (norm2 x) (norm2 dx)) (go_search o)).
(** n steps of the integrators of StepModel and StableModel *)
Definition implicit_plain {V : ModuleSpace R_Ring} (sc : scheme) (newton : newton_t (V := V)) (f : V -> V) (dt : R) (n : nat) (q : V) : V :=
  match sc with
  | CrankNicolson => Nat.iter n (fun Q => crank_nicolson newton f Q dt) q
  | BackwardEuler => Nat.iter n (fun Q => backward_euler newton f Q dt) q
  | Sdirk => Nat.iter n (fun Q => sdirk newton f Q dt) q
  | Bdf2 sub => snd (Nat.iter n (fun s => bdf2 newton f sub (fst s) (snd s) dt) (None, q))
  end.
