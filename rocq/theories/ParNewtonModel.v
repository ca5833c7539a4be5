(** newton_krylov and the integrators that use it, on several processes. The same text as NewtonModel, StepModel and StableModel, with vectors distributed as in ParSolveModel, fgmres in it, and what goes wrong as a value. *)
From Coq Require Import Reals List ZArith Bool Arith.
From Coquelicot Require Import Hierarchy.
From Verif Require Import StepModel StableModel FgmresModel NewtonModel ParSolveModel.
Import ListNotations.
Local Open Scope R_scope.

(** what a call gives on all the processes together: an exception, processes that wait for others which have returned, or a value *)
Inductive res (X : Type) := Error | Apart | Value (v : X).
Arguments Error {X}. Arguments Apart {X}. Arguments Value {X} v.
Definition bind {X Y : Type} (r : res X) (f : X -> res Y) : res Y := match r with Error => Error | Apart => Apart | Value v => f v end.

Section Newton.
Context {V : ModuleSpace R_Ring}.
Variable holds : list (list (V -> R)).
(** global_operations.py 16-28 *)
Definition gnorm (v : V) : R := sqrt (global_dotprod holds v v).
(** global_operations.py 37-40: amax of each process, then allreduce with MAX; the arrays are not empty *)
Definition largest (l : list R) : R := fold_right Rmax 0 l.
Definition ginf (v : V) : R := largest (map (fun es => largest (map (fun e => Rabs (e v)) es)) holds).
(** nonlin.py 191-194 *)
Definition diff_step (rdiff : R) (x f : V) : R := rdiff * Rmax 1 (ginf x) / Rmax 1 (ginf f).
(** nonlin.py 196-201 *)
Definition jac_product (F : V -> V) (rdiff : R) (x f v : V) : V :=
  if Req_EM_T (gnorm v) 0 then scal (V := V) 0 v else
  let sc := diff_step rdiff x f / gnorm v in scal (V := V) (/ sc) (minus (F (plus x (scal (V := V) sc v))) f).
(** nonlin.py 203-213; fgmres.py 64-76: x0=None, hegedus=False. [M]: the preconditioner, or the identity *)
Definition jac_solve (F M : V -> V) (rdiff : R) (restart fmaxiter : nat) (x f : V) (tol : R) : res V :=
  match dist_fgmres holds (jac_product F rdiff x f) M f None tol restart fmaxiter false with Raised => Error | Split => Apart | Returned a => Value (a_x a) end.

(** nonlin.py 125-144: the last step stored, its value and its vector *)
Record gmemory := GMem { g_s : R; g_phi : R; g_fx : V }.
Definition gphi (F : V -> V) (x dx : V) (m : gmemory) (s : R) (store : bool) : R * gmemory :=
  if Req_EM_T s (g_s m) then (g_phi m, m) else
  let v := F (plus x (scal (V := V) s dx)) in let p := gnorm v * gnorm v in (p, if store then GMem s p v else m).
(** scipy's searches (see NewtonModel): they see the norms of x and dx (128, 147) and the values of phi *)
Fixpoint gsearch (F : V -> V) (x dx : V) (m : gmemory) (t : search) : option R * gmemory :=
  match t with Stop s => (s, m) | Ask s store next => let (p, m') := gphi F x dx m s store in gsearch F x dx m' (next p) end.
(** nonlin.py 124-170; the new x and F(x) *)
Definition gline (F : V -> V) (x fx dx : V) (strategy : R -> R -> R -> search) : V * V :=
  let phi0 := gnorm fx * gnorm fx in
  let (so, m) := gsearch F x dx (GMem 0 phi0 fx) (strategy (gnorm x) (gnorm dx) phi0) in
  let s := match so with Some s => s | None => 1 end in
  let x' := plus x (scal (V := V) s dx) in
  (x', if Req_EM_T s (g_s m) then g_fx m else F x').

(** the arguments of newton_krylov but the first two; line_search=None: no strategy *)
Record goptions := GOpts { go_ftol : num; go_frtol : num; go_xtol : num; go_xrtol : num; go_maxiter : option nat; go_search : option (R -> R -> R -> search); go_restart : nat; go_fmaxiter : nat }.
(** x, iterations, residuals, and whether a solution is announced *)
Record found := Found { f_x : V; f_it : nat; f_residuals : list R; f_ok : bool }.
Record gstate := GSt { gs_x : V; gs_fx : V; gs_norm : R; gs_eta : R; gs_dx : num }.
Variables (F M : V -> V) (rdiff : R) (o : goptions).
(** nonlin.py 88-109 *)
Definition gstep (s : gstate) : res gstate :=
  bind (jac_solve F M rdiff (go_restart o) (go_fmaxiter o) (gs_x s) (gs_fx s) (Rmin (gs_eta s) (gs_eta s * gs_norm s))) (fun sol =>
  let dx := opp sol in
  let (x', fx') := match go_search o with
    | Some strategy => gline F (gs_x s) (gs_fx s) dx strategy
    | None => let x' := plus (gs_x s) dx in (x', F x') end in
  Value (GSt x' fx' (gnorm fx') (next_eta (gs_eta s) (gs_norm s) (gnorm fx')) (Fin (ginf dx)))).
(** nonlin.py 81-83 *)
Definition gconverged (f0 : R) (s : gstate) : bool :=
  let f := Fin (ginf (gs_fx s)) in
  (le_num f (go_ftol o) && le_num (div_num f (go_frtol o)) (Fin f0)) && (le_num (gs_dx s) (go_xtol o) && le_num (div_num (gs_dx s) (go_xrtol o)) (Fin (ginf (gs_x s)))).
(** nonlin.py 65-121 -- [k] passes are left, [n] have been made. [more]: some process is allowed more passes than another *)
Fixpoint gloop (k n : nat) (f0 : R) (s : gstate) (residuals : list R) (more : bool) : res found :=
  match k with
  | O => if more then Apart else Value (Found (gs_x s) (n - 1) residuals false)
  | S k' => let r := residuals ++ [ginf (gs_fx s)] in
      if gconverged f0 s then Value (Found (gs_x s) n r true) else bind (gstep s) (fun s' => gloop k' (S n) f0 s' r more)
  end.
(** nonlin.py 57-58: how many passes each process allows: the size is that of its own part *)
Definition limits : list nat := map (fun es => match go_maxiter o with Some n => n | None => 100 * (length es + 1) end)%nat holds.
Definition lowest (l : list nat) : nat := match l with [] => 0%nat | n :: l => fold_right Nat.min n l end.
Definition highest (l : list nat) : nat := fold_right Nat.max 0%nat l.
(** nonlin.py 12-121. No pass: UnboundLocalError (118) *)
Definition newton_dist (x0 : V) : res found :=
  let fx := F x0 in let lo := lowest limits in
  if Nat.eqb lo 0 then Error else gloop lo 0 (ginf fx) (GSt x0 fx (gnorm fx) (1 / 1000) Inf) [] (negb (Nat.eqb lo (highest limits))).
End Newton.

(** ** integrators; [newton f x0] is newton_krylov *)
Section Integrators.
Context {V : ModuleSpace R_Ring}.
Variables (newton : (V -> V) -> V -> res V) (rhs : V -> V).
(** crank_nicolson.py 17-41 *)
Definition cn_dist (dt : R) (Q : V) : res V := newton (cn_fun rhs Q dt) Q.
(** backward_euler.py 20-44 *)
Definition be_dist (dt : R) (Q : V) : res V := newton (be_fun rhs Q dt) Q.
(** sdirk.py 30-69 *)
Definition sdirk_dist (dt : R) (Q : V) : res V :=
  bind (newton (sdirk_fun1 rhs Q dt) Q) (fun Q1 => bind (newton (sdirk_fun2 rhs Q Q1 dt) Q) (fun Q2 =>
  Value (plus Q (scal (V := V) dt (plus (scal (V := V) (1 / 2) (rhs Q1)) (scal (V := V) (1 / 2) (rhs Q2))))))).
(** bdf2.py 16-44; the state is Qprev; [newton1]: the calls of the start-up, without preconditioner *)
Fixpoint bdf2_first (newton1 : (V -> V) -> V -> res V) (init_dt : R) (n : nat) (newQ : V) : res V :=
  match n with O => Value newQ | S n' => bind (newton1 (bdf2_start_fun rhs newQ init_dt) newQ) (bdf2_first newton1 init_dt n') end.
Definition bdf2_dist (newton1 : (V -> V) -> V -> res V) (substeps : nat) (dt : R) (Qprev : option V) (Q : V) : res (option V * V) :=
  bind (match Qprev with None => bdf2_first newton1 (dt / INR substeps) substeps Q | Some P => newton (bdf2_fun rhs Q P dt) Q end) (fun newQ => Value (Some Q, newQ)).
End Integrators.

(** ** steps of the integrators *)
Inductive scheme := CrankNicolson | BackwardEuler | Sdirk | Bdf2 (init_substeps : nat).
(** [n] steps, each from the result of the one before *)
Fixpoint res_steps {S : Type} (step : S -> res S) (n : nat) (s : S) : res S := match n with O => Value s | S n => bind (step s) (res_steps step n) end.
(** [nw]: newton_krylov with the preconditioner, [nw1]: without *)
Definition implicit_steps {V : ModuleSpace R_Ring} (sc : scheme) (nw nw1 : (V -> V) -> V -> res V) (f : V -> V) (dt : R) (n : nat) (q : V) : res V :=
  match sc with
  | CrankNicolson => res_steps (cn_dist nw f dt) n q
  | BackwardEuler => res_steps (be_dist nw f dt) n q
  | Sdirk => res_steps (sdirk_dist nw f dt) n q
  | Bdf2 sub => bind (res_steps (fun s => bdf2_dist nw f nw1 sub dt (fst s) (snd s)) n (None, q)) (fun s => Value (snd s))
  end.
(** the options of newton_krylov in the integrators: the tolerance and the number of passes; restart is 30 and fgmres makes one cycle *)
Definition usual (search : option (R -> R -> R -> search)) (tol : R) (maxiter : option nat) : goptions := GOpts (Fin tol) Inf Inf Inf maxiter search 30 1.
(** the integrators take the solution, announced or not (crank_nicolson.py 28, 41 and others) *)
Definition call {V : ModuleSpace R_Ring} (holds : list (list (V -> R))) (M : V -> V) (rdiff : R) (o : goptions) (F : V -> V) (x : V) : res V := bind (newton_dist holds F M rdiff o x) (fun a => Value (f_x a)).
