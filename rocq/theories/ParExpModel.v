(** kiops and the stiffness resilient methods on several processes. *)
From Coq Require Import Reals List ZArith Bool.
From Coquelicot Require Import Hierarchy.
From Verif Require Import StepModel KiopsModel PmexModel KiopsLinear SrerkModel ParSolveModel.
Import ListNotations.
Local Open Scope R_scope.

Section Kiops.
Context {V : ModuleSpace R_Ring}.
Variable holds : list (list (V -> R)).
(** kiops.py, at most [n] passes of its loop, with the default iop=2 (line 18). The norm of lines 111-116 and the scaling of lines 118-125 are those of pmex; all tests are on sums over the processes *)
Definition kiops_dist (expm : nat -> (nat -> nat -> R) -> nat -> nat -> R) (a : args) (n : nat) (A : V -> V) (u : nat -> V) (p : nat) : option (kstate (X := V)) :=
  k_run (global_dotprod holds) A u p (scale_ex (norm_u holds u p)) 2 expm a n (k_start u a).
(** epi.py 337, srerk.py 107 and 114: math.floor(0.7 * stats[5] + 0.3 * self.krylov_size) *)
Definition next_size (m size : Z) : Z := Int_part (7 / 10 * IZR m + 3 / 10 * IZR size).
(** epi.py 325-337, exponential_solver = "kiops". Where kiops raises, the value has no meaning, as in pmex_phi *)
Definition kiops_phi (expm : nat -> (nat -> nat -> R) -> nat -> nat -> R) (tol : R) (n : nat) (rhs : V -> V) (size : Z) (dt : R) (q f : V) (vec : list V) : Z * V :=
  match kiops_dist expm (Args [1] tol size 16 64) n (fun v => matvec_fd v dt q f rhs) (fun i => nth i vec zero) (length vec - 1) with
  | None => (size, zero) | Some s => (next_size (m (kctl s)) size, kw s 0) end.
(** srerk.py 86-114, 287-313: the solver for the given times; the new size of the basis and one vector per time. [None]: it raises *)
Definition pmex_solve (expm : nat -> (nat -> nat -> R) -> nat -> nat -> R) (tol : R) (n : nat) (size : Z) (ts : list R) (A : V -> V) (us : list V) : option (Z * list V) :=
  match pmex_dist holds expm (Args ts tol size 16 64) 1.2 n A (fun i => nth i us zero) (length us - 1) with
  | None => None | Some s => Some (next_size (m (ctl s)) size, map (w s) (seq 0 (length ts))) end.
Definition kiops_solve (expm : nat -> (nat -> nat -> R) -> nat -> nat -> R) (tol : R) (n : nat) (size : Z) (ts : list R) (A : V -> V) (us : list V) : option (Z * list V) :=
  match kiops_dist expm (Args ts tol size 16 64) n A (fun i => nth i us zero) (length us - 1) with
  | None => None | Some s => Some (next_size (m (kctl s)) size, map (kw s) (seq 0 (length ts))) end.
End Kiops.

Section Srerk.
Context {V : ModuleSpace R_Ring}.
(** as SrerkModel, with the size of the basis kept from call to call *)
Variables (alpha : list R -> nat -> nat -> R) (solve : Z -> list R -> (V -> V) -> list V -> option (Z * list V)) (rhs : V -> V).
(** srerk.py 282-573 *)
Fixpoint projections_dist (matvec : V -> V) (q : V) (dt : R) (prev : list R) (rest : list (list R)) (size : Z) (z : list V) : option (Z * list V) :=
  match rest with
  | [] => Some (size, z)
  | c :: r => match solve size c matvec (stage_input V alpha rhs matvec q dt prev z) with None => None | Some (size, z) => projections_dist matvec q dt c r size z end
  end.
(** srerk.py 75-81, 576; the Jacobian with finite differences. The state is krylov_size *)
Definition srerk_dist (nodes : list (list R)) (dt : R) (s : Z * V) : option (Z * V) :=
  let q := snd s in let matvec v := matvec_fd v dt q (rhs q) rhs in
  match nodes with
  | [] => None
  | c0 :: rest =>
    match solve (fst s) c0 matvec [zero; rhs q] with
    | None => None
    | Some (size, z) => match projections_dist matvec q dt c0 rest size z with Some (size, [z]) => Some (size, plus q (scal (V := V) dt z)) | _ => None end
    end
  end.
(** steps of the given lengths *)
Fixpoint srerk_run (nodes : list (list R)) (dts : list R) (s : Z * V) : option (Z * V) :=
  match dts with [] => Some s | dt :: dts => match srerk_dist nodes dt s with None => None | Some s => srerk_run nodes dts s end end.
End Srerk.
