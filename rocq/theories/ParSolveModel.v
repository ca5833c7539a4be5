(** fgmres on several processes. Each process holds some of the entries of every vector; sums over all entries are made by allreduce, the test for stagnation by each process for itself. *)
From Coq Require Import Reals List ZArith Bool.
From Coquelicot Require Import Hierarchy.
From Verif Require Import InnerSpec StepModel FgmresModel KiopsModel PmexModel.
Import ListNotations.
Local Open Scope R_scope.

Section Distributed.
Context {V : ModuleSpace R_Ring}.
(** [V]: vectors, as all the processes together hold them; the list has for each process the entries it holds *)
Variable holds : list (list (V -> R)).
(** global_operations.py 23-35: vec1 @ vec2 of each process, then allreduce *)
Definition total (l : list R) : R := fold_right Rplus 0 l.
Definition local_dot (es : list (V -> R)) (u v : V) : R := total (map (fun e => e u * e v) es).
Definition global_dotprod (u v : V) : R := total (map (fun es => local_dot es u v) holds).
(** fgmres.py 260-264: what one process finds. indices = x != 0; if indices.any(): change = max |update[indices] / x[indices]| < 1e-12 *)
Definition is_zero (a : R) : bool := if Req_EM_T a 0 then true else false.
Definition small (a : R) : bool := if Rlt_dec (Rabs a) (/ 10 ^ 12) then true else false.
Definition stagnated (es : list (V -> R)) (update x : V) : bool :=
  existsb (fun e => negb (is_zero (e x))) es && forallb (fun e => is_zero (e x) || small (e update / e x)) es.

Variables (A M : V -> V).
(** what fgmres returns (the list of residuals left out); the flag of each process *)
Record answer := Answer { a_x : V; a_norm_r : R; a_norm_b : R; a_niter : nat; a_flags : list Z }.
(** [Split]: some processes have returned and the others are in the next pass, where they wait for them in allreduce *)
Inductive outcome := Raised | Split | Returned (a : answer).
(** fgmres.py 178-276, as outer_loop of FgmresModel *)
Fixpoint dist_loop (b : V) (tol_relative : R) (restart : nat) (rest : nat) (x : V) (r : V) (norm_r : R) (niter : nat) : outcome :=
  match rest with
  | O => Returned (Answer x norm_r (norm global_dotprod b) niter (map (fun _ => if Rle_dec tol_relative norm_r then -1 else 0)%Z holds))
  | S rest =>
    if Req_EM_T norm_r 0 then Raised
    else
      match inner_loop global_dotprod A M tol_relative restart 0 (first_cycle global_dotprod A M r norm_r) with
      | None => Raised
      | Some (C, n) =>
        match upper_solve (rev (hs C)) (g C) with
        | None => Raised
        | Some y =>
          let update := vsum n (fun i => scal (V := V) (nth i y 0) (zs C i)) in
          let x := plus x update in
          let r := plus b (opp (A x)) in
          let norm_r := norm global_dotprod r in
          let it := (niter + n)%nat in
          let st := map (fun es => stagnated es update x) holds in
          if forallb (fun s : bool => s) st then Returned (Answer x norm_r (norm global_dotprod b) it (map (fun _ => (-1)%Z) holds))
          else if Rlt_dec norm_r tol_relative then Returned (Answer x norm_r (norm global_dotprod b) it (map (fun s : bool => if s then -1 else 0)%Z st))
          else if existsb (fun s : bool => s) st && Nat.ltb 0 rest then Split
          else dist_loop b tol_relative restart rest x r norm_r it
        end
      end
  end.
(** fgmres.py 97-176 *)
Definition dist_fgmres (b : V) (x0 : option V) (tol : R) (restart maxiter : nat) (hegedus : bool) : outcome :=
  if existsb (fun es => Nat.leb (length es) restart) holds then Raised
  else if Req_EM_T (norm global_dotprod b) 0 then Returned (Answer zero 0 0 0 (map (fun _ => 0%Z) holds))
  else
    let x := match x0 with None => zero | Some v => v end in
    let Ax := A x in
    let start x := let r := plus b (opp (A x)) in dist_loop b (tol * norm global_dotprod b) restart maxiter x r (norm global_dotprod r) 0 in
    if hegedus then
      if Req_EM_T (global_dotprod Ax Ax) 0 then start x else match x0 with None => Raised | Some v => start (scal (V := V) (global_dotprod b Ax / global_dotprod Ax Ax) v) end
    else start x.
End Distributed.

(** ros2.py 23-62 with linear_solver = "fgmres" *)
Definition ros2_dist {V : ModuleSpace R_Ring} (holds : list (list (V -> R))) (M : V -> V) (tol : R) (restart maxiter : nat) (rhs : V -> V) (Q : V) (dt : R) : outcome (V := V) :=
  dist_fgmres holds (ros2_A rhs Q dt) M (ros2_b rhs Q dt) (Some Q) tol restart maxiter false.

(** ** pmex on several processes *)
Section Exponential.
Context {V : ModuleSpace R_Ring}.
Variable holds : list (list (V -> R)).
(** pmex.py 90-97: the largest of the 1-norms of the rows 1, ..., p of u, summed over the processes *)
Definition norm_u (u : nat -> V) (p : nat) : R := fold_right Rmax 0 (map (fun i => total (map (fun es => total (map (fun e => Rabs (e (u i))) es)) holds)) (seq 1 p)).
(** pmex.py 100-106; log2 is ln over ln 2 *)
Definition scale_ex (n : R) : Z := if Rlt_dec 0 n then ceil (ln n / ln 2) else 0%Z.
(** pmex.py, at most [n] passes of its loop. The tests of pmex are on sums over all processes, and the matrix exponential is taken by each process of the same matrix *)
Definition pmex_dist (expm : nat -> (nat -> nat -> R) -> nat -> nat -> R) (a : args) (delta : R) (n : nat) (A : V -> V) (u : nat -> V) (p : nat) : option (fstate (X := V)) :=
  f_run (global_dotprod holds) A u p (scale_ex (norm_u u p)) expm a delta n (f_start u a).
(** epi.py 314-322, exponential_solver = "pmex": w[0, :]. The size of the basis kept for other solvers is not changed. [n]: a bound on the passes. Where pmex raises, epi raises too; the value given here for that case has no meaning.
    The Jacobian is that of matvec_fun with finite differences (epi.py 103-104, matvec.py 62-66) *)
Definition pmex_phi (expm : nat -> (nat -> nat -> R) -> nat -> nat -> R) (tol : R) (n : nat) (rhs : V -> V) (size : Z) (dt : R) (q f : V) (vec : list V) : Z * V :=
  (size, match pmex_dist expm (Args [1] tol 10 10 64) 1.2 n (fun v => matvec_fd v dt q f rhs) (fun i => nth i vec zero) (length vec - 1) with None => zero | Some s => w s 0 end).
End Exponential.
