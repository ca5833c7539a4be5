(** The multigrid preconditioner. Models wx_factory/precondition/multigrid.py: the levels derived from the configuration and one pass of the algorithm.
    Vectors of level l are elements of a vector space V l. Timing, printing and residuals computed for printing are left out. *)
From Coq Require Import Reals List Bool Arith.
From Coquelicot Require Import Hierarchy.
Import ListNotations.
Local Open Scope nat_scope.

(** * Levels: Multigrid.__init__ *)
Inductive discretization := Dg | Fv.
(** lines 324-330; initial_num_solpts is num_solpts; int(numpy.log2(n)) is taken as the exact integer part *)
Definition max_num_levels (d : discretization) (num_solpts : nat) : nat := match d with Fv => Nat.log2 num_solpts + 1 | Dg => num_solpts end.
(** lines 338-342 and 354 *)
Definition orders (d : discretization) (fv_only : bool) (num_solpts : nat) : list nat :=
  let L := max_num_levels d num_solpts in
  match d with
  | Fv => (if fv_only then [num_solpts] else []) ++ map (fun i => (2 ^ (L - 1)) / 2 ^ i) (seq 0 (L + 1))
  | Dg => map (fun i => num_solpts - i) (seq 0 (L + 1))
  end.
(** lines 308-310, 346-348 and 355; [num_elements] is the number of horizontal elements of the configuration *)
Definition elem_counts_hori (d : discretization) (fv_only : bool) (num_elements num_solpts : nat) : list nat :=
  match d with
  | Fv => map (fun order => num_elements * num_solpts * order / num_solpts) (orders d fv_only num_solpts)
  | Dg => map (fun _ => num_elements) (orders d fv_only num_solpts)
  end.
(** lines 349-352 and 356, for three dimensions and for the plane *)
Definition elem_counts_vert (d : discretization) (fv_only : bool) (num_elements num_solpts : nat) : list nat :=
  match d with
  | Fv => map (fun order => num_elements * order) (orders d fv_only num_solpts)
  | Dg => map (fun _ => num_elements) (orders d fv_only num_solpts)
  end.
(** lines 312-316 and 334 *)
Definition num_mg_levels (d : discretization) (fv_only : bool) (requested num_solpts : nat) : nat :=
  Nat.min (match d with Fv => if fv_only then 1 else requested | Dg => requested end) (max_num_levels d num_solpts).
(** extended_list, lines 365-374; None: IndexError *)
Definition extended_list {T : Type} (l : list T) (target_len : nat) : option (list T) :=
  if Nat.ltb (length l) target_len then match rev l with [] => None | z :: _ => Some (l ++ repeat z (target_len - length l)) end
  else Some (firstn target_len l).

(** * One pass: Multigrid.iterate *)
(** what is observed: a smoothing step before or after the coarse correction, the transfers, the solution on the coarsest level *)
Inductive event := Pre (level : nat) | Restrict (level : nat) | Prolong (level : nat) | Solve (level : nat) | Post (level : nat).
Section Pass.
Variable V : nat -> ModuleSpace R_Ring.
Variable A : forall l, V l -> V l.                                        (* levels[l].matrix_operator *)
Variable smooth_pre smooth_post : forall l, V l -> option (V l) -> option (V l).  (* pre_smoothe and post_smoothe with A given; lines 154, 164 and 244: None is returned only for None *)
Variable restrict : forall l, V l -> V (S l).
Variable prolong : forall l, V (S l) -> V l.
Variable num_pre num_post : nat.                                          (* lines 74-75: the same on all levels *)
Variable use_solver : bool.                                               (* mg_solve_coarsest, line 320 *)
Variable solver : forall l, V l -> V l -> option (V l).                     (* fgmres on level l with b and x0; None: it raises *)
Variable gamma : nat.

Fixpoint smoothing {T : Type} (f : T -> T) (n : nat) (x : T) : T := match n with O => x | S n => smoothing f n (f x) end.
(** lines 488-600. [rest] is max(num_levels - 1 - level, 0), so that [level < num_levels - 1] of line 544 is [rest > 0]. None: an exception (of the solver, or prolong(None) when gamma is 0) *)
Fixpoint iterate (rest : nat) (level : nat) (b : V level) (x0 : option (V level)) : option (V level * list event) :=
  let x1 := match smoothing (smooth_pre level b) num_pre x0 with None => zero | Some x => x end in
  let t1 := repeat (Pre level) num_pre in
  let finish (x : V level) (t : list event) :=
    match smoothing (smooth_post level b) num_post (Some x) with None => None | Some x => Some (x, t ++ repeat (Post level) num_post) end in
  match rest with
  | O =>
    if use_solver then match solver level b x1 with None => None | Some x2 => finish x2 (t1 ++ [Solve level]) end
    else finish x1 t1
  | S rest' =>
    let residual := restrict level (plus b (opp (A level x1))) in
    let fix coarse (n : nat) (correction : option (V (S level))) : option (option (V (S level)) * list event) :=
      match n with
      | O => Some (correction, [])
      | S n =>
        match iterate rest' (S level) residual correction with
        | None => None
        | Some (c, t) => match coarse n (Some c) with None => None | Some (c, t') => Some (c, t ++ t') end
        end
      end in
    match coarse gamma None with
    | None | Some (None, _) => None
    | Some (Some c, t2) => finish (plus x1 (prolong level c)) (t1 ++ [Restrict level] ++ t2 ++ [Prolong level])
    end
  end.
End Pass.
(** Multigrid.apply without the conversions between discretisations, lines 467-475: gamma keeps its default, and num_levels is at least 1 *)
Definition apply (V : nat -> ModuleSpace R_Ring) A smooth_pre smooth_post restrict prolong num_pre num_post use_solver solver (num_levels : nat) (b : V 0%nat) (x0 : option (V 0%nat)) :=
  iterate V A smooth_pre smooth_post restrict prolong num_pre num_post use_solver solver 1 (num_levels - 1) 0 b x0.
