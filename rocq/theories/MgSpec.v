(** What a multigrid pass and its smoothers should do. Only [event] comes from the model: it names what is observed. *)
From Coq Require Import Reals List Bool Arith.
From Coquelicot Require Import Hierarchy.
From Verif Require Import MgModel.
Import ListNotations.
Local Open Scope nat_scope.

(** a V-cycle over levels 0 .. last: down through the levels smoothing and restricting, the coarsest level, and back up *)
Definition v_cycle (num_pre num_post : nat) (solve : bool) (last : nat) : list event :=
  concat (map (fun l => repeat (Pre l) num_pre ++ [Restrict l]) (seq 0 last))
  ++ repeat (Pre last) num_pre ++ (if solve then [Solve last] else []) ++ repeat (Post last) num_post
  ++ concat (map (fun l => [Prolong l] ++ repeat (Post l) num_post) (rev (seq 0 last))).
Definition event_eq (x y : event) : {x = y} + {x <> y}.
Proof. decide equality; apply Nat.eq_dec. Defined.
(** how often an event occurs *)
Definition times (e : event) (t : list event) : nat := count_occ event_eq t e.
(** levels follow each other in a trace as in a walk up and down: the level of an event, and the level after it *)
Definition before (e : event) : nat := match e with Pre l | Solve l | Post l | Restrict l => l | Prolong l => S l end.
Definition after (e : event) : nat := match e with Pre l | Solve l | Post l | Prolong l => l | Restrict l => S l end.
Fixpoint walk (from : nat) (t : list event) (to : nat) : Prop := match t with [] => from = to | e :: t => before e = from /\ walk (after e) t to end.

(** a smoother as a function of the right-hand side and of the guess (None: no guess) *)
Definition keeps_solutions {V : ModuleSpace R_Ring} (A : V -> V) (s : V -> option V -> option V) : Prop := forall b x, A x = b -> s b (Some x) = Some x.
Definition linear_smoother {V : ModuleSpace R_Ring} (s : V -> option V -> option V) : Prop :=
  (forall b, s b None = s b (Some zero) \/ s b None = None /\ s b (Some zero) = Some zero) /\
  exists f : V -> V -> V, (forall b x, s b (Some x) = Some (f b x)) /\
    (forall b c x y, f (plus b c) (plus x y) = plus (f b x) (f c y)) /\ (forall a b x, f (scal (V := V) a b) (scal (V := V) a x) = scal (V := V) a (f b x)).
Definition linear_between {V W : ModuleSpace R_Ring} (f : V -> W) : Prop := (forall x y, f (plus x y) = plus (f x) (f y)) /\ (forall a x, f (scal (V := V) a x) = scal (V := W) a (f x)).
