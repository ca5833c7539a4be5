(** Specification for C31: one step of an explicit Runge-Kutta method, and when a solver is set up sensibly. *)
From Coq Require Import Reals List.
From Coquelicot Require Import Hierarchy.
From Verif Require Import RkModel.
Import ListNotations.
Local Open Scope R_scope.

(** g 0 + ... + g (n-1) *)
Fixpoint vsum {V : ModuleSpace R_Ring} (n : nat) (g : nat -> V) : V := match n with O => zero | S n' => plus (vsum n' g) (g n') end.

(** [yn] results from [yy] by one step of size [hh] of the method with coefficients a, b, c and [n] stages, first stage [ff] *)
Definition rk_step {V : ModuleSpace R_Ring} (n : nat) (a : nat -> nat -> R) (b c : nat -> R) (F : R -> V -> V) (tt hh : R) (yy ff yn : V) : Prop :=
  exists K : nat -> V, K 0%nat = ff /\
    (forall i, (1 <= i < n)%nat -> K i = F (tt + c i * hh) (plus yy (scal (V := V) hh (vsum i (fun j => scal (V := V) (a i j) (K j)))))) /\
    yn = plus yy (scal (V := V) hh (vsum n (fun j => scal (V := V) (b j) (K j)))).

(** Tableau of consistent shape *)
Definition shaped (tb : tableau) : Prop :=
  (1 <= n_stages tb)%nat /\ length (tA tb) = n_stages tb /\ Forall (fun row => length row = n_stages tb) (tA tb) /\
  length (tB tb) = n_stages tb /\ length (tC tb) = n_stages tb /\ length (tE tb) = S (n_stages tb).

(** A solver whose parameters make sense *)
Definition sound {V} (s : solver V) : Prop :=
  0 <= h_min_a s /\ 0 < h_min_b s /\ (forall m, max_step s = Some m -> 0 < m) /\ 0 < safety (ctl s) < 1 /\ 0 < safety_sc (ctl s) /\
  error_exponent (ctl s) < 0 /\ (forall a b c x, enorm s a b c = Fin x -> 0 <= x).

(** The maximum step size, if there is one, is above the smallest allowed ones *)
Definition roomy {V} (s : solver V) (t0 : R) : Prop :=
  forall m, max_step s = Some m -> h_min_b s <= m /\ h_min_a s * (Rabs t0 + 6 * (t_bound s - t0)) <= m.

(** The states of a solver constructed with a number as first step, and stepped while it runs *)
Inductive reachable {V} (s : solver V) (fuel : nat) (t0 : R) (y0 : V) : state V -> Prop :=
| at_start : forall fs st, construct s t0 y0 (Some fs) = Some st -> reachable s fuel t0 y0 st
| after_step : forall st st', reachable s fuel t0 y0 st -> step s fuel st = Some st' -> reachable s fuel t0 y0 st'.

(** Strictly decreasing *)
Fixpoint decreasing (l : list R) : Prop := match l with a :: (b :: _) as r => b < a /\ decreasing r | _ => True end.

(** Enough fuel for the loop of one step: the step size falls below 1e-12 before it is used up *)
Definition enough {V} (s : solver V) (t0 : R) (fuel : nat) : Prop :=
  (1 <= fuel)%nat /\ limiter (safety (ctl s)) 2 ^ (fuel - 1) * (t_bound s - t0) < / 10 ^ 12.

(** C54: the right-hand side at the time tt of the problem x' = A x + u_1 + t u_2 + ... + t^(p-1)/(p-1)! u_p, x(0) = u_0, whose solution at
    the time 1 is phi_0(A) u_0 + phi_1(A) u_1 + ... + phi_p(A) u_p *)
Definition phi_problem {V : ModuleSpace R_Ring} (A : V -> V) (u : list V) (tt : R) (x : V) : V :=
  plus (A x) (vsum (length u - 1) (fun j => scal (V := V) (tt ^ j / INR (fact j)) (nth (j + 1) u zero))).
