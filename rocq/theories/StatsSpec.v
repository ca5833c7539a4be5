(** What consistent keys mean, for C27. *)
From Coq Require Import ZArith List Bool Arith.
From Verif Require Import StatsModel.
Import ListNotations.

(** 0, 1, ..., n - 1 *)
Definition upto (n : nat) : list Z := map Z.of_nat (seq 0 n).

(** What one run has written *)
Definition params_of {V W} (r : nat) (d : db V W) : list (prow V W) := filter (fun p => Nat.eqb (p_author p) r) (params d).
Definition data_of {V W} (r : nat) (step : Z) (d : db V W) : list (drow V) :=
  filter (fun x => Nat.eqb (d_author x) r && Z.eqb (d_step x) step) (data d).
Definition timing_of {V W} (r : nat) (step : Z) (d : db V W) : list (trow W) :=
  filter (fun x => Nat.eqb (t_author x) r && Z.eqb (t_step x) step) (timing d).

(** The timings that a call stores: none unless the first row has nine entries *)
Definition stored_timings {V W} (j : job V W) : list (list W) :=
  match rhs_times j with Some (t :: ts) => if Nat.eqb (length t) 9 then t :: ts else [] | _ => [] end.
