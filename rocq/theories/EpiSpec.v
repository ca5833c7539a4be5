(** Specification for C28 (history of a multistep method) and for the tables of C29. *)
From Coq Require Import Reals QArith Qreals List Bool.
From Coquelicot Require Import Hierarchy.
From Verif Require Import EpiModel.
Import ListNotations.
Local Open Scope R_scope.

(** The calls made so far, most recent first; the states that were stepped with exactly the step size [dt], without
    interruption up to now. *)
Fixpoint same_dt {V} (dt : R) (past : list (V * R)) : list V :=
  match past with
  | [] => []
  | (q, d) :: r => if Req_EM_T d dt then q :: same_dt dt r else []
  end.

(** The same, up to small changes: each step size differs from the next by at most 1e-10 (or is zero). *)
Fixpoint near_dt {V} (dt : R) (past : list (V * R)) : list (V * R) :=
  match past with
  | [] => []
  | (q, d) :: r => if Req_EM_T d 0 then (q, d) :: near_dt d r
                   else if Rle_dec (Rabs (d - dt)) (/ 10 ^ 10) then (q, d) :: near_dt d r else []
  end.

(** Sum of a_i x_i, from left to right, starting at [x0] *)
Fixpoint lin_comb {V : ModuleSpace R_Ring} (x0 : V) (a : list R) (x : list V) : V :=
  match a, x with
  | b :: a', y :: x' => lin_comb (plus x0 (scal (V := V) b y)) a' x'
  | _, _ => x0
  end.

(** The nonlinear remainder of the right-hand side at a saved state *)
Definition remainder {V I K} (e : epi V I K) (q saved : V) : V := minus (minus (rhs e saved) (rhs e q)) (jac e q (rhs e q) (minus saved q)).

(** What is handed to the exponential solver: row 1 holds the right-hand side, row (first_row + k) the combination of the
    remainders at the saved states with the coefficients A[k], every other row is zero. *)
Definition phi_input {V I K} (e : epi V I K) (q : V) (saved : list V) (vec : list V) : Prop :=
  length vec = phi_rows e /\
  forall j v, nth_error vec j = Some v ->
    let base := if Nat.eqb j 1 then rhs e q else zero in
    v = match (if (first_row e <=? j)%nat then nth_error (A e) (j - first_row e) else None) with
        | Some row => lin_comb base row (map (remainder e q) saved)
        | None => base
        end.

(** What one call must do, given the states to be used (most recent first): the start-up method if there are not enough of
    them, otherwise the multistep formula.  [i], [k]: states of the start-up method and of the exponential solver. *)
Definition expected {V I K} (e : epi V I K) (usable : list V) (k : K) (i : I) (q : V) (dt : R) (k' : K) (i' : I) (q' : V) : Prop :=
  if (length usable <? n_prev e)%nat
  then k' = k /\ (i', q') = substeps e (init_substeps e) i q (dt / INR (init_substeps e))
  else i' = i /\ exists vec phiv, phi_input e q (firstn (n_prev e) usable) vec /\ phi e k dt q (rhs e q) vec = (k', phiv) /\
         q' = plus q (scal (V := V) dt phiv).

(** Calls in which the step size is never zero and changes by more than 1e-10 or not at all *)
Fixpoint clear_dts (past : list R) : Prop :=
  match past with
  | a :: (b :: _) as r => b <> 0 /\ (b = a \/ / 10 ^ 10 < Rabs (b - a)) /\ clear_dts r
  | _ => True
  end.

(** C29, tables: the conditions of order [n] for an exponential multistep method with saved states at -1, -2, ...:
    for a remainder whose p-th derivative is the only non-zero one, the combination of the phi functions agrees with
    phi_{p+1} up to the terms of order n.  (phi_k(z) = sum_q z^q / (k+q)!.) *)
Definition Qfact (n : nat) : Q := inject_Z (Z.of_nat (fact n)).
Definition Qpow_nat (x : Q) (n : nat) : Q := Qpower x (Z.of_nat n).
Definition Qsum (l : list Q) : Q := fold_right Qplus 0%Q l.
Definition table_condition (A : list (list Q)) (p q : nat) : Prop :=
  (Qsum (map (fun k => Qsum (map (fun i => nth i (nth k A []) 0 * Qpow_nat (inject_Z (- Z.of_nat (i + 1))) p / Qfact p / Qfact (k + 2 + q))
                                (seq 0 (n_cols A))))
             (seq 0 (n_rows A))) == 1 / Qfact (p + 1 + q))%Q.
Definition epi_order_conditions (A : list (list Q)) (order : nat) : Prop :=
  forall p q, (2 <= p)%nat -> (p + 1 + q <= order)%nat -> table_condition A p q.
