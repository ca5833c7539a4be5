(** C28: history of the multistep exponential integrators; C29: their coefficient tables. *)
From Coq Require Import Reals QArith Qreals List Bool Lra Lia.
From Coquelicot Require Import Hierarchy.
From Verif Require Import EpiModel EpiSpec EpiProofs.
Import ListNotations.
Local Open Scope R_scope.

(** C28: after any sequence of calls whose step sizes are non-zero and change clearly when they change, a call uses exactly the
    states stepped with the current step size since the last change, most recent first: the start-up method if there are
    fewer than n_prev, the multistep formula with the last n_prev otherwise.  No call raises. *)
Theorem C28_history : forall (V : ModuleSpace R_Ring) I K (e : epi V I K) k i calls q dt, well_formed e ->
  clear_dts (dt :: map snd (rev calls)) ->
  exists s qs, steps e (initial k i) calls = Some (s, qs) /\ exists s' q', step e s q dt = Some (s', q') /\
    expected e (same_dt dt (rev calls)) (krylov s) (init_state s) q dt (krylov s') (init_state s') q'.
Proof. exact @history_exact. Qed.
Print Assumptions C28_history.

(** C28, any step sizes: changes of at most 1e-10 are not seen ... *)
Theorem C28_any_dt : forall (V : ModuleSpace R_Ring) I K (e : epi V I K) k i calls q dt, well_formed e ->
  exists s qs, steps e (initial k i) calls = Some (s, qs) /\ exists s' q', step e s q dt = Some (s', q') /\
    expected e (map fst (near_dt dt (rev calls))) (krylov s) (init_state s) q dt (krylov s') (init_state s') q'.
Proof. exact @history_near. Qed.
Print Assumptions C28_any_dt.

(** ... but the j-th most recent state used was stepped with a size at most j * 1e-10 away *)
Theorem C28_drift_bound : forall (V : ModuleSpace R_Ring) (past : list (V * R)) dt j q d,
  Forall (fun c => snd c <> 0) past -> nth_error (near_dt dt past) j = Some (q, d) -> Rabs (d - dt) <= INR (S j) / 10 ^ 10.
Proof. exact @near_bound. Qed.
Print Assumptions C28_drift_bound.

(** Hence the property as worded fails: a state stepped with another step size is used. *)
Theorem C28_small_change_refuted : exists calls q dt s qs s' q', Forall (fun c => snd c <> 0) calls /\ dt <> 0 /\ same_dt dt (rev calls) = [] /\
  steps ex_epi3 (initial 0%nat tt) calls = Some (s, qs) /\ step ex_epi3 s q dt = Some (s', q') /\ krylov s' = S (krylov s).
Proof. exact drift. Qed.
Print Assumptions C28_small_change_refuted.

(** C28: the constructors give integrators to which this applies, with order - 2 saved states. *)
Theorem C28_epi_constructor : forall (V : ModuleSpace R_Ring) I K order r j (p : K -> R -> V -> V -> list V -> K * V) (init : I -> V -> R -> I * V) sub e,
  (1 <= sub)%nat -> Epi order r j p init sub = Some e -> well_formed e /\ n_prev e = (order - 2)%nat.
Proof. exact Epi_wf. Qed.
Print Assumptions C28_epi_constructor.
Theorem C28_epi_stiff_constructor : forall (V : ModuleSpace R_Ring) I K order al r j (p : K -> R -> V -> V -> list V -> K * V)
  (init : I -> V -> R -> I * V) sub e,
  (1 <= sub)%nat -> EpiStiff order al r j p init sub = Some e -> well_formed e /\ n_prev e = (order - 2)%nat.
Proof. exact EpiStiff_wf. Qed.
Print Assumptions C28_epi_stiff_constructor.

(** C28: for an affine right-hand side with its exact Jacobian the history has no influence: only row 1 is non-zero. *)
Theorem C28_affine : forall (V : ModuleSpace R_Ring) I K (e : epi V I K),
  (forall q saved, jac e q (rhs e q) (minus saved q) = minus (rhs e saved) (rhs e q)) ->
  forall q saved vec j v, phi_input e q saved vec -> nth_error vec j = Some v -> v = if Nat.eqb j 1 then rhs e q else zero.
Proof. exact @affine_input. Qed.
Print Assumptions C28_affine.

Example C28_ex : well_formed ex_epi3 /\ clear_dts (1 :: map snd (rev [(5, 2); (6, 1); (7, 1)])) /\ length (same_dt 1 (rev [(5, 2); (6, 1); (7, 1)])) = 2%nat.
Proof.
  split; [split; [cbn; lia|split; [repeat constructor|cbn; lia]]|]. split.
  - cbn. repeat split; try lra. right. replace (2 - 1) with 1 by ring. rewrite Rabs_R1. rewrite <- Rinv_1. apply Rinv_lt_contravar; lra.
  - cbn. destruct (Req_EM_T 1 1); [|lra]. cbn. destruct (Req_EM_T 2 1); [lra|reflexivity].
Qed.
Example C28_epi3 : ex_epi 3 = Some ex_epi3 /\ ex_epi 7 = None.
Proof. split; reflexivity. Qed.

(** C29: the tables of orders 2 to 6 satisfy the order conditions of their order (exact rationals) ... *)
Theorem C29_epi_tables : forall order A, table order = Some A -> epi_order_conditions A order.
Proof. exact Epi_tables. Qed.
Print Assumptions C29_epi_tables.
(** ... and not those of the next order. *)
Theorem C29_epi_tables_sharp : forall order A, table order = Some A -> (3 <= order)%nat -> ~ epi_order_conditions A (order + 1).
Proof. exact Epi_tables_sharp. Qed.
Print Assumptions C29_epi_tables_sharp.
Theorem C29_supported_orders : forall order, table order <> None <-> (2 <= order <= 6)%nat.
Proof. exact table_orders. Qed.
Print Assumptions C29_supported_orders.
