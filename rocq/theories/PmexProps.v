From Coq Require Import Reals ZArith List Arith.
From Coquelicot Require Import Coquelicot.
From Verif Require Import InnerSpec KiopsModel KiopsSpec PmexSpec PmexModel ExpmFacts PmexProofs PmexKrylov PmexCases PmexRotation PmexDefect.
Import ListNotations.
Local Open Scope R_scope.

(** * C71: the substeps of the default solver for phi functions *)
(** For every outcome of the linear algebra: the substeps are positive, add up to the present time, and end exactly at the last output time. *)
Theorem C71_substeps : forall a delta ps s, 1 <= delta -> good a -> p_run a delta ps (start a) = Some s ->
  List.Forall (fun t => 0 < t) (substeps s) /\ total (substeps s) = tau_now s /\ tau_now s <= tau_end a /\ (tau_now s < tau_end a -> 0 < tau s /\ tau_now s + tau s <= tau_end a) /\
  (~ tau_now s < tau_end a -> total (substeps s) = tau_end a).
Proof. exact p_substeps_ok. Qed.
Print Assumptions C71_substeps.
Theorem C71_basis : forall a delta ps s, 1 <= delta -> good a -> p_run a delta ps (start a) = Some s -> (mmin a <= m s <= mmax a /\ 0 <= j s <= m s)%Z.
Proof. exact p_basis_ok. Qed.
Print Assumptions C71_basis.
(** The rows of the result are evaluated at the output times, for positive increasing ones. *)
Theorem C71_outputs_partial : forall a delta ps s, 1 <= delta -> good a -> 0 < last_out a -> output_times (tau_out a) -> p_run a delta ps (start a) = Some s -> ~ tau_now s < tau_end a ->
  forall k, (k < length (tau_out a))%nat -> times s k = nth k (tau_out a) 0.
Proof. exact p_outputs_ok. Qed.
Print Assumptions C71_outputs_partial.
(** What a whole run does to the control is one of the runs of the control. *)
Theorem C71_control : forall (X : ModuleSpace R_Ring) dot (A : X -> X) u p ex expm a delta n f f', f_run dot A u p ex expm a delta n f = Some f' -> exists ps, p_run a delta ps (ctl f) = Some (ctl f').
Proof. exact run_control. Qed.
Print Assumptions C71_control.
(** Not every run ends: a rotation of the plane by 3/2 PI / sqrt 2 per unit of time and at most two basis vectors. Every pass is rejected and nothing changes. *)
Theorem C71_endless_refuted : forall expm, (forall n M, is_expm n M (expm n M)) -> good rargs /\
  forall n, exists f, f_run pdot (rot (3 * (PI / 2))) east 1 0 expm rargs 1.2 n (f_start east rargs) = Some f /\ tau_now (ctl f) = 0 /\ tau (ctl f) = 1 /\ m (ctl f) = mmax rargs.
Proof. intros expm X. split; [exact rgood|]. exact (spun_run expm X). Qed.
Print Assumptions C71_endless_refuted.
(** An error estimate of zero raises an exception. *)
Theorem C71_zero_estimate_refuted : forall expm, (forall n M, is_expm n M (expm n M)) -> good rargs /\ f_run pdot (rot (2 * PI)) east 1 0 expm rargs 1.2 1 (f_start east rargs) = None.
Proof. intros expm X. split; [exact rgood|]. exact (turn_run expm X). Qed.
Print Assumptions C71_zero_estimate_refuted.
(** a finished run that meets the hypotheses, and an exponential *)
Example C71_example : 1 <= 1.2 /\ good bargs /\ output_times (tau_out bargs) /\ 0 < last_out bargs /\ exists ps s, p_run bargs 1.2 ps (start bargs) = Some s /\ ~ tau_now s < tau_end bargs.
Proof. exact break_case. Qed.
Example C71_exponential : forall n M, is_expm n M (series_expm n M).
Proof. exact series_expm_ok. Qed.

(** * C72: the vectors that the default solver returns *)
(** In every accepted substep the new row is, in the first part, b V exp(sgn tau H) e_1 with an orthonormal basis V of h vectors such that b V q(H) e_1 = q(At) x for all polynomials q of degree below h,
    where x and At are the vector and the matrix of the augmented problem. The rows inside of the substep are the same at their times, and earlier rows are kept.
    H is the matrix of At in the basis, unless the norm of what is left of the last product is below the tolerance. *)
Theorem C72_krylov : forall (X : ModuleSpace R_Ring) (dot : X -> X -> R), scalar_product dot -> forall A, linear_map A -> forall (u : nat -> X) p, (1 <= p)%nat -> forall ex expm a delta n f f',
  1 <= delta -> good a -> (forall n M, is_expm n M (expm n M)) ->
  f_run dot A u p ex expm a delta n (f_start u a) = Some f -> tau_now (ctl f) < tau_end a -> f_pass dot A u p ex expm a delta f = Some f' -> tau_now (ctl f) < tau_now (ctl f') ->
  let At := augmented_product A u p ex in
  exists h b V H, (1 <= h)%nat /\
    (forall i k, (i < h)%nat -> (k < h)%nat -> adot dot p (V i) (V k) = if Nat.eqb i k then 1 else 0) /\
    reproduces At (start_row p ex (w f (l (ctl f))) (tau_now (ctl f))) h b h H h V /\
    (Z.of_nat h = m (ctl f) /\ (forall i k, (i < h)%nat -> (k < h)%nat -> H i k = adot dot p (V i) (At (V k))) \/
     (Z.of_nat h <= m (ctl f))%Z /\ exists c, let r := plus (At (V (h - 1)%nat)) (opp (vec_sum h (fun i => scal (c i) (V i)))) in sqrt (adot dot p r r) < tol a) /\
    (exists F, exp_column h (fun i k => sgn a * tau (ctl f) * H i k) F /\ w f' (l (ctl f')) = fst (vec_sum h (fun i => scal (b * F i) (V i)))) /\
    (forall k, (l (ctl f) <= k < l (ctl f'))%nat -> exists F, exp_column h (fun i q => sgn a * (nth k (tau_out a) 0 - tau_now (ctl f)) * H i q) F /\ w f' k = fst (vec_sum h (fun i => scal (b * F i) (V i)))) /\
    (forall k, (k < l (ctl f))%nat -> w f' k = w f k).
Proof. exact (fun X dot D A L u p Hp ex expm => krylov_ok dot D A L u p Hp ex expm). Qed.
Print Assumptions C72_krylov.
(** The error estimate. In a pass without breakdown the approximation at time t of the substep is y(t) = b V c(t), where c(t) is the first column of exp(t H) and c' its derivative.
    y starts at x; the product of y(t) with the matrix is y'(t) plus a multiple of the next basis vector; the error estimate G is the integral of this multiple over the substep.
    The pass is accepted, and |G| added to the reported error, if and only if |G| tau_end <= delta tol tau. *)
Theorem C72_defect : forall (X : ModuleSpace R_Ring) (dot : X -> X -> R), scalar_product dot -> forall A, linear_map A -> forall (u : nat -> X) p, (1 <= p)%nat -> forall ex expm a delta n f f',
  1 <= delta -> good a -> (forall n M, is_expm n M (expm n M)) ->
  f_run dot A u p ex expm a delta n (f_start u a) = Some f -> tau_now (ctl f) < tau_end a -> f_pass dot A u p ex expm a delta f = Some f' -> snd (basis_of dot A u p ex a f) = false ->
  let At := augmented_product A u p ex in
  exists h b V H c G, Z.of_nat h = m (ctl f) /\
    (forall i k, (i <= h)%nat -> (k <= h)%nat -> adot dot p (V i) (V k) = if Nat.eqb i k then 1 else 0) /\
    (forall t, exp_column h (fun i k => t * H i k) (c t)) /\
    let y t := vec_sum h (fun i => scal (b * c t i) (V i)) in
    y 0 = start_row p ex (w f (l (ctl f))) (tau_now (ctl f)) /\
    (exists c', (forall t i, (i < h)%nat -> is_derive (fun t => c t i) t (c' t i)) /\
      forall t, At (y t) = plus (vec_sum h (fun i => scal (b * c' t i) (V i))) (scal (b * H h (h - 1)%nat * c t (h - 1)%nat) (V h))) /\
    is_RInt (fun t => b * H h (h - 1)%nat * c t (h - 1)%nat) 0 (sgn a * tau (ctl f)) G /\
    ((tau_now (ctl f') = tau_now (ctl f) + tau (ctl f) /\ w f' (l (ctl f')) = fst (y (sgn a * tau (ctl f))) /\ conv (ctl f') = conv (ctl f) + Rabs G /\ tau_end a * Rabs G / (tau (ctl f) * tol a) <= delta) \/
     (tau_now (ctl f') = tau_now (ctl f) /\ w f' = w f /\ conv (ctl f') = conv (ctl f) /\ delta < tau_end a * Rabs G / (tau (ctl f) * tol a))).
Proof. exact (fun X dot D A L u p Hp ex expm => defect_ok dot D A L u p Hp ex expm). Qed.
Print Assumptions C72_defect.
(** a pass that meets its hypotheses, with a rotation of the plane *)
Example C72_defect_example : scalar_product pdot /\ linear_map (rot (3 * (PI / 2))) /\ good rargs /\ snd (basis_of pdot (rot (3 * (PI / 2))) east 1 0 rargs (f_start east rargs)) = false /\
  exists f', f_pass pdot (rot (3 * (PI / 2))) east 1 0 series_expm rargs 1.2 (f_start east rargs) = Some f'.
Proof. exact rotation_pass. Qed.
(** With a breakdown, where the basis spans the solution and the error is reported as zero, the result is wrong: the last column of H has not been written.
    One unknown, A = 0, u = [1, 1]: phi_0(0) + phi_1(0) = 2, the result is 2 exp(1/2) - 1. *)
Theorem C72_breakdown_refuted : forall expm, (forall n M, is_expm n M (expm n M)) -> exists f, f_run (X := R_ModuleSpace) Rmult zero_map ones 1 0 expm bargs 1.2 1 (f_start ones bargs) = Some f /\
  tau_now (ctl f) = tau_end bargs /\ conv (ctl f) = 0 /\ w f 0%nat = 2 * exp (1 / 2) - 1 /\ 2 < 2 * exp (1 / 2) - 1.
Proof. exact break_wrong. Qed.
Print Assumptions C72_breakdown_refuted.
(** the hypotheses of C72_krylov in that run *)
Example C72_example : scalar_product (V := R_ModuleSpace) Rmult /\ linear_map zero_map /\ good bargs /\ exists f', f_pass (X := R_ModuleSpace) Rmult zero_map ones 1 0 series_expm bargs 1.2 (f_start ones bargs) = Some f' /\ 0 < tau_now (ctl f').
Proof. exact break_pass. Qed.
