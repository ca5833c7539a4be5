(** C35 and C69 *)
From Coq Require Import Reals List Arith ZArith Lra Lia.
From Coquelicot Require Import Hierarchy.
From Verif Require Import InnerSpec InnerFacts GcrotCases FgmresModel FgmresFacts FgmresOuter.
Import ListNotations.
Local Open Scope R_scope.

(** C35. For every space, scalar product, linear operator, preconditioner (linear or not) and stagnation test. Flag 0 is returned only when the tolerance is met; the norm returned is that of the residual of the solution; -1 means that the tolerance is not met or the iteration stagnated; the number of iterations is bounded *)
Theorem C35_flag : forall (V : ModuleSpace R_Ring) (dot : V -> V -> R) (A M : V -> V) (stalled : V -> V -> bool), scalar_product dot -> linear_map A ->
  forall b len_b x0 tol restart maxiter hegedus res, norm dot b <> 0 -> fgmres dot A M stalled b len_b x0 tol restart maxiter hegedus = Some res ->
  norm_r res = norm dot (plus b (opp (A (x res)))) /\ norm_b res = norm dot b /\ (niter res <= maxiter * restart)%nat /\
  (flag res = 0%Z /\ norm_r res < tol * norm dot b \/ flag res = (-1)%Z /\ (tol * norm dot b <= norm_r res \/ exists u, stalled u (x res) = true)).
Proof. intros V dot A M st D L b len_b x0 tol restart maxiter h res NB H. destruct (fgmres_ok dot A M st D L b len_b x0 tol restart maxiter h res NB H) as (E1 & E2 & E3 & E4 & E5). auto. Qed.
Print Assumptions C35_flag.
(** a zero right-hand side *)
Theorem C35_zero_rhs : forall (V : ModuleSpace R_Ring) (dot : V -> V -> R) (A M : V -> V) (stalled : V -> V -> bool) b len_b x0 tol restart maxiter hegedus, norm dot b = 0 -> (restart < len_b)%nat ->
  fgmres dot A M stalled b len_b x0 tol restart maxiter hegedus = Some (Result zero 0 0 0 0%Z).
Proof. intros V dot A M st. exact (fgmres_zero dot A M st). Qed.
Print Assumptions C35_zero_rhs.
(** the Givens rotations are orthogonal and annihilate the sub-diagonal *)
Theorem C35_givens : forall a b c s r, rotg a b = (c, s, r) -> c * c + s * s = 1 /\ c * a + s * b = r /\ - s * a + c * b = 0.
Proof. exact rotg_ok. Qed.
Print Assumptions C35_givens.
(** the hypotheses of C35_flag are met: y -> 2 y on the real line, b = 1, x0 = 0 *)
Example C35_example : exists res, fgmres (V := R_ModuleSpace) Rmult (Rmult 2) id_line (fun _ _ => false) 1 3 None (1 / 10) 2 5 false = Some res /\ norm_r res = Rabs (1 - 2 * x res).
Proof.
  destruct (fgmres (V := R_ModuleSpace) Rmult (Rmult 2) id_line (fun _ _ => false) 1 3 None (1 / 10) 2 5 false) as [res|] eqn:E.
  - exists res. split; [reflexivity|]. assert (NB : norm (V := R_ModuleSpace) Rmult 1 <> 0) by (rewrite line_norm, Rabs_R1; lra). destruct (C35_flag R_ModuleSpace Rmult (Rmult 2) id_line (fun _ _ => false) line_product (line_scale 2) 1 3 None (1 / 10) 2 5 false res NB E) as (R1 & _). rewrite R1, line_norm. reflexivity.
  - exfalso. revert E. apply (fgmres_returns (V := R_ModuleSpace) Rmult (Rmult 2) id_line (fun _ _ => false) line_product (line_scale 2)); [lra|exact line_id| | |lia|].
    + intros v E. unfold zero in *. cbn in *. lra.
    + intros v E. exact E.
    + rewrite line_norm. cbn [guess]. unfold plus, opp, zero. cbn. replace (1 + - (2 * 0)) with 1 by ring. rewrite Rabs_R1. lra.
Qed.

(** C69. The residual is never larger than that of the initial guess, with or without the rescaling of the guess *)
Theorem C69_monotone : forall (V : ModuleSpace R_Ring) (dot : V -> V -> R) (A M : V -> V) (stalled : V -> V -> bool), scalar_product dot -> linear_map A ->
  forall b len_b x0 tol restart maxiter hegedus res, norm dot b <> 0 -> fgmres dot A M stalled b len_b x0 tol restart maxiter hegedus = Some res ->
  norm dot (plus b (opp (A (x res)))) <= norm dot (plus b (opp (A match x0 with None => zero | Some v => v end))).
Proof. intros V dot A M st D L b len_b x0 tol restart maxiter h res NB H. destruct (fgmres_ok dot A M st D L b len_b x0 tol restart maxiter h res NB H) as (E1 & E2 & _). rewrite <- E1. exact E2. Qed.
Print Assumptions C69_monotone.
(** one cycle with a linear preconditioner finds the smallest residual in the Krylov space: no x0 + sum_k a_k M (A M)^k r0, k < number of iterations, does better; and the cycle is stopped early only by convergence *)
Theorem C69_optimal : forall (V : ModuleSpace R_Ring) (dot : V -> V -> R) (A M : V -> V) (stalled : V -> V -> bool), scalar_product dot -> linear_map A -> linear_map M ->
  forall b len_b v0 tol restart res, norm dot b <> 0 -> fgmres dot A M stalled b len_b (Some v0) tol restart 1 false = Some res ->
  (forall a : nat -> R, norm dot (plus b (opp (A (x res)))) <= norm dot (plus b (opp (A (plus v0 (vsum (niter res) (fun k => scal (V := V) (a k) (M (Nat.iter k (fun v => A (M v)) (plus b (opp (A v0))))))))))))
  /\ (niter res = restart \/ norm dot (plus b (opp (A (x res)))) < tol * norm dot b).
Proof.
  intros V dot A M st D L LM b len_b v0 tol restart res NB H. destruct (fgmres_ok dot A M st D L b len_b (Some v0) tol restart 1 false res NB H) as (E1 & _). rewrite <- E1.
  split; [intros a; exact (proj1 (fgmres_optimal dot A M st D L b len_b (Some v0) tol restart res LM NB H a))|exact (proj2 (fgmres_optimal dot A M st D L b len_b (Some v0) tol restart res LM NB H (fun _ => 0)))].
Qed.
Print Assumptions C69_optimal.
(** it returns (no division by zero, no singular triangular system, no index out of range) when the operator and the preconditioner are linear and injective, the tolerance is positive and the guess is not exact *)
Theorem C69_returns_partial : forall (V : ModuleSpace R_Ring) (dot : V -> V -> R) (A M : V -> V) (stalled : V -> V -> bool), scalar_product dot -> linear_map A -> linear_map M -> (forall v, A v = zero -> v = zero) -> (forall v, M v = zero -> v = zero) ->
  forall b len_b x0 tol restart maxiter, 0 < tol -> (restart < len_b)%nat -> norm dot (plus b (opp (A match x0 with None => zero | Some v => v end))) <> 0 -> exists res, fgmres dot A M stalled b len_b x0 tol restart maxiter false = Some res.
Proof.
  intros V dot A M st D L LM IA IM b len_b x0 tol restart maxiter T Hl NZ. pose proof (fgmres_returns dot A M st D L b len_b x0 tol restart maxiter T LM IA IM Hl NZ) as N. destruct (fgmres _ _ _ _ _ _ _ _ _ _ _) as [res|]; [now exists res|now contradiction N].
Qed.
Print Assumptions C69_returns_partial.
(** an exact initial guess makes it raise instead of returning the guess: 0 / 0 in the normalisation of the first vector *)
Theorem C69_refuted : forall (V : ModuleSpace R_Ring) (dot : V -> V -> R) (A M : V -> V) (stalled : V -> V -> bool), scalar_product dot ->
  forall b len_b x0 tol restart maxiter, norm dot b <> 0 -> (1 <= maxiter)%nat -> A match x0 with None => zero | Some v => v end = b -> fgmres dot A M stalled b len_b x0 tol restart maxiter false = None.
Proof. intros V dot A M st D. exact (fgmres_exact_guess dot A M st D). Qed.
Print Assumptions C69_refuted.
Example C69_refuted_example : fgmres (V := R_ModuleSpace) Rmult (Rmult 2) id_line (fun _ _ => false) 1 3 (Some (1 / 2)) (1 / 10) 2 5 false = None.
Proof. apply (C69_refuted R_ModuleSpace Rmult (Rmult 2) id_line (fun _ _ => false) line_product); [rewrite line_norm, Rabs_R1; lra|lia|cbv beta iota; change (2 * (1 / 2) = 1 :> R); field]. Qed.
(** the hypotheses of C69_optimal and C69_returns_partial are met *)
Example C69_example : linear_map (V := R_ModuleSpace) (Rmult 2) /\ linear_map (V := R_ModuleSpace) id_line /\ (forall v : R, 2 * v = 0 -> v = 0) /\ exists res, fgmres (V := R_ModuleSpace) Rmult (Rmult 2) id_line (fun _ _ => false) 1 3 (Some 3) (1 / 10) 2 1 false = Some res.
Proof.
  assert (I : forall v : R, 2 * v = 0 -> v = 0) by (intros; lra). split; [apply line_scale|]. split; [exact line_id|]. split; [exact I|]. apply (C69_returns_partial R_ModuleSpace Rmult (Rmult 2) id_line (fun _ _ => false) line_product (line_scale 2) line_id I (fun v E => E)); [lra|lia|].
  rewrite line_norm. unfold plus, opp. cbn. replace (1 + - (2 * 3)) with (- (5)) by ring. rewrite Rabs_Ropp, Rabs_pos_eq; lra.
Qed.
