From Coq Require Import Reals ZArith List Arith.
From Coquelicot Require Import Coquelicot.
From Verif Require Import InnerSpec KiopsModel KiopsSpec PmexSpec PmexModel ExpmFacts PmexCases KiopsLinear KiopsKrylov KiopsCase.
Import ListNotations.
Local Open Scope R_scope.

(** * C74: the vectors that kiops returns *)
(** In every pass there are h basis vectors V, orthonormal as far as they are at most iop positions apart, and a banded matrix H with At V = V H up to a remainder r of the last column, orthogonal to the last iop vectors.
    Hence b V q(H) e_1 = q(At) x for all polynomials q of degree below h, and for all polynomials if r = 0.
    y(t) = b V c(t), with c(t) the first column of exp(t H), starts at x and satisfies At y = y' + b c_h r. With a breakdown r is below the tolerance, the pass is accepted and nothing is added to the reported error;
    otherwise the error estimate G is the integral of b |r| c_h over the substep, and the pass is accepted if and only if |G| tau_end <= 1.4 tol tau.
    The new row is the first part of y at the end of the substep, those for output times inside of it are y at these times, and earlier rows are kept.
    This is so in the first substep, or if iop is at least mmax, or if no earlier pass has had a breakdown with iop or more (but fewer than mmax) vectors: such a breakdown leaves an entry in the first row of H. *)
Theorem C74_krylov_partial : forall (X : ModuleSpace R_Ring) (dot : X -> X -> R), scalar_product dot -> forall A, linear_map A -> forall (u : nat -> X) p, (1 <= p)%nat -> forall ex iop expm a n f f',
  good a -> (forall n M, is_expm n M (expm n M)) ->
  k_run dot A u p ex iop expm a n (k_start u a) = Some f -> tau_now (kctl f) < tau_end a -> k_pass dot A u p ex iop expm a f = Some f' ->
  (tau_now (kctl f) = 0 \/ (mmax a <= Z.of_nat iop)%Z \/
   forall i g K h, (i < n)%nat -> k_run dot A u p ex iop expm a i (k_start u a) = Some g -> tau_now (kctl g) < tau_end a -> k_basis dot A u p ex iop a g = (K, h, true) -> ~ (Z.of_nat iop <= Z.of_nat h < mmax a)%Z) ->
  let At := augmented_product A u p ex in let x := start_row p ex (kw f (l (kctl f))) (tau_now (kctl f)) in
  exists h b V H r c, (1 <= h)%nat /\
    (forall i k, (i < h)%nat -> (k < h)%nat -> (i <= k + iop)%nat -> (k <= i + iop)%nat -> adot dot p (V i) (V k) = if Nat.eqb i k then 1 else 0) /\
    (forall k, (k < h - 1)%nat -> At (V k) = vec_sum h (fun i => scal (H i k) (V i))) /\
    At (V (h - 1)%nat) = plus (vec_sum h (fun i => scal (H i (h - 1)%nat) (V i))) r /\
    (forall i k, (i < h)%nat -> (k < h)%nat -> (k + 1 < i \/ i + iop <= k)%nat -> H i k = 0) /\
    (forall i, (i < h)%nat -> (h <= i + iop)%nat -> adot dot p (V i) r = 0) /\
    reproduces At x h b h H h V /\ (r = zero -> forall d, reproduces At x d b h H h V) /\
    (forall t, exp_column h (fun i k => t * H i k) (c t)) /\
    let y t := vec_sum h (fun i => scal (b * c t i) (V i)) in
    y 0 = x /\
    (exists c', (forall t i, (i < h)%nat -> is_derive (fun t => c t i) t (c' t i)) /\
      forall t, At (y t) = plus (vec_sum h (fun i => scal (b * c' t i) (V i))) (scal (b * c t (h - 1)%nat) r)) /\
    ((exists G, is_RInt (fun t => b * sqrt (adot dot p r r) * c t (h - 1)%nat) 0 (sgn a * tau (kctl f)) G /\ Z.of_nat h = m (kctl f) /\ tol a <= sqrt (adot dot p r r) /\
       ((tau_now (kctl f') = tau_now (kctl f) + tau (kctl f) /\ conv (kctl f') = conv (kctl f) + Rabs G /\ tau_end a * Rabs G / (tau (kctl f) * tol a) <= 1.4) \/
        (tau_now (kctl f') = tau_now (kctl f) /\ kw f' = kw f /\ conv (kctl f') = conv (kctl f) /\ 1.4 < tau_end a * Rabs G / (tau (kctl f) * tol a)))) \/
     ((Z.of_nat h <= m (kctl f))%Z /\ sqrt (adot dot p r r) < tol a /\ tau_now (kctl f') = tau_now (kctl f) + tau (kctl f) /\ conv (kctl f') = conv (kctl f))) /\
    (tau_now (kctl f) < tau_now (kctl f') -> kw f' (l (kctl f')) = fst (y (sgn a * tau (kctl f))) /\
      (forall k, (l (kctl f) <= k < l (kctl f'))%nat -> kw f' k = fst (y (sgn a * (nth k (tau_out a) 0 - tau_now (kctl f))))) /\ (forall k, (k < l (kctl f))%nat -> kw f' k = kw f k)).
Proof. exact k_krylov_all. Qed.
Print Assumptions C74_krylov_partial.
(** What a whole run does to the control is one of the runs of the control. *)
Theorem C74_control : forall (X : ModuleSpace R_Ring) dot (A : X -> X) u p ex iop expm a n f f', k_run dot A u p ex iop expm a n f = Some f' -> exists ps, run a ps (kctl f) = Some (kctl f').
Proof. exact @k_run_control. Qed.
Print Assumptions C74_control.
(** a pass that meets the hypotheses, with a breakdown: one unknown, A = 0, u = [1, 1]. The result is phi_0(0) + phi_1(0) = 2 *)
Example C74_example : scalar_product (V := R_ModuleSpace) Rmult /\ linear_map zero_map /\ good bargs /\ tau_now (kctl (k_start ones bargs)) = 0 /\ exists f', k_pass (X := R_ModuleSpace) Rmult zero_map ones 1 0 2 series_expm bargs (k_start ones bargs) = Some f' /\
  tau_now (kctl f') = tau_end bargs /\ conv (kctl f') = 0 /\ kw f' 0%nat = 2.
Proof. split; [exact mult_product|]. split; [exact zero_linear|]. split; [exact bgood|]. split; [reflexivity|exact (k_break_run series_expm series_expm_ok)]. Qed.
