(** C33: substeps, output times and basis size of the Krylov solver for phi functions. C34: its augmented system *)
From Coq Require Import Reals ZArith List Lia Lra Floats.
From Coquelicot Require Import Coquelicot.
From Verif Require Import KiopsModel KiopsSpec KiopsFloat KiopsProofs KiopsAug KiopsCases.
Import ListNotations.
Local Open Scope R_scope.
Local Set Warnings "-inexact-float".

(** ** C33 *)
(** Whatever the error estimates and breakdowns: accepted substeps are positive, add up to the present time, which never passes the end; the next substep is positive and does not pass it either; at the end the sum is the final time *)
Theorem C33_substeps : forall a ps s, good a -> run a ps (start a) = Some s ->
  List.Forall (fun t => 0 < t) (substeps s) /\ total (substeps s) = tau_now s /\ tau_now s <= tau_end a /\ (tau_now s < tau_end a -> 0 < tau s /\ tau_now s + tau s <= tau_end a) /\
  (~ tau_now s < tau_end a -> total (substeps s) = tau_end a).
Proof. exact substeps_ok. Qed.
Print Assumptions C33_substeps.
Theorem C33_basis : forall a ps s, good a -> run a ps (start a) = Some s -> (mmin a <= m s <= mmax a /\ 0 <= j s <= m s)%Z.
Proof. exact basis_ok. Qed.
Print Assumptions C33_basis.
(** A rejected pass enlarges the basis and keeps the substep or, when the basis is the largest, shortens the substep: no pass repeats the previous one *)
Theorem C33_progress : forall a ps s p s', good a -> run a ps (start a) = Some s -> tau_now s < tau_end a -> pass a s p = Some s' -> tau_now s' = tau_now s ->
  ((m s < m s')%Z /\ tau s' = tau s) \/ (m s = mmax a /\ m s' = mmax a /\ tau s' < tau s).
Proof. exact progress. Qed.
Print Assumptions C33_progress.
(** For positive increasing output times, row k of the result is the one of output time k *)
Theorem C33_outputs_partial : forall a ps s, good a -> 0 < last_out a -> output_times (tau_out a) -> run a ps (start a) = Some s -> ~ tau_now s < tau_end a ->
  forall k, (k < length (tau_out a))%nat -> times s k = nth k (tau_out a) 0.
Proof. exact outputs_ok. Qed.
Print Assumptions C33_outputs_partial.
(** For negative output times it is not: the first of -1/2, -1 is evaluated at +1/2 *)
Theorem C33_outputs_refuted : exists a ps s, good a /\ run a ps (start a) = Some s /\ ~ tau_now s < tau_end a /\ tau_out a = [-1/2; -1] /\ times s 0 = 1/2.
Proof. exact negative_outputs. Qed.
Print Assumptions C33_outputs_refuted.
(** Nor is it when the final time is asked for twice: the second row is not written *)
Theorem C33_repeated_refuted : exists a ps s, good a /\ run a ps (start a) = Some s /\ ~ tau_now s < tau_end a /\ tau_out a = [1; 1] /\ times s 1 = 0.
Proof. exact repeated_outputs. Qed.
Print Assumptions C33_repeated_refuted.
(** An error estimate of 0 after a rejection raises an exception *)
Theorem C33_zero_estimate_refuted : exists a ps, good a /\ run a ps (start a) = None.
Proof. exact zero_estimate. Qed.
Print Assumptions C33_zero_estimate_refuted.
(** In double precision the last substep may pass the end: from 0.29 to 0.9, the single output time is then counted as passed, and the row to continue with does not exist *)
Theorem C33_float_refuted : (0.29 <? 0.9)%float = true /\ (0.9 <? 0.29 + remaining 0.9 0.29)%float = true /\ continue_row [0.9%float] 0 0.29 (remaining 0.9 0.29) = None.
Proof. exact float_case. Qed.
Print Assumptions C33_float_refuted.
(** two output times, one pass *)
Example C33_ex : let a := Args [1/2; 1] (1/10) 10 10 128 in good a /\ 0 < last_out a /\ output_times (tau_out a) /\
  exists s, run a [Probe (Some 3%Z) 0] (start a) = Some s /\ ~ tau_now s < tau_end a /\ times s 0 = 1/2 /\ times s 1 = 1 /\ substeps s = [1].
Proof. exact two_outputs. Qed.

(** ** C34 *)
(** The system: if w solves w' = A w + sum over j of t^(j-1)/(j-1)! u_j, then w together with the augmented part started as the code starts it solves the system of the code's product *)
Theorem C34_system : forall (E : NormedModule R_AbsRing) (A : E -> E) (u : nat -> E) ex p (w : R -> E), (1 <= p)%nat ->
  (forall t, is_derive w t (plus (A (w t)) (sum_n (fun k => scal (monomial k t) (u (S k))) (p - 1)))) ->
  exists e, chain p e /\ (forall k t, (k < p)%nat -> is_derive (e k) t (shift p (fun i => e i t) k)) /\ (forall k, (k < p)%nat -> e k 0 = augmented p 0 (mu ex) k) /\ forall t, is_derive w t (product A u ex p (w t) (fun k => e k t)).
Proof. exact augmented_system. Qed.
Print Assumptions C34_system.
(** With two or more phi functions, the augmented part at the start of a later substep is not the one of the solution: every entry but the last is wrong *)
Theorem C34_refuted : forall p now ex e, (2 <= p)%nat -> 0 < now < 2 -> chain p e -> (forall k, (k < p)%nat -> e k 0 = augmented p 0 (mu ex) k) ->
  forall k, (k < p - 1)%nat -> augmented p now (mu ex) k <> e k now.
Proof. exact restart_wrong. Qed.
Print Assumptions C34_refuted.
(** It is right in the first substep, and always when only one phi function is asked for *)
Theorem C34_partial : forall p now ex e, (1 <= p)%nat -> p = 1%nat \/ now = 0 -> 0 <= now -> chain p e -> (forall k, (k < p)%nat -> e k 0 = augmented p 0 (mu ex) k) ->
  forall k, (k < p)%nat -> augmented p now (mu ex) k = e k now.
Proof. exact restart_right. Qed.
Print Assumptions C34_partial.
(** phi_0 alone is refused for every n but 1, since the added row has the wrong length; with two or more rows p is the number of phi functions after phi_0 *)
Theorem C34_phi0_refuted : forall n, (stacked 1 n = None <-> n <> 1%nat) /\ forall rows, (2 <= rows)%nat -> stacked rows n = Some (rows - 1)%nat.
Proof.
  intros n. unfold stacked. split; [cbn; destruct (Nat.eqb_spec n 1); split; intros; congruence|]. intros rows H. destruct (Nat.eqb_spec rows 1); [lia|reflexivity].
Qed.
Print Assumptions C34_phi0_refuted.
(** the solutions quantified over exist; p = 3, t = 1/2, mu = 4: the entries are 1/2, 2, 4, the code has 1/96, 1/12, 4 *)
Example C34_ex : chain 3 (fun k t => monomial (3 - 1 - k) t * mu 2) /\ (forall k, (k < 3)%nat -> monomial (3 - 1 - k) 0 * mu 2 = augmented 3 0 (mu 2) k) /\
  monomial (3 - 1 - 0) (1/2) * mu 2 = 1/2 /\ augmented 3 (1/2) (mu 2) 0 = 1/96 /\ monomial (3 - 1 - 1) (1/2) * mu 2 = 2 /\ augmented 3 (1/2) (mu 2) 1 = 1/12.
Proof. split; [apply solves_chain; [lia|apply monomials_solve]|]. split; [intros k K; symmetry; now apply augmented_0|]. exact restart_values. Qed.
