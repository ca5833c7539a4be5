From Coq Require Import Reals ZArith List.
From Verif Require Import KiopsModel KiopsSpec PmexModel PmexCases PmexRotation KiopsStats.
Import ListNotations.
Local Open Scope R_scope.

(** * C73: the statistics of the solvers for phi functions *)
(** kiops: the substeps, the rejected passes and the matrix exponentials add up; one exponential for each pass. The list has one outcome for each pass that may be made. *)
Theorem C73_kiops_counts : forall a ps s, good a -> run a ps (start a) = Some s ->
  step s = length (substeps s) /\ exps s = (step s + reject s + ireject s)%nat /\ (~ tau_now s < tau_end a -> exps s = (step s + reject s)%nat) /\ (tau_now s < tau_end a -> exps s = length ps) /\ (exps s <= length ps)%nat.
Proof. exact stats_ok. Qed.
Print Assumptions C73_kiops_counts.
Theorem C73_pmex_counts : forall a delta ps s, 1 <= delta -> good a -> p_run a delta ps (start a) = Some s ->
  step s = length (substeps s) /\ exps s = (step s + reject s + ireject s)%nat /\ (~ tau_now s < tau_end a -> exps s = (step s + reject s)%nat) /\ (tau_now s < tau_end a -> exps s = length ps) /\ (exps s <= length ps)%nat.
Proof. exact p_stats_ok. Qed.
Print Assumptions C73_pmex_counts.
(** kiops: a pass adds the basis vectors it has made to the Krylov steps (the last one is not counted with a breakdown), and the error estimate to the reported error if it is accepted. *)
Theorem C73_kiops_added : forall a ps s p s', good a -> run a ps (start a) = Some s -> tau_now s < tau_end a -> pass a s p = Some s' ->
  (breakdown p = None -> krystep s' = (krystep s + (m s - j s))%Z /\ conv s' = conv s + (if Rlt_dec (tau_now s) (tau_now s') then Rabs (estimate p) else 0)) /\
  (forall h, breakdown p = Some h -> (j s < h <= m s)%Z -> krystep s' = (krystep s + (h - 1 - j s))%Z /\ conv s' = conv s).
Proof. exact added_ok. Qed.
Print Assumptions C73_kiops_added.
Theorem C73_pmex_added : forall a delta ps s p s', 1 <= delta -> good a -> p_run a delta ps (start a) = Some s -> tau_now s < tau_end a -> p_pass a delta s p = Some s' ->
  (p_breakdown p = None -> krystep s' = (krystep s + (m s - j s))%Z /\ conv s' = conv s + (if Rlt_dec (tau_now s) (tau_now s') then Rabs (p_full p) else 0)) /\
  (forall h, p_breakdown p = Some h -> (j s < h <= m s)%Z -> krystep s' = (krystep s + (h - 1 - j s))%Z /\ conv s' = conv s).
Proof. exact p_added_ok. Qed.
Print Assumptions C73_pmex_added.
(** The reported error is at most delta tol tau_now / tau_end, and delta tol at the end: 1.4 for kiops, the parameter delta for pmex. *)
Theorem C73_kiops_error : forall a ps s, good a -> run a ps (start a) = Some s -> 0 <= conv s /\ conv s * tau_end a <= 1.4 * tol a * tau_now s /\ conv s <= 1.4 * tol a.
Proof. exact error_ok. Qed.
Print Assumptions C73_kiops_error.
Theorem C73_pmex_error : forall a delta ps s, 1 <= delta -> good a -> p_run a delta ps (start a) = Some s -> 0 <= conv s /\ conv s * tau_end a <= delta * tol a * tau_now s /\ conv s <= delta * tol a.
Proof. exact p_error_ok. Qed.
Print Assumptions C73_pmex_error.
(** pmex returns the basis size of the last substep: the pass that reaches the last output time keeps it. *)
Theorem C73_pmex_size : forall a delta ps s p s', 1 <= delta -> good a -> p_run a delta ps (start a) = Some s -> tau_now s < tau_end a -> p_pass a delta s p = Some s' -> ~ tau_now s' < tau_end a -> m s' = m s.
Proof. exact p_size_ok. Qed.
Print Assumptions C73_pmex_size.
(** kiops does not: a single substep with 20 basis vectors, reported as 15. *)
Theorem C73_kiops_size_refuted : good sargs /\ exists ps s, run sargs ps (start sargs) = Some s /\ ~ tau_now s < tau_end sargs /\ step s = 1%nat /\ krystep s = 20%Z /\ m s = 15%Z.
Proof. split; [exact sgood|exact last_size]. Qed.
Print Assumptions C73_kiops_size_refuted.
(** finished runs that meet the hypotheses *)
Example C73_kiops_example : good sargs /\ exists ps s, run sargs ps (start sargs) = Some s /\ ~ tau_now s < tau_end sargs.
Proof. split; [exact sgood|]. destruct last_size as (ps & s & H & N & _). now exists ps, s. Qed.
Example C73_pmex_example : 1 <= 1.2 /\ good bargs /\ exists ps s, p_run bargs 1.2 ps (start bargs) = Some s /\ ~ tau_now s < tau_end bargs.
Proof. destruct break_case as (D & G & _ & _ & E). split; [exact D|]. split; [exact G|exact E]. Qed.
