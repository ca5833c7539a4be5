(** C92: the exponential solver of the configuration is the one that the methods use. *)
From Coq Require Import String List.
From Verif Require Import SelModel ExsModel ExsSpec ExsProofs.
Import ListNotations.
Local Open Scope string_scope.

(** EPI methods: exactly the values of the schema are accepted, and each uses the solver it names *)
Theorem C92_epi : forall s f, epi_solver s = Ok f <-> In s selectable /\ f = named s.
Proof. exact epi_uses. Qed.
Print Assumptions C92_epi.
Example C92_epi_case : epi_solver "kiops_ne" = Ok "kiops_nest".
Proof. apply C92_epi. split; [cbn; tauto|reflexivity]. Qed.

(** stiffness resilient Runge-Kutta methods: all of them but two *)
Theorem C92_srerk : forall s f, srerk_solver s = Ok f <-> In s selectable /\ s <> "exode" /\ s <> "pmex_ne" /\ f = named s.
Proof. exact srerk_uses. Qed.
Print Assumptions C92_srerk.
Example C92_srerk_case : srerk_solver "icwy_ne" = Ok "icwy_ne".
Proof. apply C92_srerk. split; [cbn; tauto|]. split; [discriminate|]. split; [discriminate|reflexivity]. Qed.

(** what these methods refuse, they refuse with ValueError *)
Theorem C92_refused : forall s e, epi_solver s = Raise e \/ srerk_solver s = Raise e -> e = ValueError.
Proof. exact refusals. Qed.
Print Assumptions C92_refused.
Example C92_refused_case : srerk_solver "exode" = Raise ValueError.
Proof. reflexivity. Qed.

(** it is not true that a simulation that runs uses the solver that is named: epi_stiff3 with dcgs2 uses kiops *)
Theorem C92_refuted : ~ (forall c m s x, create c = Ok m -> first_step m = Ok tt -> In s selectable -> uses m s = Some x -> x = Ok (named s)).
Proof. exact not_always. Qed.
Print Assumptions C92_refuted.
(** it is not true that each value of the schema can be used with each method: srerk3 with exode raises *)
Theorem C92_schema_refuted : ~ (forall c m s x, create c = Ok m -> first_step m = Ok tt -> In s selectable -> uses m s = Some x -> exists f, x = Ok f).
Proof. exact not_refused. Qed.
Print Assumptions C92_schema_refuted.
(** the stiff EPI methods use the named solver for three of the values of the schema only *)
Theorem C92_stiff : forall s f, In s selectable -> epi_stiff_solver s = Ok f -> (f = named s <-> s = "pmex" \/ s = "exode" \/ s = "kiops").
Proof. exact stiff_uses. Qed.
Print Assumptions C92_stiff.
Example C92_stiff_case : epi_stiff_solver "dcgs2" = Ok "kiops" /\ named "dcgs2" <> "kiops".
Proof. split; [reflexivity|discriminate]. Qed.
