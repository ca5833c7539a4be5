(** C29: the coefficients computed by alpha_coeff satisfy the order conditions. *)
From mathcomp Require Import all_ssreflect all_algebra.
From Verif Require Import AlphaModel AlphaSpec AlphaProofs.
Set Implicit Arguments.
Unset Strict Implicit.
Unset Printing Implicit Defensive.
Local Open Scope ring_scope.

(** C29: for distinct, non-zero nodes, any number of them, in any field *)
Theorem C29_order_conditions : forall (F : fieldType) (c : seq F), uniq c -> 0 \notin c -> order_conditions (alpha_coeff c) c.
Proof. exact alpha_conditions. Qed.
Print Assumptions C29_order_conditions.

Example C29_nodes : uniq [:: - 1%:Q; - 2%:Q; 1%:Q / 2%:Q] /\ 0 \notin [:: - 1%:Q; - 2%:Q; 1%:Q / 2%:Q].
Proof. by []. Qed.
Example C29_value : alpha_coeff [:: - 1%:Q; - 2%:Q] 1 0 = 6%:Q /\ alpha_coeff [:: - 1%:Q; - 2%:Q] 1 1 = - (3%:Q / 2%:Q).
Proof. by rewrite /alpha_coeff /sp /denom /c_no_i /= !big_cons !big_nil; split; apply/eqP. Qed.

(** C29 for the stiffness-resilient integrator: the saved states lie at -1, -2, ..., but the nodes given to alpha_coeff are
    1, 2, ... (the sign is changed twice), so that every coefficient of an odd row has the wrong sign ... *)
Theorem C29_stiff_sign : forall (F : numFieldType) (order k l : nat), (2 <= order)%N -> (k < order - 2)%N -> (l < order - 2)%N ->
  \sum_(i < order - 2) alpha_coeff [seq x%:~R | x <- epi_stiff_nodes order] k i * (past F (order - 2))`_i ^+ (l + 2)
  = if k == l then (-1) ^+ k * (k + 2)`!%:R else 0 :> F.
Proof. exact stiff_sign. Qed.
Print Assumptions C29_stiff_sign.

(** ... the order conditions fail for every order above 3 ... *)
Theorem C29_stiff_refuted : forall (F : numFieldType) (order : nat), (4 <= order)%N ->
  ~ order_conditions (alpha_coeff [seq x%:~R | x <- epi_stiff_nodes order]) (past F (order - 2)).
Proof. exact stiff_refuted. Qed.
Print Assumptions C29_stiff_refuted.

(** ... and hold for orders 2 and 3. *)
Theorem C29_stiff_low_orders : forall (F : numFieldType) (order : nat), (2 <= order <= 3)%N ->
  order_conditions (alpha_coeff [seq x%:~R | x <- epi_stiff_nodes order]) (past F (order - 2)).
Proof. exact stiff_low. Qed.
Print Assumptions C29_stiff_low_orders.
Example C29_stiff_ex : epi_stiff_nodes 5 = [:: 1; 2; 3]%R.
Proof. by []. Qed.
