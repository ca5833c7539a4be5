(** The fields of the atmosphere (rank, variable, layer, row, column, point) as a real vector space. *)
From Coq Require Import Reals ZArith FunctionalExtensionality.
From Coquelicot Require Import Hierarchy.
Local Open Scope R_scope.

Definition states3 : Type := Z -> nat -> nat -> nat -> nat -> nat -> R.
Definition st3_plus (u w : states3) : states3 := fun r v l i j p => u r v l i j p + w r v l i j p.
Definition st3_opp (u : states3) : states3 := fun r v l i j p => - u r v l i j p.
Definition st3_zero : states3 := fun _ _ _ _ _ _ => 0.
Definition st3_scal (a : R) (u : states3) : states3 := fun r v l i j p => a * u r v l i j p.
Ltac pointwise3_ := intros; unfold st3_plus, st3_opp, st3_zero, st3_scal; do 6 (apply functional_extensionality; intro).
Lemma st3_comm u w : st3_plus u w = st3_plus w u. Proof. pointwise3_. ring. Qed.
Lemma st3_assoc u w z : st3_plus u (st3_plus w z) = st3_plus (st3_plus u w) z. Proof. pointwise3_. ring. Qed.
Lemma st3_0 u : st3_plus u st3_zero = u. Proof. pointwise3_. ring. Qed.
Lemma st3_inv u : st3_plus u (st3_opp u) = st3_zero. Proof. pointwise3_. ring. Qed.
Definition st3_mixin := AbelianGroup.Mixin states3 st3_plus st3_opp st3_zero st3_comm st3_assoc st3_0 st3_inv.
Canonical st3_group := AbelianGroup.Pack states3 st3_mixin states3.
Lemma st3_s1 (x y : R) (u : states3) : st3_scal x (st3_scal y u) = st3_scal (mult x y) u. Proof. pointwise3_. unfold mult. cbn. ring. Qed.
Lemma st3_s2 (u : states3) : st3_scal one u = u. Proof. pointwise3_. unfold one. cbn. ring. Qed.
Lemma st3_s3 (x : R) (u w : states3) : st3_scal x (st3_plus u w) = st3_plus (st3_scal x u) (st3_scal x w). Proof. pointwise3_. ring. Qed.
Lemma st3_s4 (x y : R) (u : states3) : st3_scal (plus x y) u = st3_plus (st3_scal x u) (st3_scal y u). Proof. pointwise3_. unfold plus. cbn. ring. Qed.
Definition st3_module_mixin := ModuleSpace.Mixin R_Ring st3_group st3_scal st3_s1 st3_s2 st3_s3 st3_s4.
Canonical st3_module := ModuleSpace.Pack R_Ring states3 (ModuleSpace.Class R_Ring states3 st3_mixin st3_module_mixin) states3.

