(** Coq's real numbers as a field of the mathcomp library, to use the theorems about operators with them. *)
From Coq Require Import Reals Lra Epsilon FunctionalExtensionality.
From mathcomp Require Import all_ssreflect all_algebra.
Set Implicit Arguments.
Unset Strict Implicit.
Unset Printing Implicit Defensive.
Import GRing.Theory.

Definition eqr (x y : R) : bool := if Req_EM_T x y then true else false.
Lemma eqrP : Equality.axiom eqr.
Proof. move=> x y. rewrite /eqr. case: Req_EM_T => H; by constructor. Qed.
Definition R_eqMixin := EqMixin eqrP.
Canonical R_eqType := EqType R R_eqMixin.
Definition pick_R (P : pred R) (n : nat) : option R := let x := epsilon (inhabits R0) (fun x => P x) in if P x then Some x else None.
Lemma pick_some P n x : pick_R P n = Some x -> P x.
Proof. rewrite /pick_R. case: ifP => // H [<-]. exact: H. Qed.
Lemma pick_ex (P : pred R) : (exists x : R, P x) -> exists n, pick_R P n.
Proof. move=> H. exists 0%N. rewrite /pick_R. have -> // := epsilon_spec (inhabits R0) (fun x => is_true (P x)) H. Qed.
Lemma pick_ext (P Q : pred R) : P =1 Q -> pick_R P =1 pick_R Q.
Proof. move=> PQ n. rewrite /pick_R. have -> : P = Q by apply: functional_extensionality. by []. Qed.
Definition R_choiceMixin : choiceMixin R := Choice.Mixin pick_some pick_ex pick_ext.
Canonical R_choiceType := ChoiceType R R_choiceMixin.
Lemma addA : associative Rplus. Proof. move=> x y z. ring. Qed.
Lemma addC : commutative Rplus. Proof. move=> x y. ring. Qed.
Lemma add0 : left_id R0 Rplus. Proof. move=> x. ring. Qed.
Lemma addN : left_inverse R0 Ropp Rplus. Proof. move=> x. ring. Qed.
Definition R_zmodMixin := ZmodMixin addA addC add0 addN.
Canonical R_zmodType := ZmodType R R_zmodMixin.
Lemma mulA : associative Rmult. Proof. move=> x y z. ring. Qed.
Lemma mulC : commutative Rmult. Proof. move=> x y. ring. Qed.
Lemma mul1 : left_id R1 Rmult. Proof. move=> x. ring. Qed.
Lemma mulD : left_distributive Rmult Rplus. Proof. move=> x y z. ring. Qed.
Lemma one_neq_0 : R1 != R0. Proof. apply/eqP. exact: R1_neq_R0. Qed.
Definition R_ringMixin := ComRingMixin mulA mulC mul1 mulD one_neq_0.
Canonical R_ringType := RingType R R_ringMixin.
Canonical R_comRingType := ComRingType R mulC.
Lemma mulV (x : R) : x != R0 -> Rmult (Rinv x) x = R1.
Proof. move=> H. apply: Rinv_l. exact/eqP. Qed.
Definition R_unitRingMixin := FieldUnitMixin mulV Rinv_0.
Canonical R_unitRingType := UnitRingType R R_unitRingMixin.
Canonical R_comUnitRingType := [comUnitRingType of R].
Lemma field_axiom : GRing.Field.mixin_of R_unitRingType. Proof. by []. Qed.
Definition R_idomainMixin := FieldIdomainMixin field_axiom.
Canonical R_idomainType := IdomainType R R_idomainMixin.
Canonical R_fieldType := FieldType R field_axiom.
