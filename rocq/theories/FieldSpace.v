(** The fields of the model (rank, variable, row, column, point) as a real vector space, and the explicit one-step integrators on two such spaces. *)
From Coq Require Import Reals ZArith FunctionalExtensionality.
From Coquelicot Require Import Hierarchy.
From Verif Require Import StepModel.
Local Open Scope R_scope.

Definition states : Type := Z -> nat -> nat -> nat -> nat -> R.
Definition st_plus (u w : states) : states := fun r v i j p => u r v i j p + w r v i j p.
Definition st_opp (u : states) : states := fun r v i j p => - u r v i j p.
Definition st_zero : states := fun _ _ _ _ _ => 0.
Definition st_scal (a : R) (u : states) : states := fun r v i j p => a * u r v i j p.
Ltac pointwise_ := intros; unfold st_plus, st_opp, st_zero, st_scal; do 5 (apply functional_extensionality; intro).
Lemma st_comm u w : st_plus u w = st_plus w u. Proof. pointwise_. ring. Qed.
Lemma st_assoc u w z : st_plus u (st_plus w z) = st_plus (st_plus u w) z. Proof. pointwise_. ring. Qed.
Lemma st_0 u : st_plus u st_zero = u. Proof. pointwise_. ring. Qed.
Lemma st_inv u : st_plus u (st_opp u) = st_zero. Proof. pointwise_. ring. Qed.
Definition st_mixin := AbelianGroup.Mixin states st_plus st_opp st_zero st_comm st_assoc st_0 st_inv.
Canonical st_group := AbelianGroup.Pack states st_mixin states.
Lemma st_s1 (x y : R) (u : states) : st_scal x (st_scal y u) = st_scal (mult x y) u. Proof. pointwise_. unfold mult. cbn. ring. Qed.
Lemma st_s2 (u : states) : st_scal one u = u. Proof. pointwise_. unfold one. cbn. ring. Qed.
Lemma st_s3 (x : R) (u w : states) : st_scal x (st_plus u w) = st_plus (st_scal x u) (st_scal x w). Proof. pointwise_. ring. Qed.
Lemma st_s4 (x y : R) (u : states) : st_scal (plus x y) u = st_plus (st_scal x u) (st_scal y u). Proof. pointwise_. unfold plus. cbn. ring. Qed.
Definition st_module_mixin := ModuleSpace.Mixin R_Ring st_group st_scal st_s1 st_s2 st_s3 st_s4.
Canonical st_module := ModuleSpace.Pack R_Ring states (ModuleSpace.Class R_Ring states st_mixin st_module_mixin) states.

(** ** A linear relation between two spaces that the right-hand sides respect is respected by the steps *)
Section Related.
Context {V W : ModuleSpace R_Ring}.
Variable rel : V -> W -> Prop.
Hypothesis rel_plus : forall u u' w w', rel u w -> rel u' w' -> rel (plus u u') (plus w w').
Hypothesis rel_scal : forall a u w, rel u w -> rel (scal (V := V) a u) (scal (V := W) a w).
Variables (f : V -> V) (g : W -> W).
Hypothesis rel_rhs : forall u w, rel u w -> rel (f u) (g w).
Lemma euler1_related u w dt : rel u w -> rel (euler1 f u dt) (euler1 g w dt).
Proof. intro H. unfold euler1. auto. Qed.
Lemma tvdrk3_related u w dt : rel u w -> rel (tvdrk3 f u dt) (tvdrk3 g w dt).
Proof. intro H. unfold tvdrk3. cbv zeta. assert (rel (plus u (scal (V := V) dt (f u))) (plus w (scal (V := W) dt (g w)))) by auto. auto 12. Qed.
Lemma iter_related (s : V -> V) (s' : W -> W) n u w : (forall u w, rel u w -> rel (s u) (s' w)) -> rel u w -> rel (Nat.iter n s u) (Nat.iter n s' w).
Proof. intros Hs H. induction n as [|n IH]; [exact H|]. cbn [Nat.iter nat_rect]. apply Hs. exact IH. Qed.
End Related.
