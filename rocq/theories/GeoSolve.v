(** The linear system of the Christoffel symbols has a solution whatever the derivatives of the metric are. *)
From Coq Require Import Reals Lra Lia.
From Verif Require Import GeoModel GeoSpec GeoChristoffel GeoFinal.
Local Open Scope R_scope.

Section Solve.
Variables (s : R) (g h : nat -> nat -> R) (rhs : nat -> nat -> nat -> R).
Hypotheses (Hs : s <> 0) (Sg : forall a b, (a < 3)%nat -> (b < 3)%nat -> g a b = g b a) (Sh : forall a b, (a < 3)%nat -> (b < 3)%nat -> h a b = h b a)
  (I : forall a b, (a < 3)%nat -> (b < 3)%nat -> sum3 (fun k => g a k * h k b) = kron a b)
  (Sr : forall a b c, (a < 3)%nat -> (b < 3)%nat -> (c < 3)%nat -> rhs a b c = rhs b a c).
(** derivative of the logarithm of the volume, of the contravariant metric (with the other sign), of the covariant one *)
Definition trace (c : nat) : R := sum3 (fun a => sum3 (fun b => g a b * (rhs a b c / s))).
Definition upper (a b c : nat) : R := h a b * trace c - rhs a b c / s.
Definition lowered (a b c : nat) : R := sum3 (fun p => g a p * sum3 (fun q => g b q * upper p q c)).
Lemma upper_sym a b c : (a < 3)%nat -> (b < 3)%nat -> (c < 3)%nat -> upper a b c = upper b a c.
Proof. intros. unfold upper. rewrite (Sh a b), (Sr a b c) by assumption. reflexivity. Qed.
Lemma lowered_sym a b c : (a < 3)%nat -> (b < 3)%nat -> (c < 3)%nat -> lowered a b c = lowered b a c.
Proof.
  intros Ha Hb Hc. unfold lowered. transitivity (sum3 (fun p => sum3 (fun q => g a p * g b q * upper p q c))); [unfold sum3; ring|].
  rewrite sum3_swap. transitivity (sum3 (fun q => sum3 (fun p => g b q * g a p * upper q p c))); [|unfold sum3; ring].
  apply sum3_ext; intros q Hq; apply sum3_ext; intros p Hp. rewrite (upper_sym p q c) by assumption. ring.
Qed.
Lemma raised a b c : (a < 3)%nat -> (b < 3)%nat -> sum3 (fun e => sum3 (fun f => h a e * h b f * lowered e f c)) = upper a b c.
Proof.
  intros Ha Hb. unfold lowered. rewrite (expand_h g h Sg Sh I (fun a => upper a b c) a Ha).
  transitivity (sum3 (fun e => h a e * sum3 (fun p => g e p * sum3 (fun f => h b f * sum3 (fun q => g f q * upper p q c))))); [unfold sum3; ring|].
  apply sum3_ext; intros e He. f_equal. apply sum3_ext; intros p Hp. f_equal. rewrite <- (expand_h g h Sg Sh I (fun q => upper p q c) b Hb). reflexivity.
Qed.
Lemma raised_trace c : (c < 3)%nat -> sum3 (fun e => sum3 (fun f => h e f * lowered e f c)) = 2 * trace c.
Proof.
  intros Hc. unfold lowered.
  transitivity (sum3 (fun p => sum3 (fun q => sum3 (fun e => sum3 (fun f => h e f * g f q) * g e p) * upper p q c))); [unfold sum3; ring|].
  transitivity (sum3 (fun p => sum3 (fun q => g q p * upper p q c))).
  { apply sum3_ext; intros p Hp; apply sum3_ext; intros q Hq. f_equal. rewrite (sum3_ext _ (fun e => kron q e * g e p)).
    - exact (sum3_kron q (fun e => g e p) Hq).
    - intros e He. rewrite (I' g h Sg Sh I e q He Hq). unfold kron. rewrite Nat.eqb_sym. reflexivity. }
  unfold upper. transitivity (trace c * sum3 (fun p => sum3 (fun q => g q p * h p q)) - sum3 (fun p => sum3 (fun q => g q p * (rhs p q c / s)))); [unfold sum3; ring|].
  rewrite (sum3_swap (fun p q => g q p * h p q)). rewrite (sum3_ext (fun q => sum3 (fun p => g q p * h p q)) (fun q => kron q q)) by (intros q Hq; apply I; assumption).
  assert (E : sum3 (fun p => sum3 (fun q => g q p * (rhs p q c / s))) = trace c).
  { unfold trace. apply sum3_ext; intros p Hp; apply sum3_ext; intros q Hq. rewrite (Sg q p) by assumption. reflexivity. }
  rewrite E. unfold sum3, kron. cbn [Nat.eqb]. ring.
Qed.
Lemma solvable : solves_system s h rhs (lc h lowered).
Proof.
  intros a b c Ha Hb Hc. rewrite c_lhs_row by assumption. rewrite (lc_row h lowered Sh) by (assumption || (intros; apply lowered_sym; assumption)).
  rewrite raised, raised_trace by assumption. unfold upper. field. exact Hs.
Qed.
End Solve.
Lemma system_solvable : forall s g h rhs, s <> 0 -> symmetric3 g -> symmetric3 h -> inverse3n g h -> (forall a b c, (a < 3)%nat -> (b < 3)%nat -> (c < 3)%nat -> rhs a b c = rhs b a c) -> exists G, solves_system s h rhs G.
Proof.
  intros s g h rhs Hs Sg Sh I Sr. exists (lc h (lowered s g h rhs)). apply solvable; try assumption.
  - intros a b Ha Hb; apply (proj1 (below3_all _)) with (a := a) in Sg; auto; apply (proj1 (below3_all _)) with (a := b) in Sg; auto.
  - intros a b Ha Hb; apply (proj1 (below3_all _)) with (a := a) in Sh; auto; apply (proj1 (below3_all _)) with (a := b) in Sh; auto.
  - intros a b Ha Hb; apply (proj1 (below3_all _)) with (a := a) in I; auto; apply (proj1 (below3_all _)) with (a := b) in I; auto.
Qed.
