(** Consequences of the definitions of InnerSpec *)
From Coq Require Import Reals List Lra Lia.
From Coquelicot Require Import Hierarchy.
From Verif Require Import InnerSpec VecTac.
Import ListNotations.
Local Open Scope R_scope.

Section Facts.
Context {V : ModuleSpace R_Ring}.
Variable dot : V -> V -> R.
Hypothesis D : scalar_product dot.

Lemma dot_sym : forall x y, dot x y = dot y x. Proof. apply D. Qed.
Lemma dot_plus_l : forall x y z, dot (plus x y) z = dot x z + dot y z. Proof. apply D. Qed.
Lemma dot_scal_l : forall a x y, dot (scal (V := V) a x) y = a * dot x y. Proof. apply D. Qed.
Lemma dot_plus_r : forall x y z, dot z (plus x y) = dot z x + dot z y. Proof. intros. rewrite dot_sym, dot_plus_l, (dot_sym x), (dot_sym y). reflexivity. Qed.
Lemma dot_scal_r : forall a x y, dot y (scal (V := V) a x) = a * dot y x. Proof. intros. rewrite dot_sym, dot_scal_l, dot_sym. reflexivity. Qed.
Lemma dot_zero_l : forall x, dot zero x = 0.
Proof. intros x. replace (zero : V) with (scal (V := V) 0 (zero : V)) by exact (scal_zero_l zero). rewrite dot_scal_l. ring. Qed.
Lemma dot_zero_r : forall x, dot x zero = 0. Proof. intros. rewrite dot_sym. apply dot_zero_l. Qed.
Lemma dot_opp_l : forall x y, dot (opp x) y = - dot x y.
Proof. intros x y. replace (opp x) with (scal (V := V) (-1) x) by exact (scal_opp_one x). rewrite dot_scal_l. ring. Qed.
Lemma dot_opp_r : forall x y, dot x (opp y) = - dot x y. Proof. intros. rewrite dot_sym, dot_opp_l, dot_sym. reflexivity. Qed.
Lemma dot_pos : forall x, 0 <= dot x x. Proof. apply D. Qed.
Lemma dot_0 : forall x, dot x x = 0 -> x = zero. Proof. apply D. Qed.
Lemma norm_pos : forall x, 0 <= norm dot x. Proof. intros. apply sqrt_pos. Qed.
Lemma norm_sqr : forall x, norm dot x * norm dot x = dot x x. Proof. intros. apply sqrt_sqrt, dot_pos. Qed.
Lemma norm_0 : forall x, norm dot x = 0 -> x = zero. Proof. intros x H. apply dot_0. rewrite <- norm_sqr, H. ring. Qed.
Lemma norm_zero : norm dot zero = 0. Proof. unfold norm. rewrite dot_zero_l. apply sqrt_0. Qed.
Lemma norm_le : forall x y, dot x x <= dot y y -> norm dot x <= norm dot y. Proof. intros. apply sqrt_le_1; auto using dot_pos. Qed.
Lemma norm_le_inv : forall x y, norm dot x <= norm dot y -> dot x x <= dot y y. Proof. intros x y H. rewrite <- !norm_sqr. pose proof (norm_pos x). nra. Qed.
Lemma norm_unit : forall x, dot x x = 1 <-> norm dot x = 1.
Proof. intros x. split; intros H; [unfold norm; rewrite H; apply sqrt_1|rewrite <- norm_sqr, H; ring]. Qed.
Lemma normalised : forall x, norm dot x <> 0 -> dot (scal (V := V) (1 / norm dot x) x) (scal (V := V) (1 / norm dot x) x) = 1.
Proof. intros x N. rewrite dot_scal_l, dot_scal_r, <- norm_sqr. field. exact N. Qed.
(** removing the component along a unit vector does not enlarge the norm *)
Lemma remove_component : forall c r, dot c c = 1 -> let r' := plus r (scal (V := V) (- dot c r) c) in dot r' r' = dot r r - dot c r * dot c r.
Proof. intros c r U r'. unfold r'. rewrite !dot_plus_l, !dot_plus_r, !dot_scal_l, !dot_scal_r, U, (dot_sym r c). ring. Qed.

Lemma combination_nil_r : forall a, combination a ([] : list V) = zero. Proof. destruct a; reflexivity. Qed.
Lemma combination_snoc : forall a (q : list V) z, combination a (q ++ [z]) = plus (combination a q) (scal (V := V) (nth (length q) a 0) z).
Proof.
  intros a q z. revert a. induction q as [|p q IH]; intros a; destruct a as [|c a]; cbn [app combination length nth].
  - symmetry. rewrite plus_zero_l. exact (scal_zero_l z).
  - rewrite combination_nil_r. apply plus_comm.
  - rewrite plus_zero_l. symmetry. exact (scal_zero_l z).
  - rewrite IH, plus_assoc. reflexivity.
Qed.
Lemma combination_short : forall a (q q' : list V), (length a <= length q)%nat -> combination a (q ++ q') = combination a q.
Proof. induction a as [|c a IH]; intros [|p q] q' H; cbn in *; try reflexivity; [lia|]. rewrite IH by lia. reflexivity. Qed.
Lemma combination_scale : forall v a (q : list V), combination (map (Rmult v) a) q = scal (V := V) v (combination a q).
Proof. intros v. induction a as [|c a IH]; intros [|p q]; cbn [map combination]; try (symmetry; exact (scal_zero_r v)). rewrite IH, scal_distr_l. f_equal. symmetry. exact (scal_assoc v c p). Qed.
Lemma dot_combination_zero : forall z a (q : list V), (forall p, In p q -> dot p z = 0) -> dot (combination a q) z = 0.
Proof. intros z. induction a as [|c a IH]; intros [|p q] H; cbn [combination]; try apply dot_zero_l. rewrite dot_plus_l, dot_scal_l, H by now left. rewrite IH by (intros x X; apply H; now right). ring. Qed.
End Facts.

Lemma linear_zero : forall {V : ModuleSpace R_Ring} (A : V -> V), linear_map A -> A zero = zero.
Proof. intros V A (P & S). transitivity (A (scal (V := V) 0 (zero : V))); [f_equal; symmetry; exact (scal_zero_l zero)|]. rewrite S. exact (scal_zero_l _). Qed.
Lemma linear_combination : forall {V : ModuleSpace R_Ring} (A : V -> V), linear_map A -> forall a (q : list V), A (combination a q) = combination a (map A q).
Proof.
  intros V A H. pose proof (linear_zero A H) as Z. destruct H as (P & S).
  induction a as [|c a IH]; intros [|p q]; cbn [map combination]; auto. rewrite P, S, IH. reflexivity.
Qed.
Lemma linear_opp : forall {V : ModuleSpace R_Ring} (A : V -> V), linear_map A -> forall x, A (opp x) = opp (A x).
Proof. intros V A (P & S) x. replace (opp x) with (scal (V := V) (-1) x) by exact (scal_opp_one x). rewrite S. exact (scal_opp_one _). Qed.
