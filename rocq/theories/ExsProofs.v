From Coq Require Import String List.
From Verif Require Import SelModel SelSpec SelProofs SelFinal ExsModel ExsSpec.
Import ListNotations.
Local Open Scope string_scope.

Ltac walk H := repeat match type of H with context [if (?x =? ?y) then _ else _] => let E := fresh "E" in destruct (x =? y) eqn:E; [apply String.eqb_eq in E; subst|apply String.eqb_neq in E] end.
Ltac listed := cbn; repeat (first [left; reflexivity|right]).
Lemma epi_uses s f : epi_solver s = Ok f <-> In s selectable /\ f = named s.
Proof.
  split.
  - intro H. unfold epi_solver in H. walk H; try discriminate H; injection H as <-; (split; [listed|reflexivity]).
  - intros [H ->]. cbn in H. repeat (destruct H as [<-|H]; [reflexivity|]). destruct H.
Qed.
Lemma srerk_uses s f : srerk_solver s = Ok f <-> In s selectable /\ s <> "exode" /\ s <> "pmex_ne" /\ f = named s.
Proof.
  split.
  - intro H. unfold srerk_solver in H. walk H; try discriminate H; injection H as <-; (split; [listed|]; split; [discriminate|]; split; [discriminate|reflexivity]).
  - intros (H & N1 & N2 & ->). cbn in H. repeat (destruct H as [<-|H]; [first [reflexivity|congruence]|]). destruct H.
Qed.
Lemma refusals s e : epi_solver s = Raise e \/ srerk_solver s = Raise e -> e = ValueError.
Proof. intros [H|H]; [unfold epi_solver in H|unfold srerk_solver in H]; walk H; congruence. Qed.
Lemma stiff_uses s f : In s selectable -> epi_stiff_solver s = Ok f -> (f = named s <-> s = "pmex" \/ s = "exode" \/ s = "kiops").
Proof. intros H. cbn in H. repeat (destruct H as [<-|H]; [intro E; injection E as <-; cbn; (split; [intro X; first [discriminate X|tauto]|intros [X|[X|X]]; first [discriminate X|reflexivity]])|]). destruct H. Qed.
Lemma epi_always c m n r s : create c = Ok m -> m = Epi n r -> In s selectable -> uses m s = Some (Ok (named s)).
Proof. intros _ -> H. cbn. f_equal. apply epi_uses. auto. Qed.
Lemma not_always : ~ (forall c m s x, create c = Ok m -> first_step m = Ok tt -> In s selectable -> uses m s = Some x -> x = Ok (named s)).
Proof.
  intro H. specialize (H (Config "euler" "cubed_sphere" "dg" "none" "epi_stiff3") (EpiStiff 3 DirectFluxReconstructionMpi) "dcgs2" (Ok "kiops") eq_refl eq_refl). assert (I : In "dcgs2" selectable) by listed. specialize (H I eq_refl). discriminate H.
Qed.
Lemma not_refused : ~ (forall c m s x, create c = Ok m -> first_step m = Ok tt -> In s selectable -> uses m s = Some x -> exists f, x = Ok f).
Proof.
  intro H. specialize (H (Config "euler" "cubed_sphere" "dg" "none" "srerk3") (Srerk 3 DirectFluxReconstructionMpi) "exode" (Raise ValueError) eq_refl eq_refl). assert (I : In "exode" selectable) by listed. destruct (H I eq_refl) as [f F]. discriminate F.
Qed.
