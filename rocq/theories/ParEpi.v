(** The multistep exponential integrators on two distributions of the same vectors. *)
From Coq Require Import Reals List ZArith Bool Arith Lia Lra Permutation FunctionalExtensionality.
From Coquelicot Require Import Hierarchy.
From Verif Require Import InnerSpec StepModel FgmresModel EpiModel ParSolveModel ParSolveSpec ParSolve ParPmex.
Import ListNotations.
Local Open Scope R_scope.

Section Related.
Context {V W : ModuleSpace R_Ring} {I I' K : Type}.
Variables (holds : list (list (V -> R))) (holds' : list (list (W -> R))) (rel : V -> W -> Prop) (same_i : I -> I' -> Prop).
Hypothesis D : redistribution holds holds' rel.
Let r0 := same_zero _ _ _ D. Let rp := same_plus _ _ _ D. Let rs := same_scal _ _ _ D.
Variables (e : epi V I K) (e' : epi W I' K).
Hypothesis E : same_epi rel same_i e e'.
Lemma substeps_same n i i' q q' h : same_i i i' -> rel q q' -> same_i (fst (substeps e n i q h)) (fst (substeps e' n i' q' h)) /\ rel (snd (substeps e n i q h)) (snd (substeps e' n i' q' h)).
Proof.
  revert i i' q q'. induction n as [|n IH]; intros i i' q q' Hi Hq; [split; assumption|]. cbn [substeps]. pose proof (se_init _ _ _ _ E i i' q q' h Hi Hq) as H.
  destruct (init_step e i q h), (init_step e' i' q' h). apply IH; apply H.
Qed.
Lemma add_to_same vec vec' k x x' : Forall2 rel vec vec' -> rel x x' -> same_option (Forall2 rel) (add_to V vec k x) (add_to W vec' k x').
Proof.
  intros Hv Hx. revert k. induction Hv as [|v v' l l' H H' IH]; intro k; [exact Logic.I|]. destruct k as [|k]; cbn [add_to]; [constructor; auto|].
  specialize (IH k). destruct (add_to V l k x), (add_to W l' k x'); cbn in IH |- *; try contradiction; try exact Logic.I. constructor; assumption.
Qed.
Lemma add_column_same vec vec' k column x x' : Forall2 rel vec vec' -> rel x x' -> same_option (Forall2 rel) (add_column V vec k column x) (add_column W vec' k column x').
Proof.
  intros Hv Hx. revert vec vec' k Hv. induction column as [|a column IH]; intros vec vec' k Hv; [exact Hv|]. cbn [add_column].
  pose proof (add_to_same vec vec' k _ _ Hv (rs a _ _ Hx)) as H. destruct (add_to V _ _ _), (add_to W _ _ _); cbn in H; try contradiction; [now apply IH|exact Logic.I].
Qed.
Lemma nth_error_same l l' i : Forall2 rel l l' -> same_option rel (nth_error l i) (nth_error l' i).
Proof. intro H. revert i. induction H; intros [|i]; cbn; auto. Qed.
Lemma add_previous_same vec vec' q q' f f' i n pq pq' pr pr' : Forall2 rel vec vec' -> rel q q' -> rel f f' -> Forall2 rel pq pq' -> Forall2 rel pr pr' ->
  same_option (Forall2 rel) (add_previous V I K e vec q f i n pq pr) (add_previous W I' K e' vec' q' f' i n pq' pr').
Proof.
  intros Hv Hq Hf Hpq Hpr. revert vec vec' i Hv. induction n as [|n IH]; intros vec vec' i Hv; [exact Hv|]. cbn [add_previous].
  pose proof (nth_error_same pq pq' i Hpq) as H1. pose proof (nth_error_same pr pr' i Hpr) as H2.
  destruct (nth_error pq i), (nth_error pq' i); cbn in H1; try contradiction; [|exact Logic.I]. destruct (nth_error pr i), (nth_error pr' i); cbn in H2; try contradiction; [|exact Logic.I].
  cbv zeta. rewrite (se_first _ _ _ _ E), (se_A _ _ _ _ E).
  match goal with |- context [add_column V vec _ _ ?x] => match goal with |- context [add_column W vec' _ _ ?x'] => assert (Hx : rel x x') end end.
  { apply (minus_same holds holds' rel D); [apply (minus_same holds holds' rel D); assumption|]. apply (se_jac _ _ _ _ E); [assumption|assumption|]. apply (minus_same holds holds' rel D); assumption. }
  pose proof (add_column_same vec vec' (EpiModel.first_row e') (map (fun row => nth i row 0) (EpiModel.A e')) _ _ Hv Hx) as H.
  destruct (add_column V _ _ _ _), (add_column W _ _ _ _); cbn in H; try contradiction; [now apply IH|exact Logic.I].
Qed.
Lemma vec0_same f f' : rel f f' -> Forall2 rel (vec0 V I K e f) (vec0 W I' K e' f').
Proof. intro H. unfold vec0. rewrite (se_rows _ _ _ _ E). constructor; [exact r0|]. constructor; [exact H|]. generalize (phi_rows e' - 2)%nat. intro m. induction m; cbn; constructor; auto. Qed.
Lemma pop_same l l' : Forall2 rel l l' -> Forall2 rel (pop V l) (pop W l').
Proof. unfold pop. intro H. induction H as [|x y l l' H H' IH]; [constructor|]. cbn [removelast]. destruct H'; [constructor|]. constructor; auto. Qed.
Definition rels (s : EpiModel.state V I K) (s' : EpiModel.state W I' K) : Prop :=
  Forall2 rel (previous_Q s) (previous_Q s') /\ Forall2 rel (previous_rhs s) (previous_rhs s') /\ dt_ s = dt_ s' /\ krylov s = krylov s' /\ same_i (init_state s) (init_state s').
Lemma step_same s s' q q' dt : rels s s' -> rel q q' -> same_option (fun a b => rels (fst a) (fst b) /\ rel (snd a) (snd b)) (EpiModel.step e s q dt) (EpiModel.step e' s' q' dt).
Proof.
  intros (H1 & H2 & H3 & H4 & H5) Hq. unfold EpiModel.step. cbv zeta. rewrite H3, H4.
  assert (N : n_prev e = n_prev e') by (unfold n_prev; now rewrite (se_A _ _ _ _ E)). rewrite N, (se_sub _ _ _ _ E).
  set (pq := if dt_changed _ _ then [] else previous_Q s). set (pq' := if dt_changed _ _ then [] else previous_Q s'). set (pr := if dt_changed _ _ then [] else previous_rhs s). set (pr' := if dt_changed _ _ then [] else previous_rhs s').
  assert (P : Forall2 rel pq pq') by (unfold pq, pq'; destruct (dt_changed _ _); auto). assert (P' : Forall2 rel pr pr') by (unfold pr, pr'; destruct (dt_changed _ _); auto).
  assert (L : length pq = length pq') by (clear - P; induction P; cbn; congruence). rewrite L. pose proof (se_rhs _ _ _ _ E q q' Hq) as Hf.
  destruct (_ <? _)%nat.
  - pose proof (substeps_same (init_substeps e') (init_state s) (init_state s') q q' (dt / INR (init_substeps e')) H5 Hq) as H. destruct (substeps e _ _ _ _), (substeps e' _ _ _ _). cbn [same_option fst snd] in *. split; [|apply H].
    repeat split; cbn [previous_Q previous_rhs dt_ krylov init_state]; try constructor; auto. apply H.
  - pose proof (add_previous_same _ _ q q' _ _ 0 (n_prev e') pq pq' pr pr' (vec0_same _ _ Hf) Hq Hf P P') as H. destruct (add_previous V _ _ _ _ _ _ _ _ _ _) as [vec|], (add_previous W _ _ _ _ _ _ _ _ _ _) as [vec'|]; cbn in H; try contradiction; [|exact Logic.I].
    pose proof (se_phi _ _ _ _ E (krylov s') dt q q' _ _ vec vec' Hq Hf H) as Hp. destruct (phi e _ _ _ _ _), (phi e' _ _ _ _ _). cbn [fst snd same_option] in *. destruct Hp as (-> & Hp). split; [|apply rp; [exact Hq|]; now apply rs].
    destruct (0 <? n_prev e')%nat; repeat split; cbn [previous_Q previous_rhs dt_ krylov init_state]; auto; constructor; auto; now apply pop_same.
Qed.
Lemma epi_run_same s s' q q' dts : rels s s' -> rel q q' -> same_option rel (epi_run e s q dts) (epi_run e' s' q' dts).
Proof.
  revert s s' q q'. induction dts as [|dt dts IH]; intros s s' q q' Hs Hq; [exact Hq|]. cbn [epi_run]. pose proof (step_same s s' q q' dt Hs Hq) as H.
  destruct (EpiModel.step e s q dt) as [[]|], (EpiModel.step e' s' q' dt) as [[]|]; cbn in H; try contradiction; [|exact Logic.I]. apply IH; apply H.
Qed.
Lemma epi_same k i i' q q' dts : same_i i i' -> rel q q' -> same_option rel (epi_run e (initial k i) q dts) (epi_run e' (initial k i') q' dts).
Proof. intros Hi Hq. apply epi_run_same; [|exact Hq]. split; [constructor|]. split; [constructor|]. repeat split. exact Hi. Qed.
End Related.

(** the integrators with pmex and finite differences *)
Lemma epi_pmex_same {V W : ModuleSpace R_Ring} {I I'} (holds : list (list (V -> R))) (holds' : list (list (W -> R))) rel (same_i : I -> I' -> Prop) order expm tol n f f' (init : I -> V -> R -> I * V) (init' : I' -> W -> R -> I' * W) sub e e' : redistribution holds holds' rel -> same_map rel f f' ->
  (forall i i' q q' dt, same_i i i' -> rel q q' -> same_i (fst (init i q dt)) (fst (init' i' q' dt)) /\ rel (snd (init i q dt)) (snd (init' i' q' dt))) ->
  Epi order f (fun q r v => matvec_fd v 1 q r f) (pmex_phi holds expm tol n f) init sub = Some e ->
  Epi order f' (fun q r v => matvec_fd v 1 q r f') (pmex_phi holds' expm tol n f') init' sub = Some e' -> same_epi rel same_i e e'.
Proof.
  intros D Hf Hi. unfold Epi. destruct (table order); [|discriminate]. intros [= <-] [= <-]. split; try reflexivity; cbn [rhs jac phi init_step]; auto.
  - intros q q' r r' v v' H1 H2 H3. unfold matvec_fd. apply (same_scal _ _ _ D), (same_scal _ _ _ D), (minus_same holds holds' rel D); [|exact H2]. apply Hf, (same_plus _ _ _ D); [exact H1|]. now apply (same_scal _ _ _ D).
  - intros k dt q q' r r' vec vec' H1 H2 H3. exact (phi_same holds holds' rel expm tol n f f' k dt q q' r r' vec vec' D Hf H1 H2 H3).
Qed.
