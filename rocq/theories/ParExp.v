(** kiops, the multistep methods with kiops, and the stiffness resilient methods, on two distributions of the same vectors. *)
From Coq Require Import Reals List ZArith Bool Arith Lia Lra Permutation FunctionalExtensionality.
From Coquelicot Require Import Hierarchy.
From Verif Require Import InnerSpec StepModel FgmresModel EpiModel KiopsModel PmexModel KiopsLinear SrerkModel ParSolveModel ParSolveSpec ParSolve ParPmex ParEpi ParExpModel ParNewtonModel ParNewtonSpec.
Import ListNotations.
Local Open Scope R_scope.

Section Related.
Context {V W : ModuleSpace R_Ring}.
Variables (holds : list (list (V -> R))) (holds' : list (list (W -> R))) (rel : V -> W -> Prop).
Hypothesis D : redistribution holds holds' rel.
Let r0 := same_zero _ _ _ D. Let rp := same_plus _ _ _ D. Let rs := same_scal _ _ _ D.
Notation dot := (global_dotprod holds).
Notation dot' := (global_dotprod holds').
Notation relr := (relr rel).
Variables (A : V -> V) (A' : W -> W) (u : nat -> V) (u' : nat -> W) (p : nat) (ex : Z) (iop : nat) (expm : nat -> (nat -> nat -> R) -> nat -> nat -> R).
Hypothesis HA : same_map rel A A'.
Hypothesis Hu : forall i, rel (u i) (u' i).
Definition relb (K : KiopsLinear.basis (X := V)) (K' : KiopsLinear.basis (X := W)) : Prop := (forall i, relr (bv K i) (bv K' i)) /\ bh K = bh K' /\ bb K = bb K'.
Lemma k_first_same K K' x y now : relb K K' -> rel x y -> relb (k_first dot p ex K x now) (k_first dot' p ex K' y now).
Proof.
  intros (H1 & H2 & H3) Hx. assert (S0 : relr (start_row p ex x now) (start_row p ex y now)) by (split; [exact Hx|reflexivity]).
  unfold k_first. cbv zeta. rewrite (adot_same holds holds' rel D p _ _ _ _ S0 S0). repeat split; cbn [bv bh bb]; try assumption; apply (relr_set1 rel); auto; now apply (relr_scal holds holds' rel D).
Qed.
Lemma k_orth_same tolerance K K' h : relb K K' -> let (K1, b) := k_orth dot A u p ex iop tolerance K h in let (K1', b') := k_orth dot' A' u' p ex iop tolerance K' h in relb K1 K1' /\ b = b'.
Proof.
  intros (H1 & H2 & H3). unfold k_orth. cbv zeta.
  assert (Hv : forall k, relr (set1 (bv K) h (augmented_product A u p ex (bv K (h - 1)%nat)) k) (set1 (bv K') h (augmented_product A' u' p ex (bv K' (h - 1)%nat)) k)) by (apply (relr_set1 rel); [exact H1|]; now apply (product_same holds holds' rel D)).
  set (v1 := set1 (bv K) h _) in *. set (v1' := set1 (bv K') h _) in *. rewrite H2, H3.
  assert (E : (fun i k => if ((k =? h - 1)%nat && (h - iop <=? i)%nat && (i <? h)%nat)%bool then adot dot p (v1 i) (v1 h) else bh K' i k) = (fun i k => if ((k =? h - 1)%nat && (h - iop <=? i)%nat && (i <? h)%nat)%bool then adot dot' p (v1' i) (v1' h) else bh K' i k)).
  { apply functional_extensionality; intro i. apply functional_extensionality; intro k. rewrite (adot_same holds holds' rel D p _ _ _ _ (Hv i) (Hv h)). reflexivity. }
  assert (E' : forall i k, (if ((k =? h - 1)%nat && (h - iop <=? i)%nat && (i <? h)%nat)%bool then adot dot p (v1 i) (v1 h) else bh K' i k) = (if ((k =? h - 1)%nat && (h - iop <=? i)%nat && (i <? h)%nat)%bool then adot dot' p (v1' i) (v1' h) else bh K' i k)).
  { intros i k. rewrite (adot_same holds holds' rel D p _ _ _ _ (Hv i) (Hv h)). reflexivity. }
  set (v := plus (v1 h) _). set (v' := plus (v1' h) _).
  assert (R1 : relr v v'). { apply (relr_plus holds holds' rel D); [apply Hv|]. apply (relr_opp holds holds' rel D), (relr_vsum holds holds' rel D). intro i. rewrite E'. apply (relr_scal holds holds' rel D), Hv. }
  rewrite (adot_same holds holds' rel D p _ _ _ _ R1 R1).
  destruct (Rlt_dec _ tolerance); (split; [|reflexivity]); repeat split; cbn [bv bh bb]; try (apply (relr_set1 rel); [exact Hv|]); try exact R1; try (now apply (relr_scal holds holds' rel D)); try exact E.
  apply functional_extensionality; intro i. apply functional_extensionality; intro k. now rewrite E'.
Qed.
Lemma k_orths_same tolerance rest K K' h : relb K K' -> let '(K1, j1, b) := k_orths dot A u p ex iop tolerance rest K h in let '(K1', j1', b') := k_orths dot' A' u' p ex iop tolerance rest K' h in relb K1 K1' /\ j1 = j1' /\ b = b'.
Proof.
  revert K K' h. induction rest as [|rest IH]; intros K K' h H; cbn [k_orths]; [repeat split; apply H|].
  pose proof (k_orth_same tolerance K K' (S h) H) as E. destruct (k_orth dot _ _ _ _ _ _ _ _) as [K1 b], (k_orth dot' _ _ _ _ _ _ _ _) as [K1' b']. destruct E as (E & ->). destruct b'; [repeat split; apply E|]. now apply IH.
Qed.
Definition relks (f : kstate (X := V)) (f' : kstate (X := W)) : Prop := kctl f = kctl f' /\ relb (kbs f) (kbs f') /\ forall i, rel (kw f i) (kw f' i).
Lemma k_basis_same a f f' : relks f f' -> let '(K1, j1, b) := k_basis dot A u p ex iop a f in let '(K1', j1', b') := k_basis dot' A' u' p ex iop a f' in relb K1 K1' /\ j1 = j1' /\ b = b'.
Proof.
  intros (H1 & H2 & H3). unfold k_basis. rewrite H1. cbv zeta. apply k_orths_same. destruct (_ =? 0)%Z; [|exact H2]. apply k_first_same; auto.
Qed.
Lemma k_combine_same K K' h F : relb K K' -> rel (k_combine K h F) (k_combine K' h F).
Proof. intros (H1 & H2 & H3). unfold k_combine. rewrite H3. apply (vsum_same holds holds' rel D). intro i. apply rs, H1. Qed.
Lemma k_pass_same a f f' : relks f f' -> relo relks (k_pass dot A u p ex iop expm a f) (k_pass dot' A' u' p ex iop expm a f').
Proof.
  intro H. pose proof (k_basis_same a f f' H) as E. destruct H as (H1 & H2 & H3). unfold k_pass. cbv zeta. rewrite <- H1.
  destruct (k_basis dot _ _ _ _ _ _ _) as [[K h] b], (k_basis dot' _ _ _ _ _ _ _) as [[K' h'] b']. destruct E as (HK & <- & <-). pose proof HK as (K1 & K2 & K3). rewrite <- K2, <- K3.
  destruct (pass _ _ _) as [s'|]; [|exact I].
  assert (HK' : forall x : bool, relb (KiopsLinear.Basis (bv K) (fun i k => if Nat.eqb i 0 && Nat.eqb k h then if x then 1 else 0 else bh K i k) (bb K)) (KiopsLinear.Basis (bv K') (fun i k => if Nat.eqb i 0 && Nat.eqb k h then if x then 1 else 0 else bh K i k) (bb K))) by (intro x; repeat split; cbn [bv bh bb]; apply K1).
  specialize (HK' (Nat.ltb (KiopsModel.step (kctl f)) (KiopsModel.step s'))). destruct (Nat.ltb _ _); (split; [reflexivity|]; split; [exact HK'|]); intro i; cbn [kw]; [|apply H3].
  destruct (Nat.eqb i _); [now apply k_combine_same|]. destruct (_ && _)%bool; [now apply k_combine_same|apply H3].
Qed.
Lemma k_start_same a : relks (k_start u a) (k_start u' a).
Proof. split; [reflexivity|]. split; [|intros [|i]; [apply Hu|exact r0]]. repeat split; exact r0. Qed.
Lemma k_run_same a n f f' : relks f f' -> relo relks (k_run dot A u p ex iop expm a n f) (k_run dot' A' u' p ex iop expm a n f').
Proof.
  revert f f'. induction n as [|n IH]; intros f f' H; [exact H|]. cbn [k_run]. rewrite (proj1 H). destruct (Rlt_dec _ _); [|exact H].
  pose proof (k_pass_same a f f' H) as E. destruct (k_pass dot _ _ _ _ _ _ _ _), (k_pass dot' _ _ _ _ _ _ _ _); cbn in E; try contradiction; [now apply IH|exact I].
Qed.
End Related.

Lemma kiops_same {V W : ModuleSpace R_Ring} (holds : list (list (V -> R))) (holds' : list (list (W -> R))) rel expm a n A A' u u' p : redistribution holds holds' rel -> same_map rel A A' -> (forall i, rel (u i) (u' i)) ->
  same_kiops rel (kiops_dist holds expm a n A u p) (kiops_dist holds' expm a n A' u' p).
Proof.
  intros D HA Hu. unfold kiops_dist. rewrite <- (norm_u_same holds holds' rel D u u' p Hu).
  pose proof (k_run_same holds holds' rel D A A' u u' p (scale_ex (norm_u holds u p)) 2 expm HA Hu a n _ _ (k_start_same holds holds' rel D u u' Hu a)) as E.
  destruct (k_run _ _ _ _ _ _ _ _ _ _), (k_run _ _ _ _ _ _ _ _ _ _); cbn in E |- *; try contradiction; [|exact I]. destruct E as (E1 & _ & E2). split; assumption.
Qed.
Lemma nth_same {V W : ModuleSpace R_Ring} (rel : V -> W -> Prop) vec vec' : rel zero zero -> Forall2 rel vec vec' -> forall i, rel (nth i vec zero) (nth i vec' zero).
Proof. intros H0 Hv. induction Hv as [|x y l l' H H' IH]; intros [|i]; cbn; try exact H0; auto. Qed.
Lemma length_same {X Y} (rel : X -> Y -> Prop) l l' : Forall2 rel l l' -> length l = length l'.
Proof. induction 1; cbn; congruence. Qed.
Lemma fd_same {V W : ModuleSpace R_Ring} (holds : list (list (V -> R))) (holds' : list (list (W -> R))) rel f f' dt q q' g g' : redistribution holds holds' rel -> same_map rel f f' -> rel q q' -> rel g g' -> same_map rel (fun v => matvec_fd v dt q g f) (fun v => matvec_fd v dt q' g' f').
Proof.
  intros D Hf Hq Hg v v' H. unfold matvec_fd. apply (same_scal _ _ _ D), (same_scal _ _ _ D), (minus_same holds holds' rel D); [|exact Hg]. apply Hf, (same_plus _ _ _ D); [exact Hq|]. now apply (same_scal _ _ _ D).
Qed.
Lemma kiops_phi_same {V W : ModuleSpace R_Ring} (holds : list (list (V -> R))) (holds' : list (list (W -> R))) rel expm tol n f f' size dt q q' g g' vec vec' : redistribution holds holds' rel -> same_map rel f f' -> rel q q' -> rel g g' -> Forall2 rel vec vec' ->
  fst (kiops_phi holds expm tol n f size dt q g vec) = fst (kiops_phi holds' expm tol n f' size dt q' g' vec') /\ rel (snd (kiops_phi holds expm tol n f size dt q g vec)) (snd (kiops_phi holds' expm tol n f' size dt q' g' vec')).
Proof.
  intros D Hf Hq Hg Hv. unfold kiops_phi. rewrite (length_same _ _ _ Hv).
  pose proof (kiops_same holds holds' rel expm (Args [1] tol size 16 64) n _ _ _ _ (length vec' - 1) D (fd_same holds holds' rel f f' dt q q' g g' D Hf Hq Hg) (nth_same rel vec vec' (same_zero _ _ _ D) Hv)) as E.
  destruct (kiops_dist holds _ _ _ _ _ _), (kiops_dist holds' _ _ _ _ _ _); cbn in E |- *; try contradiction; [|split; [reflexivity|exact (same_zero _ _ _ D)]]. destruct E as (E1 & E2). rewrite E1. split; [reflexivity|apply E2].
Qed.
Lemma epi_kiops_same {V W : ModuleSpace R_Ring} {I I'} (holds : list (list (V -> R))) (holds' : list (list (W -> R))) rel (same_i : I -> I' -> Prop) order expm tol n f f' (init : I -> V -> R -> I * V) (init' : I' -> W -> R -> I' * W) sub e e' : redistribution holds holds' rel -> same_map rel f f' ->
  (forall i i' q q' dt, same_i i i' -> rel q q' -> same_i (fst (init i q dt)) (fst (init' i' q' dt)) /\ rel (snd (init i q dt)) (snd (init' i' q' dt))) ->
  Epi order f (fun q r v => matvec_fd v 1 q r f) (kiops_phi holds expm tol n f) init sub = Some e ->
  Epi order f' (fun q r v => matvec_fd v 1 q r f') (kiops_phi holds' expm tol n f') init' sub = Some e' -> same_epi rel same_i e e'.
Proof.
  intros D Hf Hi. unfold Epi. destruct (table order); [|discriminate]. intros [= <-] [= <-]. split; try reflexivity; cbn [EpiModel.rhs jac phi init_step]; auto.
  - intros q q' r r' v v' H1 H2 H3. exact (fd_same holds holds' rel f f' 1 q q' r r' D Hf H1 H2 v v' H3).
  - intros k dt q q' r r' vec vec' H1 H2 H3. exact (kiops_phi_same holds holds' rel expm tol n f f' k dt q q' r r' vec vec' D Hf H1 H2 H3).
Qed.

(** ** the stiffness resilient methods *)
Definition same_solver {V W : ModuleSpace R_Ring} (rel : V -> W -> Prop) (s : Z -> list R -> (V -> V) -> list V -> option (Z * list V)) (s' : Z -> list R -> (W -> W) -> list W -> option (Z * list W)) : Prop :=
  forall size ts A A' us us', same_map rel A A' -> Forall2 rel us us' -> same_option (fun a b => fst a = fst b /\ Forall2 rel (snd a) (snd b)) (s size ts A us) (s' size ts A' us').
Lemma map_same {V W : ModuleSpace R_Ring} (rel : V -> W -> Prop) f f' (l : list nat) : (forall i, rel (f i) (f' i)) -> Forall2 rel (map f l) (map f' l).
Proof. intro H. induction l; constructor; auto. Qed.
Lemma pmex_solver {V W : ModuleSpace R_Ring} (holds : list (list (V -> R))) (holds' : list (list (W -> R))) rel expm tol n : redistribution holds holds' rel -> same_solver rel (pmex_solve holds expm tol n) (pmex_solve holds' expm tol n).
Proof.
  intros D size ts A A' us us' HA Hv. unfold pmex_solve. rewrite (length_same _ _ _ Hv).
  pose proof (pmex_same holds holds' rel expm (Args ts tol size 16 64) 1.2 n _ _ _ _ (length us' - 1) D HA (nth_same rel us us' (same_zero _ _ _ D) Hv)) as E.
  destruct (pmex_dist holds _ _ _ _ _ _ _), (pmex_dist holds' _ _ _ _ _ _ _); cbn in E |- *; try contradiction; [|exact I]. destruct E as (E1 & E2). rewrite E1. split; [reflexivity|now apply map_same].
Qed.
Lemma kiops_solver {V W : ModuleSpace R_Ring} (holds : list (list (V -> R))) (holds' : list (list (W -> R))) rel expm tol n : redistribution holds holds' rel -> same_solver rel (kiops_solve holds expm tol n) (kiops_solve holds' expm tol n).
Proof.
  intros D size ts A A' us us' HA Hv. unfold kiops_solve. rewrite (length_same _ _ _ Hv).
  pose proof (kiops_same holds holds' rel expm (Args ts tol size 16 64) n _ _ _ _ (length us' - 1) D HA (nth_same rel us us' (same_zero _ _ _ D) Hv)) as E.
  destruct (kiops_dist holds _ _ _ _ _ _), (kiops_dist holds' _ _ _ _ _ _); cbn in E |- *; try contradiction; [|exact I]. destruct E as (E1 & E2). rewrite E1. split; [reflexivity|now apply map_same].
Qed.
Section Srerk.
Context {V W : ModuleSpace R_Ring}.
Variables (holds : list (list (V -> R))) (holds' : list (list (W -> R))) (rel : V -> W -> Prop).
Hypothesis D : redistribution holds holds' rel.
Let r0 := same_zero _ _ _ D. Let rp := same_plus _ _ _ D. Let rs := same_scal _ _ _ D.
Variables (alpha : list R -> nat -> nat -> R) (s : Z -> list R -> (V -> V) -> list V -> option (Z * list V)) (s' : Z -> list R -> (W -> W) -> list W -> option (Z * list W)) (f : V -> V) (f' : W -> W).
Hypothesis Hs : same_solver rel s s'.
Hypothesis Hf : same_map rel f f'.
Lemma input_same A A' q q' dt c z z' : same_map rel A A' -> rel q q' -> Forall2 rel z z' -> Forall2 rel (stage_input V alpha f A q dt c z) (stage_input W alpha f' A' q' dt c z').
Proof.
  intros HA Hq Hz. unfold stage_input. rewrite <- (length_same _ _ _ Hz). constructor; [exact r0|]. constructor; [now apply Hf|]. constructor; [exact r0|]. apply map_same. intro i.
  assert (R1 : Forall2 rel (map (remainder V f A q dt) (stage_values V q dt z)) (map (remainder W f' A' q' dt) (stage_values W q' dt z'))).
  { clear i. unfold stage_values. induction Hz as [|x y l l' H H' IH]; cbn [map]; constructor; [|exact IH]. unfold remainder. assert (Hx : rel (plus q (scal (V := V) dt x)) (plus q' (scal (V := W) dt y))) by (apply rp; [exact Hq|]; now apply rs).
    repeat (apply (minus_same holds holds' rel D) || apply Hf || apply rs || apply HA || assumption). }
  unfold SrerkModel.combine_rows. rewrite (length_same _ _ _ R1). generalize 0%nat. induction R1 as [|x y l l' H H' IH]; intro k; [exact r0|]. cbn [length seq combine map fold_right fst snd]. apply rp; [now apply rs|apply IH].
Qed.
Lemma projections_same A A' q q' dt rest : same_map rel A A' -> rel q q' -> forall prev size z z', Forall2 rel z z' -> same_option (fun a b => fst a = fst b /\ Forall2 rel (snd a) (snd b)) (projections_dist alpha s f A q dt prev rest size z) (projections_dist alpha s' f' A' q' dt prev rest size z').
Proof.
  intros HA Hq. induction rest as [|c rest IH]; intros prev size z z' Hz; [cbn; auto|]. cbn [projections_dist].
  pose proof (Hs size c A A' _ _ HA (input_same A A' q q' dt prev z z' HA Hq Hz)) as E. destruct (s size c A _) as [[k y]|], (s' size c A' _) as [[k' y']|]; cbn in E; try contradiction; [|exact I]. destruct E as (-> & E). now apply IH.
Qed.
Lemma srerk_same nodes dt a b : fst a = fst b -> rel (snd a) (snd b) -> same_option (fun a b => fst a = fst b /\ rel (snd a) (snd b)) (srerk_dist alpha s f nodes dt a) (srerk_dist alpha s' f' nodes dt b).
Proof.
  intros E Hq. unfold srerk_dist. cbv zeta. rewrite E. destruct nodes as [|c rest]; [exact I|].
  assert (HA : same_map rel (fun v => matvec_fd v dt (snd a) (f (snd a)) f) (fun v => matvec_fd v dt (snd b) (f' (snd b)) f')) by (apply (fd_same holds holds' rel); auto).
  assert (H2 : Forall2 rel [zero; f (snd a)] [zero; f' (snd b)]) by (constructor; [exact r0|]; constructor; [now apply Hf|constructor]).
  pose proof (Hs (fst b) c _ _ _ _ HA H2) as G. destruct (s (fst b) c _ _) as [[k y]|], (s' (fst b) c _ _) as [[k' y']|]; cbn in G; try contradiction; [|exact I]. destruct G as (-> & G).
  pose proof (projections_same _ _ (snd a) (snd b) dt rest HA Hq c k' y y' G) as P. destruct (projections_dist _ s _ _ _ _ _ _ _ _) as [[k1 z]|], (projections_dist _ s' _ _ _ _ _ _ _ _) as [[k1' z']|]; cbn in P; try contradiction; [|exact I].
  destruct P as (-> & P). destruct P as [|x x' l l' Hx [|? ? ? ? ? ?]]; cbn; auto.
Qed.
Lemma srerk_run_same nodes dts a b : fst a = fst b -> rel (snd a) (snd b) -> same_option (fun a b => fst a = fst b /\ rel (snd a) (snd b)) (srerk_run alpha s f nodes dts a) (srerk_run alpha s' f' nodes dts b).
Proof.
  revert a b. induction dts as [|dt dts IH]; intros a b E Hq; [cbn; auto|]. cbn [srerk_run]. pose proof (srerk_same nodes dt a b E Hq) as G.
  destruct (srerk_dist _ s _ _ _ _), (srerk_dist _ s' _ _ _ _); cbn in G; try contradiction; [|exact I]. now apply IH.
Qed.
End Srerk.
Lemma exponential_holds {V W : ModuleSpace R_Ring} (holds : list (list (V -> R))) (holds' : list (list (W -> R))) rel f f' : redistribution holds holds' rel -> same_map rel f f' -> exponential_same holds holds' rel f f'.
Proof.
  intros D Hf expm tol n size q q' dts Hq. split.
  - intros order I I' same_i init init' sub e e' i i' Hi E E' H. exact (epi_same holds holds' rel same_i D e e' (epi_kiops_same holds holds' rel same_i order expm tol n f f' init init' sub e e' D Hf Hi E E') size i i' q q' dts H Hq).
  - intros alpha nodes same_step. split; apply (srerk_run_same holds holds' rel D); auto; [now apply pmex_solver|now apply kiops_solver].
Qed.
