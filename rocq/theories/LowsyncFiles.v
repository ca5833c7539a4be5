(** The bases of the files: products, shapes of the matrices, the default solver, incomplete orthogonalisation *)
From Coq Require Import Reals ZArith List Bool Arith Lra Lia FunctionalExtensionality.
From Coquelicot Require Import Coquelicot.
From Verif Require Import InnerSpec InnerFacts FgmresModel FgmresFacts FgmresProofs VecTac KiopsModel PmexSpec PmexModel PmexKrylov KiopsLinear KiopsKrylov LowsyncModel LowsyncSpec LowsyncProofs LowsyncFacts.
Import ListNotations.
Local Open Scope R_scope.

(** ** the matrices keep their shapes *)
Definition shaped {W : ModuleSpace R_Ring} (S : @arrays W) : Prop := unit_lower (at_ S) /\ strictly_upper (an S).
Lemma row_shape : forall k T j g, unit_lower T -> unit_lower (new_row k T j g).
Proof.
  intros k T j g U i q I. unfold new_row. destruct (Nat.ltb_spec 1 j); [|now apply U].
  destruct (Nat.eqb_spec i (j - 1)); destruct (Nat.ltb_spec q (j - 1)); cbn [andb]; try (now apply U). lia.
Qed.
Lemma col_shape : forall N j g, strictly_upper N -> strictly_upper (new_col N j g).
Proof.
  intros N j g U i q I. unfold new_col. destruct (Nat.ltb_spec 1 j); [|now apply U]. unfold set_col.
  destruct (Nat.eqb_spec q (j - 1)); destruct (Nat.ltb_spec i (j - 1)); cbn [andb]; try (now apply U). lia.
Qed.
Lemma fresh_shape : forall (W : ModuleSpace R_Ring), shaped (@fresh W).
Proof. intros W. split; intros i k I; cbn; reflexivity. Qed.
Section Shapes.
Context {W : ModuleSpace R_Ring}.
Variables (op : W -> W) (lp fp : W -> W -> R) (tol : R).
Lemma step_shape : forall s last (S : @arrays W) j S1 b, shaped S -> step op lp tol s last S j = Some (S1, b) -> shaped S1.
Proof.
  assert (G : forall k (S S1 : @arrays W) j g1 g2, shaped S -> at_ S1 = new_row k (at_ S) j g1 -> an S1 = new_col (an S) j g2 -> shaped S1).
  { intros k S S1 j g1 g2 [U1 U2] E1 E2. split; [rewrite E1; now apply row_shape|rewrite E2; now apply col_shape]. }
  assert (L : forall k est last (S : @arrays W) j S1 b, shaped S -> step_lag op lp tol k est last S j = Some (S1, b) -> shaped S1).
  { intros k est last S j S1 b U H. unfold step_lag in H. destruct (lag_scale op lp est S j) as [q|]; [|discriminate]. injection H as H. unfold lag_project in H. cbv zeta in H.
    destruct est; [destruct last; [|destruct (Rlt_dec _ tol)]|destruct (Rlt_dec _ tol)]; injection H as <- <-; eapply G; try exact U; reflexivity. }
  intros s last S j S1 b U H. destruct s as [k|k|k]; cbn [step] in H; [|eapply L; eassumption|eapply L; eassumption].
  unfold step_ne in H. cbv zeta in H. destruct (if Rlt_dec _ _ then _ else _) as [n|]; [|discriminate]. destruct (Rlt_dec n tol); injection H as <- <-; eapply G; try exact U; reflexivity.
Qed.
Lemma loop_shape : forall s rest (S : @arrays W) j S1 h b, shaped S -> loop op lp tol s rest S j = Some (S1, h, b) -> shaped S1.
Proof.
  intros s. induction rest as [|r IH]; intros S j S1 h b U H; cbn [loop] in H; [injection H as <- <- <-; exact U|].
  destruct (step op lp tol s (r =? 0)%nat S (Datatypes.S j)) as [[S2 [|]]|] eqn:E; [| |discriminate]; apply step_shape in E; auto; [injection H as <- <- <-; exact E|]. eapply IH; eassumption.
Qed.
Lemma passes_shape : forall s mmax ms (S : @arrays W) j r S1 h b, shaped S -> passes op lp fp tol s mmax ms S j r = Some (S1, h, b) -> shaped S1.
Proof.
  intros s mmax. induction ms as [|m ms IH]; intros S j r S1 h b U H; cbn [passes] in H; [injection H as <- <- <-; exact U|].
  destruct (loop op lp tol s (m - j) _ j) as [[[S2 j2] [|]]|] eqn:E; [| |discriminate]; apply loop_shape in E; try exact U; [injection H as <- <- <-; exact E|].
  assert (F : forall S3, finish fp S2 m = Some S3 -> shaped S3).
  { intros S3 F. unfold finish in F. destruct (Req_EM_T _ 0); [discriminate|]. injection F as <-. exact E. }
  destruct s as [k|k|k]; [eapply IH; eassumption| |]; (destruct r; [eapply IH; [exact E|exact H]|]; destruct (finish fp S2 m) as [S3|]; [eapply IH; [|exact H]; now apply F|discriminate]).
Qed.
Lemma substep_shape : forall s mmax ms (S : @arrays W) x S1 h b, shaped S -> substep op lp fp tol s mmax ms S x = Some (S1, h, b) -> shaped S1.
Proof. intros s mmax ms S x S1 h b U H. unfold substep in H. eapply passes_shape; [|exact H]. destruct s; exact U. Qed.
End Shapes.

Section Files.
Context {X : ModuleSpace R_Ring}.
Variable dot : X -> X -> R.
Hypothesis D : scalar_product dot.
Variable A : X -> X.
Hypothesis L : linear_map A.
Variable u : nat -> X.
Variable p : nat.
Hypothesis Hp : (1 <= p)%nat.
Variable ex : Z.
Notation row := (@row X).
Notation At := (augmented_product A u p ex).

(** ** the products *)
Lemma each_one : each dot p 1 = once dot p.
Proof. apply functional_extensionality. intro x. apply functional_extensionality. intro y. unfold each, once, adot. cbn [INR]. ring. Qed.
Lemma each_sym : forall P x y, each dot p P x y = each dot p P y x.
Proof. intros P x y. unfold each. rewrite (dot_sym dot D). do 2 f_equal. apply rsum_ext. intros. ring. Qed.
Lemma each_plus : forall P (x y z : row), each dot p P (plus x y) z = each dot p P x z + each dot p P y z.
Proof.
  intros P x y z. unfold each. change (fst (plus x y)) with (plus (fst x) (fst y)). rewrite (dot_plus_l dot D).
  match goal with |- _ + _ * rsum p ?f = _ => rewrite (rsum_ext p f (fun k => snd x k * snd z k + snd y k * snd z k)) end; [rewrite rsum_plus; cbn; ring|].
  intros k _. change (snd (plus x y) k) with (snd x k + snd y k). ring.
Qed.
Lemma each_scal : forall P a (x z : row), each dot p P (scal (V := row) a x) z = a * each dot p P x z.
Proof.
  intros P a x z. unfold each. change (fst (scal (V := row) a x)) with (scal (V := X) a (fst x)). rewrite (dot_scal_l dot D).
  match goal with |- _ + _ * rsum p ?f = _ => rewrite (rsum_ext p f (fun k => a * (snd x k * snd z k))) end; [rewrite rsum_scal; cbn; ring|].
  intros k _. change (snd (scal (V := row) a x) k) with (a * snd x k). ring.
Qed.
Lemma each_pos : forall P (x : row), 0 <= each dot p P x x.
Proof.
  intros P x. unfold each. pose proof (dot_pos dot D (fst x)). pose proof (rsum_pos p (fun k => snd x k * snd x k) (fun k _ => Rle_0_sqr (snd x k))). pose proof (pos_INR P). nra.
Qed.
Lemma each_once : forall P (x : row), (1 <= P)%nat -> once dot p x x <= each dot p P x x.
Proof. intros P x HP. unfold each, once, adot. pose proof (rsum_pos p (fun k => snd x k * snd x k) (fun k _ => Rle_0_sqr (snd x k))). apply le_INR in HP. cbn [INR] in HP. nra. Qed.
Lemma product_each : forall P f, exists Q, loop_product dot p P f = each dot p Q /\ (Q = 1%nat \/ Q = P).
Proof. intros P f. destruct f; cbn [loop_product]; try (exists 1%nat; split; [symmetry; exact each_one|now left]); exists P; split; auto. Qed.
Definition consistent (P : nat) (f : file) : Prop := (1 <= P)%nat /\ (f = pmex_1s \/ f = cwy_1s -> P = 1%nat).
Lemma product_final : forall P f, consistent P f -> final_product dot p P f = loop_product dot p P f.
Proof. intros P f [HP C]. destruct f; cbn [loop_product final_product]; auto; rewrite C by auto; apply each_one. Qed.

Theorem build_ok : forall P f t mmax ms S x now, consistent P f -> 0 < t -> shaped S -> ms <> [] -> growing mmax 0 ms ->
  outcome At (loop_product dot p P f) t (scheme_of f) (start_row p ex x now) (largest ms) (build dot A u p ex P f t mmax ms S x now).
Proof.
  intros P f t mmax ms S x now C T [U1 U2] N G. unfold build. rewrite (product_final P f C). destruct (product_each P f) as [Q [-> E]]. assert (HQ : (1 <= Q)%nat) by (destruct C; lia).
  apply substep_ok; auto.
  - now apply At_linear.
  - apply each_sym.
  - apply each_plus.
  - apply each_scal.
  - apply each_pos.
  - pose proof (start_pos dot D p Hp ex x now) as SP. pose proof (each_once Q (start_row p ex x now) HQ). unfold once in *. lra.
Qed.
Theorem build_same : forall P f P' f' t t' mmax ms mmax' ms' S S' x now K h K' h', consistent P f -> consistent P' f' -> loop_product dot p P f = loop_product dot p P' f' -> 0 < t -> 0 < t' -> shaped S -> shaped S' ->
  ms <> [] -> ms' <> [] -> growing mmax 0 ms -> growing mmax' 0 ms' -> largest ms = largest ms' ->
  build dot A u p ex P f t mmax ms S x now = Some (K, h, false) -> build dot A u p ex P' f' t' mmax' ms' S' x now = Some (K', h', false) ->
  h = h' /\ ab K = ab K' /\ (forall i, (i <= h)%nat -> av K i = av K' i) /\ (forall i k, (i <= h)%nat -> (k < h)%nat -> ah K i k = ah K' i k).
Proof.
  intros P f P' f' t t' mmax ms mmax' ms' S S' x now K h K' h' C C' EP T T' U U' N N' G G' EL B B'.
  pose proof (build_ok P f t mmax ms S x now C T U N G) as O. pose proof (build_ok P' f' t' mmax' ms' S' x now C' T' U' N' G') as O'. rewrite B in O. rewrite B' in O'. cbn [outcome] in O, O'.
  destruct O as [-> O], O' as [-> O']. split; [exact EL|]. rewrite <- EL in O'. rewrite <- EP in O'. destruct (product_each P f) as [Q [EQ _]]. rewrite EQ in O, O'.
  exact (dec_unique At (each dot p Q) (each_sym Q) (each_plus Q) (each_scal Q) _ _ _ _ _ _ _ _ O O').
Qed.

(** ** the default solver *)
Definition kry_of (S : @arrays row) : @kry X := Kry (av S) (ah S) (an S) (ai S) (ab S).
Lemma step_pmex : forall t last S j, exists S1 b, step_ne At (adot dot p) t Gauss_Seidel last S j = Some (S1, b) /\ orth dot A u p ex t (kry_of S) j = (kry_of S1, b).
Proof.
  intros t last S j. unfold step_ne, orth, new_row, new_col, coefficients, reduce. cbv zeta. cbn [kry_of vs hm nm mi PmexModel.beta].
  set (v1 := set1 (av S) j _).
  set (N1 := if (1 <? j)%nat then set_col (an S) _ _ _ else an S).
  set (I1 := if (1 <? j)%nat then _ else ai S).
  destruct (Rlt_dec (adot dot p (v1 j) (v1 (j - 1 + 1)%nat)) _);
  match goal with |- context [Rlt_dec ?n t] => destruct (Rlt_dec n t) end; do 2 eexists; (split; [reflexivity|]); unfold kry_of; cbn [av ah an ai ab]; try reflexivity; f_equal; f_equal;
  apply functional_extensionality; intro i; apply functional_extensionality; intro k; unfold set_entry, set_col;
  destruct (Nat.eqb_spec k (j - 1)); destruct (Nat.eqb_spec i j); destruct (Nat.ltb_spec i j); cbn [andb]; try reflexivity; lia.
Qed.
Lemma loop_pmex : forall t rest S j, exists S1 h b, loop At (adot dot p) t (NE Gauss_Seidel) rest S j = Some (S1, h, b) /\ orths dot A u p ex t rest (kry_of S) j = (kry_of S1, h, b).
Proof.
  intros t. induction rest as [|r IH]; intros S j; cbn [loop orths step]; [exists S, j, false; split; reflexivity|].
  destruct (step_pmex t (r =? 0)%nat S (Datatypes.S j)) as (S1 & b & E1 & E2). rewrite E1, E2. destruct b; [exists S1, (Datatypes.S j), true; split; reflexivity|]. apply IH.
Qed.
Lemma orths_more : forall t a b (K : @kry X) j, orths dot A u p ex t (a + b) K j = let '(K1, h, e) := orths dot A u p ex t a K j in if e then (K1, h, true) else orths dot A u p ex t b K1 h.
Proof.
  intros t. induction a as [|a IH]; intros b K j; [reflexivity|]. cbn [Nat.add orths]. destruct (orth dot A u p ex t K (S j)) as [K1 [|]]; [reflexivity|]. apply IH.
Qed.
Lemma orths_end : forall t n (K : @kry X) j K1 h, orths dot A u p ex t n K j = (K1, h, false) -> h = (j + n)%nat.
Proof. intros t. induction n as [|n IH]; intros K j K1 h H; cbn [orths] in H; [injection H as <- <-; lia|]. destruct (orth dot A u p ex t K (S j)) as [K2 [|]]; [discriminate|]. apply IH in H. lia. Qed.
Lemma passes_pmex : forall fp t mmax ms S j r, growing mmax j ms -> exists S1 h b, passes At (adot dot p) fp t (NE Gauss_Seidel) mmax ms S j r = Some (S1, h, b) /\ orths dot A u p ex t (last ms j - j) (kry_of S) j = (kry_of S1, h, b).
Proof.
  intros fp t mmax. induction ms as [|m ms IH]; intros S j r G.
  - cbn [passes last]. rewrite Nat.sub_diag. exists S, j, false. split; reflexivity.
  - destruct G as [G1 G2]. cbn [passes]. set (S0 := Arrays _ _ _ _ _ _ _ _). destruct (loop_pmex t (m - j) S0 j) as (S1 & h & b & E1 & E2). change (kry_of S0) with (kry_of S) in E2. rewrite E1.
    pose proof (growing_last mmax ms m G2) as GL.
    assert (EL : last (m :: ms) j = last ms m) by (destruct ms; [reflexivity|cbn [last]; exact (last_default ms n j m)]). rewrite EL.
    replace (last ms m - j)%nat with ((m - j) + (last ms m - m))%nat by lia. rewrite orths_more, E2.
    destruct b; [exists S1, h, true; split; reflexivity|]. apply orths_end in E2. assert (HM : h = m) by lia. rewrite HM. apply IH. exact G2.
Qed.
Theorem build_pmex : forall P t mmax ms S x now, growing mmax 0 ms -> exists S1 h b, build dot A u p ex P pmex t mmax ms S x now = Some (S1, h, b) /\
  orths dot A u p ex t (largest ms) (first_row dot p ex (kry_of S) x now) 0 = (kry_of S1, h, b).
Proof.
  intros P t mmax ms S x now G. unfold build, substep, largest. cbn [scheme_of loop_product final_product]. unfold once.
  destruct (passes_pmex (adot dot p) t mmax ms (begin (adot dot p) (NE Gauss_Seidel) S (start_row p ex x now)) 0 false G) as (S1 & h & b & E1 & E2). exists S1, h, b. split; [exact E1|]. rewrite Nat.sub_0_r in E2. exact E2.
Qed.
End Files.
