(** Lemmas for properties C14 to C16. *)
From Coq Require Import ZArith QArith List Bool String Lia Permutation.
From Verif Require Import ConfigModel ConfigSpec.
Import ListNotations.

(** * Values and ranges *)
Lemma num_leb_spec a b : num_leb a b = true <-> num_le a b.
Proof.
  split.
  - destruct a, b; cbn; intros H; try discriminate; try (constructor; discriminate). constructor. now apply Qle_bool_iff.
  - intros [p q H|x H|x H]; cbn; [now apply Qle_bool_iff | destruct x; cbn; congruence | destruct x; cbn; congruence].
Qed.
Lemma string_leb_spec s t : String.leb s t = true <-> String.compare s t = Lt \/ s = t.
Proof.
  unfold String.leb. destruct (String.compare s t) eqn:E; split; intros H; try reflexivity; try discriminate; auto.
  - right. now apply String.compare_eq_iff.
  - destruct H as [H| ->]; [discriminate|]. assert (String.compare t t = Eq); [|congruence]. clear. induction t as [|a t IH]; cbn; [reflexivity|]. unfold Ascii.compare. now rewrite BinNat.N.compare_refl.
Qed.
Lemma py_le_spec a b : py_le a b = Some true <-> le a b.
Proof.
  split.
  - destruct a, b; cbn; intros H; try discriminate; injection H as H; constructor; [now apply num_leb_spec | now apply string_leb_spec].
  - intros [x y H|s t H]; cbn; f_equal; [now apply num_leb_spec | now apply string_leb_spec].
Qed.
Lemma py_eq_spec a b : py_eq a b = true <-> same a b.
Proof.
  split.
  - destruct a as [x|s], b as [y|t]; cbn; try discriminate.
    + destruct x, y; cbn; intros H; try discriminate; constructor. now apply Qeq_bool_iff.
    + intros H. apply String.eqb_eq in H as ->. constructor.
  - intros [p q H| | |s]; cbn; try reflexivity; [now apply Qeq_bool_iff | apply String.eqb_refl].
Qed.
Lemma py_in_spec a l : py_in a l = true <-> exists b, In b l /\ same a b.
Proof.
  unfold py_in. rewrite existsb_exists. split; intros (b & H & E); exists b; (split; [exact H|]); now apply py_eq_spec.
Qed.

Lemma base_validate_spec r a :
  match base_validate r with Some base => base a = Some true <-> respects r a | None => respects r a end.
Proof.
  unfold base_validate, respects. destruct (selectables r) as [sel|], (min_value r) as [lo|], (max_value r) as [hi|].
  1-4: split; [intros [= H]; apply py_in_spec in H; repeat split; [intros ? [= <-]; exact H | discriminate | discriminate]
              | intros (H & _); f_equal; apply py_in_spec; now apply H].
  - split.
    + intros H. destruct (py_le lo a) as [[|]|] eqn:E; try discriminate. repeat split; intros ?; try discriminate; intros _ [= <-] || intros [= <-]; now apply py_le_spec.
    + intros (_ & H1 & H2). rewrite (proj2 (py_le_spec lo a)) by now apply H1. apply py_le_spec. now apply H2.
  - split.
    + intros H. repeat split; intros ?; try discriminate. intros _ [= <-]. now apply py_le_spec.
    + intros (_ & H1 & H2). apply py_le_spec. now apply H1.
  - split.
    + intros H. repeat split; intros ?; try discriminate. intros _ [= <-]. now apply py_le_spec.
    + intros (_ & H1 & H2). apply py_le_spec. now apply H2.
  - repeat split; intros ? ?; discriminate.
Qed.

Lemma all_valid_spec base l : all_valid base l = Some true <-> Forall (fun a => base a = Some true) l.
Proof.
  induction l as [|x l IH]; cbn; [split; constructor|]. split.
  - intros H. destruct (base x) as [[|]|] eqn:E; try discriminate. constructor; [exact E|now apply IH].
  - intros H. inversion H as [|? ? H1 H2]; subst. rewrite H1. now apply IH.
Qed.

Lemma validate_spec r v : v <> VNone -> (validate r v = Some true <-> in_range r v).
Proof.
  intros N. unfold validate, in_range. destruct v as [|a|l]; [congruence| |].
  - generalize (base_validate_spec r a). destruct (base_validate r); [tauto|]. intros; tauto.
  - destruct (base_validate r) as [base|] eqn:E.
    + rewrite all_valid_spec. assert (forall a, base a = Some true <-> respects r a).
      { intros a. generalize (base_validate_spec r a). now rewrite E. }
      split; apply Forall_impl; intros a; apply H.
    + split; [|reflexivity]. intros _. apply Forall_forall. intros a _. generalize (base_validate_spec r a). now rewrite E.
Qed.

Lemma is_value_error_spec e : is_value_error e = true <-> e = ValueErr \/ e = ConfigValueErr.
Proof. destruct e; cbn; intuition discriminate. Qed.

Lemma read_spec f p v : read f p = inl v <-> taken p f v.
Proof.
  unfold read, taken.
  assert (C : forall d, d <> VNone -> (checked f d = inl v <-> d = v /\ in_range (f_range f) v)).
  { intros d N. unfold checked. split.
    - intros H. destruct (validate (f_range f) d) as [[|]|] eqn:E; try discriminate. injection H as ->. split; [reflexivity|]. now apply validate_spec.
    - intros (-> & H). now rewrite (proj2 (validate_spec (f_range f) v N)). }
  destruct (p (f_section f) (f_name f)) as [text|].
  - assert (R : forall d, (if f_is_list f then read_list f text else read_single f text) = inl d <-> converted f text d).
    { intros d. unfold read_list, read_single. split.
      - destruct (f_is_list f) eqn:L, (f_conv f text) as [s|e] eqn:E; intros H.
        + injection H as <-. now apply conv_one.
        + destruct (is_value_error e) eqn:V; [|discriminate]. destruct (f_conv_items f text) eqn:I; [|discriminate]. injection H as <-.
          eapply conv_many; eauto. now apply is_value_error_spec.
        + injection H as <-. now apply conv_scalar.
        + discriminate.
      - intros [s L E|s L E|l e L E V I]; rewrite L, E; try reflexivity.
        rewrite (proj2 (is_value_error_spec e) V), I. reflexivity. }
    destruct (if f_is_list f then read_list f text else read_single f text) as [d|e] eqn:E.
    + assert (D : converted f text d) by now apply R. assert (N : d <> VNone) by (destruct D; discriminate).
      rewrite (C d N). split.
      * intros (<- & H). auto.
      * intros (H1 & _ & H2). apply R in H2. split; [congruence|exact H1].
    + split.
      * destruct (is_value_error e); discriminate.
      * intros (_ & _ & H). apply R in H. discriminate.
  - destruct (f_default f) as [|a|l] eqn:D.
    + split; [discriminate|]. intros (_ & N & ->). congruence.
    + rewrite C by discriminate. split; [intros (<- & H); split; [exact H|split; [discriminate|reflexivity]] | intros (H & _ & ->); auto].
    + rewrite C by discriminate. split; [intros (<- & H); split; [exact H|split; [discriminate|reflexivity]] | intros (H & _ & ->); auto].
Qed.

Lemma taken_unique p f v w : taken p f v -> taken p f w -> v = w.
Proof. intros H1 H2. apply read_spec in H1, H2. congruence. Qed.

(** A failing read says there is no value *)
Lemma read_fails f p e : read f p = inr e -> forall v, ~ taken p f v.
Proof. intros H v T. apply read_spec in T. congruence. Qed.

Lemma make_field_default_ok name sec d conv items is_list r dep f :
  make_field name sec d conv items is_list r dep = inl f -> d = VNone \/ in_range r d.
Proof.
  unfold make_field. destruct d as [|a|l]; [auto| |]; right;
  (match goal with |- in_range _ ?d => assert (N : d <> VNone) by discriminate end); apply validate_spec; try exact N;
  match goal with H : match validate ?r ?d with _ => _ end = _ |- _ => destruct (validate r d) as [[|]|]; try discriminate; reflexivity end.
Qed.
Lemma make_field_ok_iff name sec d conv items is_list r dep :
  (exists f, make_field name sec d conv items is_list r dep = inl f) <-> d = VNone \/ in_range r d.
Proof.
  split; [intros (f & H); eapply make_field_default_ok, H|].
  unfold make_field. destruct d as [|a|l]; [eauto| |]; intros [H|H]; try discriminate; apply validate_spec in H; try discriminate; rewrite H; eauto.
Qed.

Lemma make_range_spec lo hi sel r : make_range lo hi sel = inl r ->
  min_value r = lo /\ max_value r = hi /\ selectables r = sel /\
  (sel = None \/ (lo = None /\ hi = None)) /\ (forall a b, lo = Some a -> hi = Some b -> ~ (le b a /\ ~ same b a)).
Proof.
  unfold make_range. intros H.
  destruct sel as [s|], lo as [a|], hi as [b|]; try discriminate;
    try (injection H as <-; cbn; repeat split; try tauto; intros ? ?; discriminate).
  destruct (py_le b a) as [le'|] eqn:E; [|discriminate]. destruct (le' && negb (py_eq b a)) eqn:G; [discriminate|]. injection H as <-. cbn.
  repeat split; try tauto. intros x y [= <-] [= <-] (L & S). apply py_le_spec in L. rewrite L in E. injection E as <-. cbn in G.
  apply negb_false_iff in G. apply S. now apply py_eq_spec.
Qed.

(** * Attributes *)
Lemma get_set_same l n v : get ((n, v) :: l) n = Some v.
Proof. cbn. now rewrite String.eqb_refl. Qed.
Lemma get_set_other l n m v : m <> n -> get ((n, v) :: l) m = get l m.
Proof. intros H. cbn. destruct (String.eqb_spec m n); [contradiction|reflexivity]. Qed.

Lemma get_option_cases p c f c' : get_option p c f = inl c' ->
  (dependency_ok c f = Some false /\ c' = c) \/
  (dependency_ok c f = Some true /\ exists v, taken p f v /\ attrs c' = (f_name f, v) :: attrs c).
Proof.
  unfold get_option. destruct (dependency_ok c f) as [[|]|]; intros H; try discriminate.
  - right. split; [reflexivity|]. destruct (read f p) as [v|e] eqn:E; [|discriminate]. injection H as <-. exists v. split; [now apply read_spec|reflexivity].
  - left. injection H as <-. auto.
Qed.

(** General fact (any list of fields): every attribute is a preset, or was taken from a field with that name *)
Lemma get_options_source p : forall fs c c', get_options p fs c = inl c' ->
  forall n v, get (attrs c') n = Some v -> get (attrs c) n = Some v \/ exists f, In f fs /\ f_name f = n /\ taken p f v.
Proof.
  induction fs as [|f fs IH]; cbn; intros c c' H n v G.
  - injection H as <-. auto.
  - destruct (get_option p c f) as [c1|e] eqn:E; [|discriminate].
    destruct (IH _ _ H _ _ G) as [G1|(g & Hg & Hn & T)]; [|right; exists g; auto].
    apply get_option_cases in E as [[_ ->]|(_ & w & T & A)]; [auto|].
    rewrite A in G1. destruct (String.eqb_spec n (f_name f)) as [->|N].
    + rewrite get_set_same in G1. injection G1 as <-. right. exists f. auto.
    + rewrite get_set_other in G1 by exact N. auto.
Qed.

(** * Phases *)
Definition act (c : config) (f : field) : Prop := dependency_ok c f = Some true.
Definition reads_outside (fs : list field) (names : list string) : Prop :=
  forall f d vs, In f fs -> f_dependency f = Some (d, vs) -> ~ In d names.

Lemma dependency_stable c c' f n v : (forall d vs, f_dependency f = Some (d, vs) -> d <> n) -> attrs c' = (n, v) :: attrs c ->
  dependency_ok c' f = dependency_ok c f.
Proof.
  intros H A. unfold dependency_ok. destruct (f_dependency f) as [[d vs]|]; [|reflexivity]. rewrite A, get_set_other; [reflexivity|]. eapply H. reflexivity.
Qed.

Lemma phase_ok p : forall fs c c', reads_outside fs (map f_name fs) ->
  ForallOrdPairs (fun f g => f_name f = f_name g -> ~ (act c f /\ act c g)) fs ->
  get_options p fs c = inl c' ->
  (forall f, In f fs -> act c f -> exists v, taken p f v /\ get (attrs c') (f_name f) = Some v) /\
  (forall n, (forall f, In f fs -> f_name f = n -> ~ act c f) -> get (attrs c') n = get (attrs c) n) /\
  (forall f, In f fs -> dependency_ok c f <> None).
Proof.
  induction fs as [|f fs IH]; intros c c' RO U H.
  - injection H as <-. repeat split; intros; try contradiction; reflexivity.
  - cbn [get_options] in H. destruct (get_option p c f) as [c1|e] eqn:E; [|discriminate].
    inversion U as [|? ? U1 U2]; subst.
    assert (ST : forall g, In g fs -> dependency_ok c1 g = dependency_ok c g).
    { intros g Hg. apply get_option_cases in E as [[_ ->]|(_ & w & _ & A)]; [reflexivity|]. eapply dependency_stable; [|exact A].
      intros d vs D ->. apply (RO g (f_name f) vs); [now right|exact D|now left]. }
    assert (RO' : reads_outside fs (map f_name fs)).
    { intros g d vs Hg D I. apply (RO g d vs); [now right|exact D|now right]. }
    assert (U' : ForallOrdPairs (fun f g => f_name f = f_name g -> ~ (act c1 f /\ act c1 g)) fs).
    { clear - U2 ST. induction U2 as [|x l Hx Hl IHl]; constructor.
      - rewrite Forall_forall in *. intros y Hy Nm (A1 & A2). unfold act in *. rewrite ST in A1 by now left. rewrite ST in A2 by now right. now apply (Hx y Hy Nm).
      - apply IHl. intros g Hg. apply ST. now right. }
    destruct (IH c1 c' RO' U' H) as (P1 & P2 & P3).
    repeat split.
    + intros g [<-|Hg] Ag.
      * apply get_option_cases in E as [[D _]|(_ & w & T & A)]; [unfold act in Ag; congruence|].
        exists w. split; [exact T|]. rewrite P2.
        -- rewrite A. apply get_set_same.
        -- intros g Hg Nm Ag'. rewrite Forall_forall in U1. apply (U1 g Hg (eq_sym Nm)). split; [exact Ag|]. unfold act in *. now rewrite <- ST.
      * apply P1; [exact Hg|]. unfold act in *. now rewrite ST.
    + intros n Hn. rewrite P2.
      * apply get_option_cases in E as [[_ ->]|(D & w & T & A)]; [reflexivity|]. rewrite A. apply get_set_other. intros ->.
        apply (Hn f); [now left|reflexivity|exact D].
      * intros g Hg Nm Ag. apply (Hn g); [now right|exact Nm|]. unfold act in *. now rewrite <- ST.
    + intros g [<-|Hg].
      * apply get_option_cases in E as [[D _]|(D & _)]; congruence.
      * rewrite <- ST by exact Hg. now apply P3.
Qed.

Lemma phase_fail p : forall fs c e, reads_outside fs (map f_name fs) -> get_options p fs c = inr e ->
  exists f, In f fs /\ (dependency_ok c f = None \/ (act c f /\ forall v, ~ taken p f v)).
Proof.
  induction fs as [|f fs IH]; intros c e RO H; [discriminate|].
  cbn [get_options] in H. destruct (get_option p c f) as [c1|e1] eqn:E.
  - assert (RO' : reads_outside fs (map f_name fs)).
    { intros g d vs Hg D I. apply (RO g d vs); [now right|exact D|now right]. }
    destruct (IH c1 e RO' H) as (g & Hg & K). exists g. split; [now right|].
    assert (ST : dependency_ok c1 g = dependency_ok c g).
    { apply get_option_cases in E as [[_ ->]|(_ & w & _ & A)]; [reflexivity|]. eapply dependency_stable; [|exact A].
      intros d vs D ->. apply (RO g (f_name f) vs); [now right|exact D|now left]. }
    unfold act in *. now rewrite <- ST.
  - exists f. split; [now left|]. unfold get_option in E. unfold act. destruct (dependency_ok c f) as [[|]|].
    + right. split; [reflexivity|]. destruct (read f p) as [v|e2] eqn:R; [discriminate|]. eapply read_fails, R.
    + discriminate.
    + now left.
Qed.

Lemma get_options_app p : forall fs gs c, get_options p (fs ++ gs) c =
  match get_options p fs c with inl c' => get_options p gs c' | inr e => inr e end.
Proof.
  induction fs as [|f fs IH]; intros gs c; [reflexivity|]. cbn. destruct (get_option p c f); [apply IH|reflexivity].
Qed.

(** * Sorting *)
Lemma fold_filter (test : field -> bool) fs : forall acc,
  fold_left (fun acc f => if test f then acc ++ [f] else acc) fs acc = acc ++ filter test fs.
Proof.
  induction fs as [|f fs IH]; intros acc; cbn; [now rewrite app_nil_r|]. rewrite IH. destruct (test f); [|reflexivity]. now rewrite <- app_assoc.
Qed.
Lemma fold_filter_not (test : field -> bool) fs : forall acc,
  fold_left (fun acc f => if test f then acc else acc ++ [f]) fs acc = acc ++ filter (fun f => negb (test f)) fs.
Proof.
  induction fs as [|f fs IH]; intros acc; cbn; [now rewrite app_nil_r|]. rewrite IH. destruct (test f); cbn; [reflexivity|]. now rewrite <- app_assoc.
Qed.
Lemma fold_append (fs : list field) : forall acc, fold_left (fun acc f => acc ++ [f]) fs acc = acc ++ fs.
Proof. induction fs as [|f fs IH]; intros acc; cbn; [now rewrite app_nil_r|]. rewrite IH, <- app_assoc. reflexivity. Qed.
Lemma sort_eq fs : sort_fields_by_dependency fs = filter independent fs ++ filter (fun f => negb (independent f)) fs.
Proof. unfold sort_fields_by_dependency. now rewrite fold_append, fold_filter, fold_filter_not. Qed.

Lemma sort_permutation fs : Permutation (sort_fields_by_dependency fs) fs.
Proof.
  rewrite sort_eq. induction fs as [|f fs IH]; cbn; [constructor|]. destruct (independent f); cbn.
  - now constructor.
  - rewrite <- Permutation_middle. now constructor.
Qed.

Lemma sort_before fs f g d vs : In f fs -> In g fs -> f_dependency f = Some (d, vs) -> f_dependency g = None ->
  before (sort_fields_by_dependency fs) g f.
Proof.
  intros Hf Hg Df Dg. rewrite sort_eq.
  assert (Ig : In g (filter independent fs)) by (apply filter_In; split; [exact Hg|unfold independent; now rewrite Dg]).
  assert (If : In f (filter (fun f => negb (independent f)) fs)) by (apply filter_In; split; [exact Hf|unfold independent; now rewrite Df]).
  apply in_split in Ig as (a1 & a2 & ->). apply in_split in If as (b1 & b2 & ->).
  exists a1, (a2 ++ b1), b2. now rewrite <- !app_assoc.
Qed.

Lemma sort_not_after fs f g d vs : f_dependency f = Some (d, vs) -> f_dependency g = None -> 
  ~ before (sort_fields_by_dependency fs) f g.
Proof.
  intros Df Dg (l1 & l2 & l3 & E). rewrite sort_eq in E.
  assert (forall A B (l1 l2 l3 : list field), A ++ B = l1 ++ f :: l2 ++ g :: l3 -> Forall (fun x => independent x = true) A ->
          Forall (fun x => independent x = false) B -> False) as K.
  { clear - Df Dg. induction A as [|a A IH]; cbn; intros B l1 l2 l3 E HA HB.
    - rewrite E in HB. rewrite Forall_forall in HB. specialize (HB g). unfold independent in HB. rewrite Dg in HB.
      discriminate HB. apply in_or_app. right. right. apply in_or_app. right. now left.
    - inversion HA; subst. destruct l1 as [|x l1]; cbn in E; injection E as E1 E2.
      + subst a. unfold independent in H1. now rewrite Df in H1.
      + eapply IH; eauto. }
  eapply K; [exact E| |].
  - apply Forall_forall. intros x Hx. now apply filter_In in Hx.
  - apply Forall_forall. intros x Hx. apply filter_In in Hx as [_ Hx]. now destruct (independent x).
Qed.

(** * The main theorem *)
Lemma ford_of_nth {A} (R : A -> A -> Prop) (l : list A) :
  (forall i j x y, nth_error l i = Some x -> nth_error l j = Some y -> (i < j)%nat -> R x y) -> ForallOrdPairs R l.
Proof.
  induction l as [|a l IH]; intros H; constructor.
  - apply Forall_forall. intros y Hy. apply In_nth_error in Hy as (j & Hj). apply (H 0%nat (S j)); [reflexivity|exact Hj|lia].
  - apply IH. intros i j x y Hi Hj L. apply (H (S i) (S j)); [exact Hi|exact Hj|lia].
Qed.
Lemma ford_filter {A} (R : A -> A -> Prop) (t : A -> bool) l : ForallOrdPairs R l -> ForallOrdPairs R (filter t l).
Proof.
  induction 1 as [|a l Ha Hl IH]; cbn; [constructor|]. destruct (t a); [|exact IH]. constructor; [|exact IH].
  rewrite Forall_forall in *. intros y Hy. apply filter_In in Hy as [Hy _]. now apply Ha.
Qed.
Lemma ford_impl {A} (R S : A -> A -> Prop) l : (forall x y, In x l -> In y l -> R x y -> S x y) -> ForallOrdPairs R l -> ForallOrdPairs S l.
Proof.
  intros H F. induction F as [|a l Ha Hl IH]; constructor.
  - rewrite Forall_forall in *. intros y Hy. apply H; [now left|now right|now apply Ha].
  - apply IH. intros x y Hx Hy. apply H; now right.
Qed.

Section Main.
Variable p : parser.
Variable fs : list field.
Hypothesis RES : resolved fs.
Let I := filter independent fs.
Let D := filter (fun f => negb (independent f)) fs.
Let c0 := {| attrs := presets; sections := [] |}.

Let in_I f : In f I <-> In f fs /\ f_dependency f = None.
Proof. unfold I. rewrite filter_In. unfold independent. destruct (f_dependency f); intuition discriminate. Qed.
Let in_D f : In f D <-> In f fs /\ exists d vs, f_dependency f = Some (d, vs).
Proof.
  unfold D. rewrite filter_In. unfold independent. destruct (f_dependency f) as [[d vs]|]; cbn; intuition eauto; try discriminate.
  destruct H1 as (? & ? & ?). discriminate.
Qed.
Let excl : ForallOrdPairs (fun f g => f_name f = f_name g -> exclusive f g) fs.
Proof. apply ford_of_nth. intros i j x y Hi Hj L. apply (proj2 RES i j x y Hi Hj). lia. Qed.
Let same_name_dep f g : In f fs -> In g fs -> f_name f = f_name g -> f_dependency f = None -> f = g.
Proof.
  intros Hf Hg N Df. apply In_nth_error in Hf as (i & Hi), Hg as (j & Hj). destruct (Nat.eq_dec i j) as [->|NE]; [congruence|].
  destruct (proj2 RES i j f g Hi Hj NE N) as (d & v1 & v2 & E & _). congruence.
Qed.
Let names_disjoint f g : In f I -> In g D -> f_name f <> f_name g.
Proof.
  intros Hf Hg N. apply in_I in Hf as [Hf Df]. apply in_D in Hg as (Hg & d & vs & Dg). rewrite (same_name_dep f g Hf Hg N Df) in Df. congruence.
Qed.
Let ro_I : reads_outside I (map f_name I).
Proof. intros f d vs Hf E. apply in_I in Hf as [_ Df]. congruence. Qed.
Let ro_D : reads_outside D (map f_name D).
Proof.
  intros f d vs Hf E In_. apply in_map_iff in In_ as (g & Ng & Hg). pose proof Hf as Hf'. apply in_D in Hf' as (Hf' & _).
  destruct (proj1 RES f d vs Hf' E) as (h & Hh & Nh & Dh). apply (names_disjoint h g); [apply in_I; auto|exact Hg|congruence].
Qed.
Let u_I c : ForallOrdPairs (fun f g => f_name f = f_name g -> ~ (act c f /\ act c g)) I.
Proof.
  eapply ford_impl; [|apply ford_filter, excl]. intros f g Hf Hg E N _. apply in_I in Hf as [_ Df].
  destruct (E N) as (d & v1 & v2 & E1 & _). congruence.
Qed.
Let u_D c : ForallOrdPairs (fun f g => f_name f = f_name g -> ~ (act c f /\ act c g)) D.
Proof.
  eapply ford_impl; [|apply ford_filter, excl]. intros f g Hf Hg E N (A1 & A2). destruct (E N) as (d & v1 & v2 & E1 & E2 & X).
  unfold act, dependency_ok in A1, A2. rewrite E1 in A1. rewrite E2 in A2. destruct (get (attrs c) d) as [[|s|]|]; try discriminate.
  injection A1 as A1. injection A2 as A2. apply py_in_spec in A1 as (a & Ha & Sa). apply py_in_spec in A2 as (b & Hb & Sb). now apply (X s a b).
Qed.

Let act_active c f : act c f <-> (active (get (attrs c)) f).
Proof.
  unfold act, active, dependency_ok. destruct (f_dependency f) as [[d vs]|].
  - split.
    + intros H d' vs' [= <- <-]. destruct (get (attrs c) d) as [[|s|]|]; try discriminate. injection H as H.
      apply py_in_spec in H as (b & Hb & Sb). eauto.
    + intros H. destruct (H d vs eq_refl) as (s & b & E & Hb & Sb). rewrite E. f_equal. apply py_in_spec. eauto.
  - split; [intros _ ? ?; discriminate|reflexivity].
Qed.

Lemma read_all_sound c : read_all p fs = inl c -> is_configuration p fs (get (attrs c)).
Proof.
  unfold read_all. rewrite sort_eq, get_options_app. fold I D c0. intros H.
  destruct (get_options p I c0) as [c1|] eqn:E1; [|discriminate].
  destruct (phase_ok p I c0 c1 ro_I (u_I c0) E1) as (P1 & P2 & P3). destruct (phase_ok p D c1 c ro_D (u_D c1) H) as (Q1 & Q2 & Q3).
  assert (ACT_I : forall f, In f I -> act c0 f).
  { intros f Hf. apply in_I in Hf as [_ Df]. unfold act, dependency_ok. now rewrite Df. }
  assert (KEEP : forall f, In f I -> get (attrs c) (f_name f) = get (attrs c1) (f_name f)).
  { intros f Hf. apply Q2. intros g Hg N. exfalso. apply (names_disjoint f g Hf Hg). now symmetry. }
  assert (ACT : forall f, In f D -> (act c f <-> act c1 f)).
  { intros f Hf. apply in_D in Hf as (Hf & d & vs & E). destruct (proj1 RES f d vs Hf E) as (g & Hg & Ng & Dg).
    assert (K := KEEP g (proj2 (in_I g) (conj Hg Dg))). rewrite Ng in K. unfold act, dependency_ok. rewrite E, K. tauto. }
  split.
  - intros f Hf A. destruct (f_dependency f) as [[d vs]|] eqn:E.
    + assert (HD : In f D) by (apply in_D; eauto). apply Q1; [exact HD|]. apply ACT; [exact HD|]. now apply act_active.
    + assert (HI : In f I) by (apply in_I; auto). rewrite KEEP by exact HI. apply P1; [exact HI|now apply ACT_I].
  - intros n Hn. rewrite Q2.
    + apply P2. intros f Hf N A. apply in_I in Hf as [Hf Df]. apply (Hn f Hf N). intros d vs E. congruence.
    + intros f Hf N A. pose proof Hf as Hf'. apply in_D in Hf' as [Hf' _]. apply (Hn f Hf' N). apply act_active. now apply ACT.
Qed.

Lemma read_all_complete e : read_all p fs = inr e -> forall cfg, ~ is_configuration p fs cfg.
Proof.
  unfold read_all. rewrite sort_eq, get_options_app. fold I D c0. intros H cfg (C1 & C2).
  destruct (get_options p I c0) as [c1|e1] eqn:E1.
  - destruct (phase_ok p I c0 c1 ro_I (u_I c0) E1) as (P1 & P2 & P3).
    assert (ACT_I : forall f, In f I -> act c0 f).
    { intros f Hf. apply in_I in Hf as [_ Df]. unfold act, dependency_ok. now rewrite Df. }
    assert (AGREE : forall g, In g fs -> f_dependency g = None -> cfg (f_name g) = get (attrs c1) (f_name g)).
    { intros g Hg Dg. destruct (C1 g Hg) as (v & T & Ev). { intros d vs E. congruence. }
      destruct (P1 g (proj2 (in_I g) (conj Hg Dg)) (ACT_I g (proj2 (in_I g) (conj Hg Dg)))) as (w & T' & Ew).
      rewrite Ev, Ew. f_equal. eapply taken_unique; eauto. }
    destruct (phase_fail p D c1 e ro_D H) as (f & Hf & K). apply in_D in Hf as (Hf & d & vs & E).
    destruct (proj1 RES f d vs Hf E) as (g & Hg & Ng & Dg). specialize (AGREE g Hg Dg). rewrite Ng in AGREE.
    destruct K as [K|(K & NT)].
    + unfold dependency_ok in K. rewrite E in K.
      destruct (P1 g (proj2 (in_I g) (conj Hg Dg)) (ACT_I g (proj2 (in_I g) (conj Hg Dg)))) as (w & T' & Ew). rewrite Ng in Ew. rewrite Ew in K.
      destruct w; discriminate.
    + destruct (C1 f Hf) as (v & T & _); [|now apply (NT v)].
      intros d' vs' E'. rewrite E in E'. injection E' as <- <-. apply act_active in K. destruct (K d vs E) as (s & b & G & Hb & Sb).
      exists s, b. rewrite AGREE. auto.
  - destruct (phase_fail p I c0 e1 ro_I E1) as (f & Hf & [K|(K & NT)]); apply in_I in Hf as [Hf Df].
    + unfold dependency_ok in K. rewrite Df in K. discriminate.
    + destruct (C1 f Hf) as (v & T & _); [intros d vs E; congruence|]. now apply (NT v).
Qed.

Lemma configuration_unique cfg : is_configuration p fs cfg ->
  exists c, read_all p fs = inl c /\ forall n, get (attrs c) n = cfg n.
Proof.
  intros C. destruct (read_all p fs) as [c|e] eqn:E; [|exfalso; eapply read_all_complete; eauto].
  exists c. split; [reflexivity|]. assert (S := read_all_sound c E). intros n.
  destruct C as (C1 & C2), S as (S1 & S2).
  assert (AGREE : forall g, In g fs -> f_dependency g = None -> cfg (f_name g) = get (attrs c) (f_name g)).
  { intros g Hg Dg. destruct (C1 g Hg) as (v & T & Ev); [intros d vs X; congruence|]. destruct (S1 g Hg) as (w & T' & Ew); [intros d vs X; congruence|].
    rewrite Ev, Ew. f_equal. eapply taken_unique; eauto. }
  assert (ACT : forall f, In f fs -> (active cfg f <-> active (get (attrs c)) f)).
  { intros f Hf. split; intros A d vs X; destruct (A d vs X) as (s & b & G & Hb & Sb); exists s, b;
      (split; [|auto]); destruct (proj1 RES f d vs Hf X) as (g & Hg & Ng & Dg); specialize (AGREE g Hg Dg); rewrite Ng in AGREE; congruence. }
  destruct (existsb (fun f => String.eqb (f_name f) n && match dependency_ok c f with Some true => true | _ => false end) fs) eqn:B.
  - apply existsb_exists in B as (f & Hf & B). apply andb_true_iff in B as (B1 & B2). apply String.eqb_eq in B1 as <-.
    assert (A : active (get (attrs c)) f). { apply act_active. unfold act. destruct (dependency_ok c f) as [[|]|]; congruence. }
    destruct (S1 f Hf A) as (v & T & Ev). destruct (C1 f Hf (proj2 (ACT f Hf) A)) as (w & T' & Ew). rewrite Ev, Ew. f_equal. eapply taken_unique; eauto.
  - assert (NA : forall f, In f fs -> f_name f = n -> ~ active (get (attrs c)) f).
    { intros f Hf N A. rewrite <- not_true_iff_false in B. apply B. apply existsb_exists. exists f. split; [exact Hf|].
      apply act_active in A. unfold act in A. rewrite A, N, String.eqb_refl. reflexivity. }
    rewrite S2 by exact NA. symmetry. apply C2. intros f Hf N A. apply (NA f Hf N). now apply ACT.
Qed.
End Main.

(** No "dependency not found" on resolved schemas: the only failures come from reading a field *)
Lemma get_options_fail_read p : forall fs c e, get_options p fs c = inr e ->
  (exists f c', In f fs /\ dependency_ok c' f = None) \/ (exists f, In f fs /\ read f p = inr e).
Proof.
  induction fs as [|f fs IH]; intros c e H; [discriminate|]. cbn in H. destruct (get_option p c f) as [c1|e1] eqn:E.
  - destruct (IH _ _ H) as [(g & c' & Hg & K)|(g & Hg & K)]; [left; exists g, c'|right; exists g]; (split; [now right|exact K]).
  - injection H as <-. unfold get_option in E. destruct (dependency_ok c f) as [[|]|] eqn:D; [|discriminate|].
    + right. exists f. split; [now left|]. destruct (read f p); [discriminate|]. congruence.
    + left. exists f, c. split; [now left|exact D].
Qed.

Lemma read_never_plain_value_error f p : read f p <> inr ValueErr.
Proof.
  unfold read. assert (forall v, checked f v <> inr ValueErr). { intros v. unfold checked. destruct (validate (f_range f) v) as [[|]|]; discriminate. }
  destruct (p _ _) as [t|].
  - destruct (if f_is_list f then _ else _) as [v|e]; [apply H|]. destruct (is_value_error e) eqn:V; [discriminate|]. intros [= ->]. discriminate.
  - destruct (f_default f); [discriminate|apply H|apply H].
Qed.

Lemma dependencies_always_found p fs : 
  (forall f d values, In f fs -> f_dependency f = Some (d, values) -> exists g, In g fs /\ f_name g = d /\ f_dependency g = None) ->
  read_all p fs <> inr ValueErr.
Proof.
  intros R. unfold read_all. rewrite sort_eq, get_options_app. intros H.
  assert (GO : forall l c e, Forall (fun f => f_dependency f = None) l -> get_options p l c = inr e -> e <> ValueErr).
  { induction l as [|f l IH]; intros c e F E; [discriminate|]. inversion F as [|? ? F1 F2]; subst. cbn in E. unfold get_option, dependency_ok in E. rewrite F1 in E.
    destruct (read f p) as [v|e'] eqn:RD; [eapply IH; eauto|]. injection E as <-. intros ->. now apply (read_never_plain_value_error f p). }
  assert (SET : forall l c c', Forall (fun f => f_dependency f = None) l -> get_options p l c = inl c' ->
     (forall n, get (attrs c) n <> None -> get (attrs c') n <> None) /\ forall f, In f l -> get (attrs c') (f_name f) <> None).
  { induction l as [|f l IH]; intros c c' F E; [injection E as <-; split; [auto|contradiction]|].
    inversion F as [|? ? F1 F2]; subst. cbn in E. destruct (get_option p c f) as [c1|] eqn:G; [|discriminate].
    destruct (IH c1 c' F2 E) as (K1 & K2).
    apply get_option_cases in G as [[Dp _]|(_ & w & _ & A)]; [unfold dependency_ok in Dp; rewrite F1 in Dp; discriminate|].
    assert (M : forall n, get (attrs c) n <> None -> get (attrs c1) n <> None).
    { intros n Hn. rewrite A. destruct (String.eqb_spec n (f_name f)) as [->|N]; [rewrite get_set_same; discriminate|now rewrite get_set_other]. }
    split; [intros n Hn; apply K1, M, Hn|]. intros g [<-|Hg]; [|now apply K2]. apply K1. rewrite A, get_set_same. discriminate. }
  assert (DEP : forall l c e, (forall f d vs, In f l -> f_dependency f = Some (d, vs) -> get (attrs c) d <> None) -> get_options p l c = inr e -> e <> ValueErr).
  { induction l as [|f l IH]; intros c e Hd E; [discriminate|]. cbn in E. destruct (get_option p c f) as [c1|e1] eqn:G.
    - eapply IH; [|exact E]. intros g d vs Hg Dg. specialize (Hd g d vs (or_intror Hg) Dg).
      apply get_option_cases in G as [[_ ->]|(_ & w & _ & A)]; [exact Hd|]. rewrite A. destruct (String.eqb_spec d (f_name f)) as [->|N]; [rewrite get_set_same; discriminate|now rewrite get_set_other].
    - injection E as <-. unfold get_option, dependency_ok in G. destruct (f_dependency f) as [[d vs]|] eqn:Df.
      + specialize (Hd f d vs (or_introl eq_refl) Df). destruct (get (attrs c) d) as [[| s |]|]; [discriminate| |discriminate|congruence].
        destruct (py_in s vs); [|discriminate]. destruct (read f p) eqn:RD; [discriminate|]. injection G as <-. intros ->. now apply (read_never_plain_value_error f p).
      + destruct (read f p) eqn:RD; [discriminate|]. injection G as <-. intros ->. now apply (read_never_plain_value_error f p). }
  assert (FI : Forall (fun f => f_dependency f = None) (filter independent fs)).
  { apply Forall_forall. intros f Hf. apply filter_In in Hf as [_ Hf]. unfold independent in Hf. destruct (f_dependency f); congruence. }
  destruct (get_options p (filter independent fs) _) as [c1|e1] eqn:E1.
  - eapply DEP; [|exact H|reflexivity]. intros f d vs Hf Df. apply filter_In in Hf as [Hf _]. destruct (R f d vs Hf Df) as (g & Hg & <- & Dg).
    apply (proj2 (SET _ _ _ FI E1)). apply filter_In. split; [exact Hg|]. unfold independent. now rewrite Dg.
  - injection H as ->. eapply GO; eauto.
Qed.

(** The printed sections *)
Lemma listed_add l sec name sec' : listed (add_section l sec name) sec' = listed l sec' ++ (if String.eqb sec' sec then [name] else []).
Proof.
  induction l as [|[s ns] r IH]; cbn.
  - destruct (String.eqb sec' sec); reflexivity.
  - destruct (String.eqb_spec sec s) as [->|N]; cbn.
    + destruct (String.eqb sec' s); [reflexivity|]. now rewrite app_nil_r.
    + destruct (String.eqb_spec sec' s) as [->|N'].
      * destruct (String.eqb_spec s sec) as [->|_]; [contradiction|]. now rewrite app_nil_r.
      * exact IH.
Qed.
Lemma sections_list p fs : forall c c', get_options p fs c = inl c' ->
  exists rs : list (field * val), incl (map fst rs) fs /\
    attrs c' = rev (map (fun x => (f_name (fst x), snd x)) rs) ++ attrs c /\
    forall sec, listed (sections c') sec = listed (sections c) sec ++ map (fun x => f_name (fst x)) (filter (fun x => String.eqb sec (f_section (fst x))) rs).
Proof.
  induction fs as [|f fs IH]; intros c c' H; cbn in H.
  - injection H as <-. exists []. split; [intros x []|]. split; [reflexivity|]. intros sec. cbn. now rewrite app_nil_r.
  - destruct (get_option p c f) as [c1|] eqn:G; [|discriminate]. destruct (IH _ _ H) as [rs [I [EA ES]]].
    unfold get_option in G. destruct (dependency_ok c f) as [[|]|]; [|injection G as <-|discriminate].
    + destruct (read f p) as [v|]; [|discriminate]. injection G as <-. exists ((f, v) :: rs). split; [|split].
      * cbn. intros x [<-|X]; [now left | right; now apply I].
      * rewrite EA. cbn [attrs map rev fst snd]. now rewrite <- app_assoc.
      * intros sec. rewrite ES. cbn [sections filter fst snd]. rewrite listed_add, <- app_assoc. f_equal.
        destruct (String.eqb sec (f_section f)); reflexivity.
    + exists rs. split; [|split]; [|exact EA|exact ES]. intros x X. right. now apply I.
Qed.
Lemma read_all_sections p fs c : read_all p fs = inl c ->
  exists rs : list (field * val), incl (map fst rs) fs /\
    attrs c = rev (map (fun x => (f_name (fst x), snd x)) rs) ++ presets /\
    forall sec, listed (sections c) sec = map (fun x => f_name (fst x)) (filter (fun x => String.eqb sec (f_section (fst x))) rs).
Proof.
  intros H. destruct (sections_list _ _ _ _ H) as [rs [I [EA ES]]]. exists rs. split; [|split; [exact EA|exact ES]].
  intros x X. apply I in X. eapply Permutation_in; [apply sort_permutation | exact X].
Qed.
