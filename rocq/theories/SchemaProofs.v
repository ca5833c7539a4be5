(** The shipped schema is resolved, and further lemmas for C14 to C16. *)
From Coq Require Import ZArith QArith List Bool String Lia Permutation.
From Verif Require Import ConfigModel ConfigSpec ConfigProofs SchemaModel.
Import ListNotations.

Lemma same_sym a b : same a b -> same b a.
Proof. intros []; constructor. now symmetry. Qed.
Lemma same_trans a b c : same a b -> same b c -> same a c.
Proof.
  intros H1 H2. destruct H1 as [p q H| | |s]; inversion H2; subst; try constructor. etransitivity; eauto.
Qed.

(** Boolean test for [resolved] *)
Definition exclusive_b (f g : field) : bool :=
  match f_dependency f, f_dependency g with
  | Some (d, vf), Some (d', vg) => String.eqb d d' && forallb (fun a => forallb (fun b => negb (py_eq a b)) vg) vf
  | _, _ => false
  end.
Lemma exclusive_b_ok f g : exclusive_b f g = true -> exclusive f g.
Proof.
  unfold exclusive_b, exclusive. destruct (f_dependency f) as [[d vf]|], (f_dependency g) as [[d' vg]|]; try discriminate.
  intros H. apply andb_true_iff in H as (H1 & H2). apply String.eqb_eq in H1 as <-. exists d, vf, vg. repeat split.
  intros s a b Ha Hb Sa Sb. rewrite forallb_forall in H2. specialize (H2 a Ha). rewrite forallb_forall in H2. specialize (H2 b Hb).
  apply negb_true_iff in H2. rewrite <- not_true_iff_false in H2. apply H2, py_eq_spec. eapply same_trans; [apply same_sym, Sa|exact Sb].
Qed.
Lemma exclusive_sym f g : exclusive f g -> exclusive g f.
Proof. intros (d & v1 & v2 & E1 & E2 & X). exists d, v2, v1. repeat split; auto. intros s a b Ha Hb Sa Sb. now apply (X s b a). Qed.
Fixpoint pairs_ok (l : list field) : bool :=
  match l with
  | [] => true
  | f :: r => forallb (fun g => negb (String.eqb (f_name f) (f_name g)) || exclusive_b f g) r && pairs_ok r
  end.
Lemma pairs_ok_spec l : pairs_ok l = true -> forall i j f g, nth_error l i = Some f -> nth_error l j = Some g -> (i < j)%nat -> f_name f = f_name g -> exclusive f g.
Proof.
  induction l as [|x l IH]; intros H i j f g Hi Hj L N; [destruct i; discriminate|]. cbn in H. apply andb_true_iff in H as (H1 & H2).
  destruct j as [|j]; [lia|]. destruct i as [|i]; cbn in Hi, Hj.
  - injection Hi as <-. rewrite forallb_forall in H1. specialize (H1 g (nth_error_In _ _ Hj)). rewrite N, String.eqb_refl in H1. now apply exclusive_b_ok.
  - apply (IH H2 i j); auto. lia.
Qed.
Definition deps_ok (l : list field) : bool :=
  forallb (fun f => match f_dependency f with
                    | None => true
                    | Some (d, _) => existsb (fun g => String.eqb (f_name g) d && independent g) l end) l.
Definition resolved_b (l : list field) : bool := deps_ok l && pairs_ok l.
Lemma resolved_b_ok l : resolved_b l = true -> resolved l.
Proof.
  intros H. apply andb_true_iff in H as (H1 & H2). split.
  - intros f d vs Hf E. unfold deps_ok in H1. rewrite forallb_forall in H1. specialize (H1 f Hf). rewrite E in H1.
    apply existsb_exists in H1 as (g & Hg & K). apply andb_true_iff in K as (K1 & K2). apply String.eqb_eq in K1. exists g. repeat split; auto.
    unfold independent in K2. destruct (f_dependency g); [discriminate|reflexivity].
  - intros i j f g Hi Hj NE N. destruct (Nat.lt_ge_cases i j) as [L|L].
    + eapply pairs_ok_spec; eauto.
    + apply exclusive_sym. eapply (pairs_ok_spec l H2 j i); eauto. lia.
Qed.

Lemma shipped_resolved conv items : exists fs, shipped_schema conv items = Some fs /\ List.length fs = 73%nat /\ resolved fs.
Proof.
  destruct (shipped_schema conv items) as [fs|] eqn:E; [|vm_compute in E; discriminate].
  exists fs. split; [reflexivity|].
  assert (List.length fs = 73%nat /\ resolved_b fs = true) as [L R].
  { assert (X : match shipped_schema conv items with Some fs => Nat.eqb (List.length fs) 73 && resolved_b fs | None => false end = true) by (vm_compute; reflexivity).
    rewrite E in X. apply andb_true_iff in X as (X1 & X2). apply Nat.eqb_eq in X1. auto. }
  split; [exact L|]. now apply resolved_b_ok.
Qed.

(** A field of the shipped schema, found by name *)
Lemma shipped_field conv items fs n dep : shipped_schema conv items = Some fs ->
  existsb (fun f => String.eqb (f_name f) n && match f_dependency f, dep with
    | None, None => true | Some (d, vs), Some (d', v) => String.eqb d d' && existsb (py_eq v) vs | _, _ => false end) fs = true ->
  exists f, In f fs /\ f_name f = n /\ match dep with
    | None => f_dependency f = None | Some (d, v) => exists vs b, f_dependency f = Some (d, vs) /\ In b vs /\ same v b end.
Proof.
  intros _ H. apply existsb_exists in H as (f & Hf & K). apply andb_true_iff in K as (K1 & K2). apply String.eqb_eq in K1. exists f. split; [exact Hf|]. split; [exact K1|].
  destruct (f_dependency f) as [[d vs]|], dep as [[d' v]|]; try discriminate; [|reflexivity].
  apply andb_true_iff in K2 as (K2 & K3). apply String.eqb_eq in K2 as <-. apply existsb_exists in K3 as (b & Hb & S). exists vs, b. repeat split; auto. now apply py_eq_spec.
Qed.

Lemma taken_list p f v : f_is_list f = false -> (forall l, f_default f <> VMany l) -> taken p f v -> exists s, v = VOne s.
Proof.
  intros L ND (_ & N & T). destruct (p _ _) as [t|].
  - inversion T as [s C|s C|l e C]; subst; [eauto|congruence|congruence].
  - subst v. destruct (f_default f) eqn:E; [congruence|eauto|]. exfalso. now apply (ND l).
Qed.

Lemma read_ordinary f p e : (forall t, ordinary (f_conv f t)) -> (forall t, ordinary (f_conv_items f t)) -> read f p = inr e -> e = ConfigValueErr \/ e = TypeErr.
Proof.
  intros O1 O2 H. unfold read in H.
  assert (C : forall v, checked f v = inr e -> e = ConfigValueErr \/ e = TypeErr).
  { intros v. unfold checked. destruct (validate _ v) as [[|]|]; intros [= <-]; auto. }
  destruct (p _ _) as [t|].
  - destruct (if f_is_list f then read_list f t else read_single f t) as [v|e1] eqn:E; [eauto|].
    assert (is_value_error e1 = true \/ e1 = TypeErr).
    { specialize (O1 t). specialize (O2 t). unfold read_list, read_single in E. destruct (f_is_list f), (f_conv f t) as [s|e2]; cbn in O1; try discriminate.
      - destruct (is_value_error e2) eqn:V.
        + destruct (f_conv_items f t) as [l|e3]; [discriminate|]. injection E as <-. cbn in O2. destruct O2 as [-> | ->]; auto.
        + injection E as <-. destruct O1 as [-> | ->]; auto.
      - injection E as <-. destruct O1 as [-> | ->]; auto. }
    destruct (is_value_error e1) eqn:V; injection H as <-; [auto|]. destruct H0; [discriminate|auto].
  - destruct (f_default f); [injection H as <-; auto|eauto|eauto].
Qed.

Lemma shipped_ordinary conv items fs : (forall ty t, ordinary (conv ty t)) -> (forall ty t, ordinary (items ty t)) ->
  shipped_schema conv items = Some fs -> forall f, In f fs -> (forall t, ordinary (f_conv f t)) /\ (forall t, ordinary (f_conv_items f t)).
Proof.
  intros O1 O2 E f Hf. unfold shipped_schema in E.
  assert (G : forall l fs, collect l = Some fs -> In f fs -> In (Some f) l).
  { induction l as [|[x|] l IH]; intros gs H I; cbn in H; [injection H as <-; contradiction| |discriminate].
    destruct (collect l) as [gs'|]; [|discriminate]. injection H as <-. destruct I as [->|I]; [now left|right; eapply IH; eauto]. }
  assert (I := G _ _ E Hf). clear G E Hf.
  assert (K : forall n s ty il d a b sel dep, mk conv items n s ty il d a b sel dep = Some f -> f_conv f = conv ty /\ f_conv_items f = items ty).
  { intros n s ty il d a b sel dep H. unfold mk in H. destruct (make_range a b sel); [|discriminate]. unfold make_field in H.
    destruct d; [injection H as <-; auto| |]; (destruct (validate _ _) as [[|]|]; [|discriminate|discriminate]); injection H as <-; auto. }
  assert (A : forall n s ty il d a b sel dep, mk conv items n s ty il d a b sel dep = Some f -> (forall t, ordinary (f_conv f t)) /\ (forall t, ordinary (f_conv_items f t))).
  { intros n s ty il d a b sel dep H. apply K in H as [E1 E2]. rewrite E1, E2. split; intros; [apply O1|apply O2]. }
  assert (F : Forall (fun o => o = Some f -> (forall t, ordinary (f_conv f t)) /\ (forall t, ordinary (f_conv_items f t))) (shipped_fields conv items)).
  { unfold shipped_fields. repeat (apply Forall_cons; [apply A|]). apply Forall_nil. }
  rewrite Forall_forall in F. now apply (F (Some f) I).
Qed.

Lemma get_options_error p e : forall fs c, get_options p fs c = inr e -> e = ValueErr \/ exists f, In f fs /\ read f p = inr e.
Proof.
  induction fs as [|f fs IH]; intros c H; [discriminate|]. cbn in H. destruct (get_option p c f) as [c1|e1] eqn:E.
  - destruct (IH _ H) as [->|(g & Hg & R)]; [auto|right; exists g; split; [now right|exact R]].
  - injection H as <-. unfold get_option in E. destruct (dependency_ok c f) as [[|]|]; [|discriminate|injection E as <-; auto].
    right. exists f. split; [now left|]. destruct (read f p); [discriminate|]. congruence.
Qed.

(** Reading any file with the shipped schema never ends in AttributeError *)
Lemma shipped_no_attribute_error conv items p fs : (forall ty t, ordinary (conv ty t)) -> (forall ty t, ordinary (items ty t)) ->
  shipped_schema conv items = Some fs -> configuration p fs <> inr AttributeErr.
Proof.
  intros O1 O2 E H. unfold configuration in H.
  destruct (shipped_resolved conv items) as (fs' & E' & _ & R). rewrite E in E'. injection E' as <-.
  destruct (read_all p fs) as [c|e] eqn:RA.
  - assert (S := read_all_sound p fs R c RA). destruct S as (S1 & _).
    assert (IND : forall n, (match shipped_schema conv items with Some fs => existsb (fun f => String.eqb (f_name f) n && match f_dependency f, @None (string * scalar) with
       | None, None => true | Some (d, vs), Some (d', v) => String.eqb d d' && existsb (py_eq v) vs | _, _ => false end) fs | None => false end) = true -> exists v, get (attrs c) n = Some v).
    { intros n K. rewrite E in K. destruct (shipped_field conv items fs n None E K) as (f & Hf & <- & Df). destruct (S1 f Hf) as (v & _ & G); [intros ? ?; congruence|]. eauto. }
    destruct (IND "num_solpts"%string) as (ns & Gns); [vm_compute; reflexivity|].
    destruct (IND "num_elements_horizontal"%string) as (neh & Gneh); [vm_compute; reflexivity|].
    destruct (IND "discretization"%string) as (di & Gdi); [vm_compute; reflexivity|].
    destruct (IND "mg_smoother"%string) as (mg & Gmg); [vm_compute; reflexivity|]. clear IND.
    assert (DEP : forall n, (match shipped_schema conv items with Some fs => existsb (fun f => String.eqb (f_name f) n && match f_dependency f, Some ("mg_smoother"%string, SStr "exp") with
       | None, None => true | Some (d, vs), Some (d', v) => String.eqb d d' && existsb (py_eq v) vs | _, _ => false end) fs | None => false end) = true ->
       mg = VOne (SStr "exp") -> exists v, get (attrs c) n = Some v).
    { intros n K M. rewrite E in K. destruct (shipped_field conv items fs n (Some ("mg_smoother"%string, SStr "exp")) E K) as (f & Hf & <- & vs & b & Df & Hb & Sb).
      destruct (S1 f Hf) as (v & _ & G); [|eauto]. intros d' vs' D. rewrite Df in D. injection D as <- <-. exists (SStr "exp"), b. rewrite Gmg, M. auto. }
    unfold post_config in H. rewrite Gns, Gneh in H. cbn [set attrs] in H. rewrite !get_set_other in H by discriminate.
    rewrite Gdi in H. destruct (_ && _) in H; [discriminate|]. rewrite ?get_set_other in H by discriminate. rewrite Gmg in H.
    destruct mg as [|s|]; try discriminate. destruct (py_eq s (SStr "exp")) eqn:X; [|discriminate].
    assert (M : VOne s = VOne (SStr "exp")). { apply py_eq_spec in X. inversion X; subst. reflexivity. }
    destruct (DEP "exp_smoothe_spectral_radii"%string) as (r & Gr); [vm_compute; reflexivity|exact M|].
    destruct (DEP "exp_smoothe_num_iters"%string) as (n & Gn); [vm_compute; reflexivity|exact M|].
    rewrite ?get_set_other in H by discriminate. rewrite Gr, Gn in H.
    assert (F : forall v e, first_of v = inr e -> e <> AttributeErr). { intros [| |[|]] e; cbn; intros [= <-]; discriminate. }
    destruct (first_of r) eqn:F1; [|injection H as H; eapply F; eauto]. destruct (first_of n) eqn:F2; [discriminate|injection H as H; eapply F; eauto].
  - injection H as ->. unfold read_all in RA. apply get_options_error in RA as [H|(f & Hf & RD)]; [discriminate|].
    assert (Hf' : In f fs) by (eapply Permutation_in; [apply sort_permutation|exact Hf]).
    destruct (shipped_ordinary conv items fs O1 O2 E f Hf') as (Q1 & Q2). destruct (read_ordinary f p AttributeErr Q1 Q2 RD); discriminate.
Qed.

Lemma post_config_facts c c' : post_config c = inl c' ->
  get (attrs c') "num_elements_horizontal_total" = get (attrs c) "num_elements_horizontal" /\
  get (attrs c') "initial_num_solpts" = get (attrs c) "num_solpts" /\
  (get (attrs c) "discretization" = Some (VOne (SStr "fv")) -> exists s, get (attrs c) "num_solpts" = Some (VOne s) /\ same s (SNum (Fin 1))) /\
  (forall n, ~ In n ["num_elements_horizontal_total"; "initial_num_solpts"; "exp_smoothe_spectral_radius"; "exp_smoothe_num_iter"]%string ->
     get (attrs c') n = get (attrs c) n).
Proof.
  unfold post_config. destruct (get (attrs c) "num_solpts") as [ns|] eqn:Gns; [|discriminate]. destruct (get (attrs c) "num_elements_horizontal") as [neh|] eqn:Gneh; [|discriminate].
  set (c1 := set (set c _ ns) _ neh).
  assert (OTH : forall n, ~ In n ["num_elements_horizontal_total"; "initial_num_solpts"; "exp_smoothe_spectral_radius"; "exp_smoothe_num_iter"]%string -> get (attrs c1) n = get (attrs c) n).
  { intros n N. unfold c1. cbn [set attrs]. rewrite !get_set_other; [reflexivity| |]; intros ->; apply N; cbn; tauto. }
  assert (T : get (attrs c1) "num_elements_horizontal_total" = Some neh /\ get (attrs c1) "initial_num_solpts" = Some ns).
  { unfold c1. cbn [set attrs]. split; [apply get_set_same|]. rewrite get_set_other by discriminate. apply get_set_same. }
  rewrite (OTH "discretization"%string) by (cbn; intuition discriminate). rewrite (OTH "mg_smoother"%string) by (cbn; intuition discriminate).
  destruct (get (attrs c) "discretization") as [d|]; [|discriminate].
  destruct ((match d with VOne s => py_eq s (SStr "fv") | _ => false end) && negb (match ns with VOne s => py_eq s (SNum (Fin 1)) | _ => false end)) eqn:G; [discriminate|].
  assert (FV : Some d = Some (VOne (SStr "fv")) -> exists s, Some ns = Some (VOne s) /\ same s (SNum (Fin 1))).
  { intros [= ->]. cbn in G. apply negb_false_iff in G. destruct ns as [|s|]; try discriminate. exists s. split; [reflexivity|]. now apply py_eq_spec. }
  destruct (get (attrs c) "mg_smoother") as [m|]; [|discriminate].
  destruct (match m with VOne s => py_eq s (SStr "exp") | _ => false end).
  - destruct (get (attrs c1) "exp_smoothe_spectral_radii") as [r|]; [|discriminate]. destruct (get (attrs c1) "exp_smoothe_num_iters") as [n|]; [|destruct (first_of r); discriminate].
    destruct (first_of r) as [r0|]; [|discriminate]. destruct (first_of n) as [n0|]; [|discriminate]. intros [= <-]. cbn [set attrs].
    rewrite !get_set_other by discriminate. destruct T as [T1 T2]. fold (attrs c1). unfold c1 in *. cbn [set attrs] in *.
    split; [exact T1|split; [exact T2|split; [exact FV|]]]. intros k N. rewrite !get_set_other; [reflexivity| | | |]; intros ->; apply N; cbn; tauto.
  - intros [= <-]. destruct T. repeat split; auto.
Qed.

Lemma post_config_first c c' : post_config c = inl c' -> get (attrs c) "mg_smoother" = Some (VOne (SStr "exp")) ->
  exists x xs y ys, get (attrs c) "exp_smoothe_spectral_radii" = Some (VMany (x :: xs)) /\
    get (attrs c) "exp_smoothe_num_iters" = Some (VMany (y :: ys)) /\
    get (attrs c') "exp_smoothe_spectral_radius" = Some (VOne x) /\ get (attrs c') "exp_smoothe_num_iter" = Some (VOne y).
Proof.
  unfold post_config. destruct (get (attrs c) "num_solpts") as [ns|]; [|discriminate]. destruct (get (attrs c) "num_elements_horizontal") as [neh|]; [|discriminate].
  set (c1 := set (set c _ ns) _ neh).
  assert (OTH : forall n, ~ In n ["num_elements_horizontal_total"; "initial_num_solpts"]%string -> get (attrs c1) n = get (attrs c) n).
  { intros n N. unfold c1. cbn [set attrs]. rewrite !get_set_other; [reflexivity| |]; intros ->; apply N; cbn; tauto. }
  rewrite !OTH by (cbn; intuition discriminate). intros H M. rewrite M in H. cbn [py_eq String.eqb Ascii.eqb Bool.eqb] in H.
  destruct (get (attrs c) "discretization") as [d|]; [|discriminate]. destruct (_ && _); [discriminate|].
  destruct (get (attrs c) "exp_smoothe_spectral_radii") as [r|]; [|discriminate]. destruct (get (attrs c) "exp_smoothe_num_iters") as [n|]; [|destruct (first_of r); discriminate].
  destruct r as [| |[|x xs]]; try discriminate. destruct n as [| |[|y ys]]; try discriminate.
  cbn [first_of] in H. injection H as <-. exists x, xs, y, ys. repeat split.
Qed.

(** Chains of dependencies are not sorted *)
Definition plain_range : range := {| min_value := None; max_value := None; selectables := None |}.
Definition simple (n : string) (dep : option (string * list scalar)) : field :=
  {| f_name := n; f_section := "s"; f_default := VOne (SNum (Fin 1)); f_conv := fun _ => inr ValueErr; f_conv_items := fun _ => inr ValueErr;
     f_is_list := false; f_range := plain_range; f_dependency := dep |}.
Lemma chain_not_sorted : exists fs,
  (forall f d vs, In f fs -> f_dependency f = Some (d, vs) -> exists g, In g fs /\ f_name g = d) /\
  NoDup (map f_name fs) /\
  (exists order c, Permutation order fs /\ get_options (fun _ _ => None) order {| attrs := presets; sections := [] |} = inl c) /\
  read_all (fun _ _ => None) fs = inr ValueErr.
Proof.
  set (a := simple "a" None). set (b := simple "b" (Some ("a"%string, [SNum (Fin 1)]))). set (c := simple "c" (Some ("b"%string, [SNum (Fin 1)]))).
  exists [a; c; b]. split; [|split; [|split]].
  - intros f d vs [<-|[<-|[<-|[]]]] E; cbn in E; try discriminate; injection E as <- <-; [exists b|exists a]; cbn; auto.
  - cbn. repeat constructor; cbn; intuition discriminate.
  - exists [a; b; c]. eexists. split; [repeat constructor|]. vm_compute. reflexivity.
  - vm_compute. reflexivity.
Qed.
(** Without duplicates being resolved the value may come from another field: the last active one wins *)

(** An empty list is a valid value for the spectral radii, but the configuration cannot be built *)
Definition text_conv (ty t : string) : result scalar := if String.eqb t "0.5" then inl (SNum (Fin (1 # 2))) else if String.eqb t "1" then inl (SNum (Fin 1))
  else if String.eqb ty "str" then inl (SStr t) else inr ValueErr.
Definition text_items (ty t : string) : result (list scalar) := if String.eqb t "[]" then inl [] else inr ValueErr.
Definition sample_parser (sec n : string) : option string :=
  if String.eqb n "equations" then Some "shallow_water"%string
  else if String.eqb n "dt" then Some "0.5"%string else if String.eqb n "t_end" then Some "1"%string
  else if String.eqb n "time_integrator" then Some "epi2"%string else if String.eqb n "tolerance" then Some "0.5"%string
  else if String.eqb n "num_solpts" then Some "1"%string else if String.eqb n "num_elements_horizontal" then Some "1"%string
  else if String.eqb n "grid_type" then Some "cubed_sphere"%string
  else if String.eqb n "lambda0" then Some "0.5"%string else if String.eqb n "phi0" then Some "0.5"%string else if String.eqb n "alpha0" then Some "0.5"%string
  else None.
Definition sample_parser2 (sec n : string) : option string := if String.eqb n "exp_smoothe_spectral_radii" then Some "[]"%string else sample_parser sec n.
Lemma sample_accepted : exists fs c, shipped_schema text_conv text_items = Some fs /\ configuration sample_parser fs = inl c /\
  get (attrs c) "num_mg_levels" = Some (VOne (SNum (Fin 1))) /\ get (attrs c) "depth_approx" = Some VNone /\
  get (attrs c) "filter_order" = Some (VOne (SNum (Fin 0))) /\ get (attrs c) "dt" = Some (VOne (SNum (Fin (1 # 2)))).
Proof.
  destruct (shipped_schema text_conv text_items) as [fs|] eqn:E; [|vm_compute in E; discriminate].
  exists fs. assert (X : match shipped_schema text_conv text_items with Some fs => match configuration sample_parser fs with inl c => 
      (get (attrs c) "num_mg_levels", get (attrs c) "depth_approx", get (attrs c) "filter_order", get (attrs c) "dt") | inr _ => (None, None, None, None) end | None => (None, None, None, None) end
      = (Some (VOne (SNum (Fin 1))), Some VNone, Some (VOne (SNum (Fin 0))), Some (VOne (SNum (Fin (1 # 2)))))) by (vm_compute; reflexivity).
  rewrite E in X. destruct (configuration sample_parser fs) as [c|] eqn:C; [|discriminate]. injection X as X1 X2 X3 X4. exists c. repeat split; assumption.
Qed.
Lemma empty_radii_index_error : exists fs c, shipped_schema text_conv text_items = Some fs /\ read_all sample_parser2 fs = inl c /\ configuration sample_parser2 fs = inr IndexErr.
Proof.
  destruct (shipped_schema text_conv text_items) as [fs|] eqn:E; [|vm_compute in E; discriminate]. exists fs.
  assert (X : match shipped_schema text_conv text_items with Some fs => match read_all sample_parser2 fs with inl c => match post_config c with inr IndexErr => true | _ => false end | inr _ => false end | None => false end = true) by (vm_compute; reflexivity).
  rewrite E in X. unfold configuration. destruct (read_all sample_parser2 fs) as [c|]; [|discriminate]. exists c. repeat split. destruct (post_config c) as [|[]]; try discriminate. reflexivity.
Qed.
