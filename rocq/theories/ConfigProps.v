(** Properties C14 to C16: configuration files (wx_factory/common/configuration_schema.py, configuration.py). *)
From Coq Require Import ZArith QArith List Bool String Permutation.
From Verif Require Import ConfigModel ConfigSpec ConfigProofs SchemaModel SchemaProofs.
Import ListNotations.

(** C14: whatever the list of fields, every option of an accepted configuration is a preset, or was taken by a field of
    that name, in the range of this field. *)
Theorem C14_values_in_range : forall p fields c0 c, get_options p fields c0 = inl c ->
  forall n v, get (attrs c) n = Some v -> get (attrs c0) n = Some v \/ exists f, In f fields /\ f_name f = n /\ taken p f v.
Proof. exact get_options_source. Qed.
Print Assumptions C14_values_in_range.

(** Reading one field yields exactly the value the specification says, and raises when there is none. *)
Theorem C14_read : forall f p v, read f p = inl v <-> taken p f v.
Proof. exact read_spec. Qed.
Print Assumptions C14_read.

Theorem C14_bad_default_rejected : forall name sec d conv items is_list r dep,
  (exists f, make_field name sec d conv items is_list r dep = inl f) <-> d = VNone \/ in_range r d.
Proof. exact make_field_ok_iff. Qed.
Print Assumptions C14_bad_default_rejected.

(** A range is created only if it is not contradictory. *)
Theorem C14_range_makes_sense : forall lo hi sel r, make_range lo hi sel = inl r ->
  min_value r = lo /\ max_value r = hi /\ selectables r = sel /\
  (sel = None \/ (lo = None /\ hi = None)) /\ (forall a b, lo = Some a -> hi = Some b -> ~ (le b a /\ ~ same b a)).
Proof. exact make_range_spec. Qed.
Print Assumptions C14_range_makes_sense.
Example C14_ex : exists r f,
  make_range (Some (SNum (Fin 0))) (Some (SNum (Fin 4))) None = inl r /\
  make_field "dt" "T" (VOne (SNum (Fin 1))) (text_conv "float") (text_items "float") false r None = inl f /\
  read f (fun _ _ => Some "0.5"%string) = inl (VOne (SNum (Fin (1 # 2)))) /\
  validate r (VOne (SNum (Fin 5))) = Some false /\ validate r (VOne (SNum NaN)) = Some false /\
  validate r (VMany [SNum (Fin 2); SNum (Fin (-1))]) = Some false.
Proof. eexists. eexists. repeat split; reflexivity. Qed.

(** C15: on a schema with resolved dependencies the configuration read is the one the declarative meaning describes ... *)
Theorem C15_meaning : forall p fields, resolved fields -> forall c, read_all p fields = inl c -> is_configuration p fields (get (attrs c)).
Proof. exact read_all_sound. Qed.
Print Assumptions C15_meaning.
(** ... reading fails only when no configuration has that meaning ... *)
Theorem C15_failure : forall p fields, resolved fields -> forall e, read_all p fields = inr e -> forall cfg, ~ is_configuration p fields cfg.
Proof. exact read_all_complete. Qed.
Print Assumptions C15_failure.
(** ... and that meaning determines the configuration. *)
Theorem C15_unique : forall p fields, resolved fields -> forall cfg, is_configuration p fields cfg ->
  exists c, read_all p fields = inl c /\ forall n, get (attrs c) n = cfg n.
Proof. exact configuration_unique. Qed.
Print Assumptions C15_unique.
(** The schema shipped with the code loads and is resolved. *)
Theorem C15_shipped_schema_resolved : forall conv items, exists fields,
  shipped_schema conv items = Some fields /\ List.length fields = 73%nat /\ resolved fields.
Proof. exact shipped_resolved. Qed.
Print Assumptions C15_shipped_schema_resolved.
(** What is derived from the options once they are read *)
Theorem C15_post_configuration : forall c c', post_config c = inl c' ->
  get (attrs c') "num_elements_horizontal_total" = get (attrs c) "num_elements_horizontal" /\
  get (attrs c') "initial_num_solpts" = get (attrs c) "num_solpts" /\
  (get (attrs c) "discretization" = Some (VOne (SStr "fv")) -> exists s, get (attrs c) "num_solpts" = Some (VOne s) /\ same s (SNum (Fin 1))) /\
  (forall n, ~ In n ["num_elements_horizontal_total"; "initial_num_solpts"; "exp_smoothe_spectral_radius"; "exp_smoothe_num_iter"]%string ->
     get (attrs c') n = get (attrs c) n).
Proof. exact post_config_facts. Qed.
Print Assumptions C15_post_configuration.
Theorem C15_post_configuration_first : forall c c', post_config c = inl c' -> get (attrs c) "mg_smoother" = Some (VOne (SStr "exp")) ->
  exists x xs y ys, get (attrs c) "exp_smoothe_spectral_radii" = Some (VMany (x :: xs)) /\
    get (attrs c) "exp_smoothe_num_iters" = Some (VMany (y :: ys)) /\
    get (attrs c') "exp_smoothe_spectral_radius" = Some (VOne x) /\ get (attrs c') "exp_smoothe_num_iter" = Some (VOne y).
Proof. exact post_config_first. Qed.
Print Assumptions C15_post_configuration_first.
Example C15_ex_first : exists c', post_config {| attrs := [("num_solpts", VOne (SNum (Fin 3))); ("num_elements_horizontal", VOne (SNum (Fin 4)));
    ("discretization", VOne (SStr "dfr")); ("mg_smoother", VOne (SStr "exp"));
    ("exp_smoothe_spectral_radii", VMany [SNum (Fin 2); SNum (Fin 5)]); ("exp_smoothe_num_iters", VMany [SNum (Fin 7)])]%string; sections := [] |} = inl c'.
Proof. eexists. reflexivity. Qed.
(** Every option that is read becomes an attribute and is listed, once, under its own section, in reading order. *)
Theorem C15_sections : forall p fs c, read_all p fs = inl c ->
  exists rs : list (field * val), incl (map fst rs) fs /\
    attrs c = rev (map (fun x => (f_name (fst x), snd x)) rs) ++ presets /\
    forall sec, listed (sections c) sec = map (fun x => f_name (fst x)) (filter (fun x => String.eqb sec (f_section (fst x))) rs).
Proof. exact read_all_sections. Qed.
Print Assumptions C15_sections.
Theorem C15_shipped_no_attribute_error : forall conv items p fields,
  (forall ty t, ordinary (conv ty t)) -> (forall ty t, ordinary (items ty t)) ->
  shipped_schema conv items = Some fields -> configuration p fields <> inr AttributeErr.
Proof. exact shipped_no_attribute_error. Qed.
Print Assumptions C15_shipped_no_attribute_error.
Example C15_ex : exists fs c, shipped_schema text_conv text_items = Some fs /\ configuration sample_parser fs = inl c /\
  get (attrs c) "num_mg_levels" = Some (VOne (SNum (Fin 1))) /\ get (attrs c) "depth_approx" = Some VNone /\
  get (attrs c) "filter_order" = Some (VOne (SNum (Fin 0))) /\ get (attrs c) "dt" = Some (VOne (SNum (Fin (1 # 2)))).
Proof. exact sample_accepted. Qed.
(** An option value accepted by the schema can still make the constructor raise IndexError. *)
Theorem C15_accepted_options_suffice_refuted : exists fields c, shipped_schema text_conv text_items = Some fields /\
  read_all sample_parser2 fields = inl c /\ configuration sample_parser2 fields = inr IndexErr.
Proof. exact empty_radii_index_error. Qed.
Print Assumptions C15_accepted_options_suffice_refuted.

(** C16 *)
Theorem C16_same_fields : forall fields, Permutation (sort_fields_by_dependency fields) fields.
Proof. exact sort_permutation. Qed.
Print Assumptions C16_same_fields.
Theorem C16_dependency_first : forall fields f g d values, In f fields -> In g fields ->
  f_dependency f = Some (d, values) -> f_dependency g = None ->
  before (sort_fields_by_dependency fields) g f /\ ~ before (sort_fields_by_dependency fields) f g.
Proof. exact (fun fields f g d vs Hf Hg Df Dg => conj (sort_before fields f g d vs Hf Hg Df Dg) (sort_not_after fields f g d vs Df Dg)). Qed.
Print Assumptions C16_dependency_first.
Theorem C16_dependencies_found : forall p fields,
  (forall f d values, In f fields -> f_dependency f = Some (d, values) -> exists g, In g fields /\ f_name g = d /\ f_dependency g = None) ->
  read_all p fields <> inr ValueErr.
Proof. exact dependencies_always_found. Qed.
Print Assumptions C16_dependencies_found.
Example C16_ex : sort_fields_by_dependency [simple "b" (Some ("a"%string, [SNum (Fin 1)])); simple "a" None; simple "c" None] =
  [simple "a" None; simple "c" None; simple "b" (Some ("a"%string, [SNum (Fin 1)]))].
Proof. reflexivity. Qed.
(** Chains of dependencies are not sorted: reading can fail although some order of the fields would do. *)
Theorem C16_chains_refuted : exists fields,
  (forall f d vs, In f fields -> f_dependency f = Some (d, vs) -> exists g, In g fields /\ f_name g = d) /\
  NoDup (map f_name fields) /\
  (exists order c, Permutation order fields /\ get_options (fun _ _ => None) order {| attrs := presets; sections := [] |} = inl c) /\
  read_all (fun _ _ => None) fields = inr ValueErr.
Proof. exact chain_not_sorted. Qed.
Print Assumptions C16_chains_refuted.
