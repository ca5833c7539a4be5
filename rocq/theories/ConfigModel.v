(** Model of wx_factory/common/configuration_schema.py and wx_factory/common/configuration.py. *)
From Coq Require Import ZArith QArith List Bool String.
Import ListNotations.
Open Scope list_scope.

(** * Python values of options *)

(** int, float and bool objects: a finite number, an infinity or NaN.  bool is a subclass of int: False = 0, True = 1. *)
Inductive num := Fin (q : Q) | PInf | NInf | NaN.
Inductive scalar := SNum (n : num) | SStr (s : string).
(** None, a scalar, or a list of scalars *)
Inductive val := VNone | VOne (s : scalar) | VMany (l : list scalar).

Definition num_eqb (a b : num) : bool :=
  match a, b with Fin p, Fin q => Qeq_bool p q | PInf, PInf => true | NInf, NInf => true | _, _ => false end.
Definition num_leb (a b : num) : bool :=
  match a, b with
  | NaN, _ | _, NaN => false
  | NInf, _ | _, PInf => true
  | Fin p, Fin q => Qle_bool p q
  | _, _ => false
  end.

(** a == b *)
Definition py_eq (a b : scalar) : bool :=
  match a, b with SNum x, SNum y => num_eqb x y | SStr s, SStr t => String.eqb s t | _, _ => false end.
(** a <= b; [None] is the TypeError raised when a number is compared with a string *)
Definition py_le (a b : scalar) : option bool :=
  match a, b with SNum x, SNum y => Some (num_leb x y) | SStr s, SStr t => Some (String.leb s t) | _, _ => None end.
(** a in l *)
Definition py_in (a : scalar) (l : list scalar) : bool := existsb (py_eq a) l.

(** Exceptions: ConfigValueError is a subclass of ValueError; [OtherErr] stands for any class that is not a ValueError *)
Inductive cfg_exn := ConfigValueErr | ValueErr | TypeErr | IndexErr | AttributeErr | OtherErr.
Definition result (A : Type) := (A + cfg_exn)%type.

(** * ConfigFieldRange *)
Record range := { min_value : option scalar; max_value : option scalar; selectables : option (list scalar) }.

(** configuration_schema.py:77-89 -- ConfigFieldRange.__init__.  The test min > max is evaluated as max < min, i.e.
    max <= min and not max == min (for numbers and strings). *)
Definition make_range (min_v max_v : option scalar) (sel : option (list scalar)) : result range :=
  match sel, min_v, max_v with
  | Some _, Some _, _ | Some _, _, Some _ => inr ConfigValueErr                                    (* 85-86 *)
  | _, Some a, Some b =>
      match py_le b a with
      | None => inr TypeErr
      | Some le => if le && negb (py_eq b a) then inr ConfigValueErr                              (* 88-89 *)
                   else inl {| min_value := min_v; max_value := max_v; selectables := sel |}
      end
  | _, _, _ => inl {| min_value := min_v; max_value := max_v; selectables := sel |}
  end.

(** configuration_schema.py:91-102 -- _make_base_validate; the inner [None] is a TypeError *)
Definition base_validate (r : range) : option (scalar -> option bool) :=
  match selectables r, min_value r, max_value r with
  | Some sel, _, _ => Some (fun a => Some (py_in a sel))
  | None, Some lo, Some hi =>
      Some (fun a => match py_le lo a with None => None | Some false => Some false | Some true => py_le a hi end)
  | None, Some lo, None => Some (fun a => py_le lo a)
  | None, None, Some hi => Some (fun a => py_le a hi)
  | None, None, None => None
  end.

(** all(base_function(x) for x in a) *)
Fixpoint all_valid (base : scalar -> option bool) (l : list scalar) : option bool :=
  match l with
  | [] => Some true
  | x :: rest => match base x with None => None | Some false => Some false | Some true => all_valid base rest end
  end.

(** configuration_schema.py:104-116 -- make_validate.  None is never validated by the code (a comparison with None
    would be a TypeError). *)
Definition validate (r : range) (v : val) : option bool :=
  match base_validate r with
  | None => Some true
  | Some base => match v with VOne a => base a | VMany l => all_valid base l | VNone => None end
  end.

(** * ConfigurationField *)

(** The Python class used to convert the text of an option is a parameter of the field: [conv text] is
    self.type(text), and [conv_items text] is [self.type(x) for x in json.loads(text)]. *)
Record field := {
  f_name : string; f_section : string; f_default : val; f_conv : string -> result scalar;
  f_conv_items : string -> result (list scalar); f_is_list : bool; f_range : range;
  f_dependency : option (string * list scalar) }.

(** configuration_schema.py:138-163 -- ConfigurationField.__init__ *)
Definition make_field (name section : string) (default : val) (conv : string -> result scalar)
  (conv_items : string -> result (list scalar)) (is_list : bool) (r : range) (dependency : option (string * list scalar)) : result field :=
  let f := {| f_name := name; f_section := section; f_default := default; f_conv := conv; f_conv_items := conv_items;
              f_is_list := is_list; f_range := r; f_dependency := dependency |} in
  match default with
  | VNone => inl f
  | _ => match validate r default with None => inr TypeErr | Some true => inl f | Some false => inr ValueErr end    (* 159-163 *)
  end.

(** A parsed configuration file: the text of an option of a section; [None] when parser.get raises NoSectionError or
    NoOptionError.  The parsing itself (configparser) is not modelled. *)
Definition parser := string -> string -> option string.

(** configuration_schema.py:165-167 and 169-174 *)
Definition read_single (f : field) (text : string) : result val :=
  match f_conv f text with inl s => inl (VOne s) | inr e => inr e end.
Definition is_value_error (e : cfg_exn) : bool := match e with ConfigValueErr | ValueErr => true | _ => false end.
Definition read_list (f : field) (text : string) : result val :=
  match f_conv f text with
  | inl s => inl (VMany [s])
  | inr e => if is_value_error e
             then match f_conv_items f text with inl l => inl (VMany l) | inr e' => inr e' end
             else inr e
  end.

(** configuration_schema.py:194-199 -- the end of ConfigurationField.read *)
Definition checked (f : field) (v : val) : result val :=
  match validate (f_range f) v with
  | None => inr TypeErr
  | Some true => inl v
  | Some false => inr ConfigValueErr                                                              (* 194-197 *)
  end.

(** configuration_schema.py:176-199 -- ConfigurationField.read *)
Definition read (f : field) (p : parser) : result val :=
  match p (f_section f) (f_name f) with
  | None => match f_default f with VNone => inr ConfigValueErr | d => checked f d end               (* 185-189 *)
  | Some text =>
      match (if f_is_list f then read_list f text else read_single f text) with
      | inl v => checked f v
      | inr e => if is_value_error e then inr ConfigValueErr else inr e                           (* 191-192 *)
      end
  end.

(** configuration_schema.py:240-260 -- sort_fields_by_dependency: two passes *)
Definition independent (f : field) : bool := match f_dependency f with None => true | Some _ => false end.
Definition sort_fields_by_dependency (fields : list field) : list field :=
  let sorted := fold_left (fun acc f => if independent f then acc ++ [f] else acc) fields [] in
  let remainder := fold_left (fun acc f => if independent f then acc else acc ++ [f]) fields [] in
  fold_left (fun acc f => acc ++ [f]) remainder sorted.

(** * Configuration *)

(** The attributes set on the object (latest first) and the sections dictionary *)
Record config := { attrs : list (string * val); sections : list (string * list string) }.
Fixpoint get (l : list (string * val)) (n : string) : option val :=
  match l with [] => None | (m, v) :: r => if String.eqb n m then Some v else get r n end.

Fixpoint add_section (l : list (string * list string)) (sec name : string) : list (string * list string) :=
  match l with
  | [] => [(sec, [name])]
  | (s, ns) :: r => if String.eqb sec s then (s, ns ++ [name]) :: r else (s, ns) :: add_section r sec name
  end.

(** configuration.py:25-26 -- attributes that exist before options are read.  The attributes cfg_file, sections, schema,
    parser and config_content (lines 18-23) are left out: they are not option names. *)
Definition presets : list (string * val) :=
  [("num_mg_levels"%string, VOne (SNum (Fin 1))); ("depth_approx"%string, VNone)].

(** configuration.py:60-65 -- is the dependency satisfied?  [None]: "dependency not found" (ValueError) *)
Definition dependency_ok (c : config) (f : field) : option bool :=
  match f_dependency f with
  | None => Some true
  | Some (dep, values) =>
      match get (attrs c) dep with
      | None => None
      | Some (VOne s) => Some (py_in s values)
      | Some _ => Some false                      (* None or a list never equals one of the scalar values *)
      end
  end.

(** configuration.py:58-74 -- _get_option *)
Definition get_option (p : parser) (c : config) (f : field) : result config :=
  match dependency_ok c f with
  | None => inr ValueErr
  | Some false => inl c
  | Some true =>
      match read f p with
      | inr e => inr e
      | inl v => inl {| attrs := (f_name f, v) :: attrs c; sections := add_section (sections c) (f_section f) (f_name f) |}
      end
  end.

(** configuration.py:30-31 *)
Fixpoint get_options (p : parser) (fields : list field) (c : config) : result config :=
  match fields with
  | [] => inl c
  | f :: rest => match get_option p c f with inl c' => get_options p rest c' | inr e => inr e end
  end.

(** configuration.py:16-33 and configuration_schema.py:291: the schema's fields are sorted, then read *)
Definition read_all (p : parser) (fields : list field) : result config :=
  get_options p (sort_fields_by_dependency fields) {| attrs := presets; sections := [] |}.

(** configuration.py:35-48 -- post configuration *)
Definition set (c : config) (n : string) (v : val) : config := {| attrs := (n, v) :: attrs c; sections := sections c |}.
Definition first_of (v : val) : result val :=
  match v with VMany (x :: _) => inl (VOne x) | VMany [] => inr IndexErr | _ => inr TypeErr end.
Definition post_config (c : config) : result config :=
  match get (attrs c) "num_solpts", get (attrs c) "num_elements_horizontal" with
  | Some ns, Some neh =>
      let c1 := set (set c "initial_num_solpts" ns) "num_elements_horizontal_total" neh in
      match get (attrs c1) "discretization" with
      | None => inr AttributeErr
      | Some d =>
          let is_fv := match d with VOne s => py_eq s (SStr "fv") | _ => false end in
          let one_pt := match ns with VOne s => py_eq s (SNum (Fin 1)) | _ => false end in
          if is_fv && negb one_pt then inr ValueErr                                              (* 39-44 *)
          else
            match get (attrs c1) "mg_smoother" with
            | None => inr AttributeErr
            | Some m =>
                if (match m with VOne s => py_eq s (SStr "exp") | _ => false end) then
                  match get (attrs c1) "exp_smoothe_spectral_radii", get (attrs c1) "exp_smoothe_num_iters" with
                  | Some r, Some n =>
                      match first_of r with
                      | inr e => inr e
                      | inl r0 => match first_of n with
                                  | inr e => inr e
                                  | inl n0 => inl (set (set c1 "exp_smoothe_spectral_radius" r0) "exp_smoothe_num_iter" n0)
                                  end
                      end
                  | None, _ => inr AttributeErr
                  | Some r, None => match first_of r with inr e => inr e | inl _ => inr AttributeErr end
                  end
                else inl c1
            end
      end
  | _, _ => inr AttributeErr
  end.

Definition configuration (p : parser) (fields : list field) : result config :=
  match read_all p fields with inl c => post_config c | inr e => inr e end.
