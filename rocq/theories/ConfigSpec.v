(** Specification vocabulary for properties C14 to C16. *)
From Coq Require Import QArith List Bool String.
From Verif Require Import ConfigModel.
Import ListNotations.

(** Order of Python numbers and strings *)
Inductive num_le : num -> num -> Prop :=
| le_fin p q : (p <= q)%Q -> num_le (Fin p) (Fin q)
| le_ninf x : x <> NaN -> num_le NInf x
| le_pinf x : x <> NaN -> num_le x PInf.
Inductive le : scalar -> scalar -> Prop :=
| le_num x y : num_le x y -> le (SNum x) (SNum y)
| le_str s t : (String.compare s t = Lt \/ s = t) -> le (SStr s) (SStr t).
(** Equality of Python values: equal numbers, or the same string; NaN differs from everything *)
Inductive same : scalar -> scalar -> Prop :=
| same_fin p q : (p == q)%Q -> same (SNum (Fin p)) (SNum (Fin q))
| same_pinf : same (SNum PInf) (SNum PInf)
| same_ninf : same (SNum NInf) (SNum NInf)
| same_str s : same (SStr s) (SStr s).

(** The declared constraint of a field, for one value *)
Definition respects (r : range) (a : scalar) : Prop :=
  (forall sel, selectables r = Some sel -> exists b, In b sel /\ same a b) /\
  (forall lo, selectables r = None -> min_value r = Some lo -> le lo a) /\
  (forall hi, selectables r = None -> max_value r = Some hi -> le a hi).
(** ... element-wise for lists *)
Definition in_range (r : range) (v : val) : Prop :=
  match v with VOne a => respects r a | VMany l => Forall (respects r) l | VNone => True end.

(** [taken p f v]: v is the value the field takes from the file: the conversion of the text of the option when it is
    present, the default when it is absent; in both cases within the range. *)
Inductive converted (f : field) (text : string) : val -> Prop :=
| conv_scalar s : f_is_list f = false -> f_conv f text = inl s -> converted f text (VOne s)
| conv_one s : f_is_list f = true -> f_conv f text = inl s -> converted f text (VMany [s])
| conv_many l e : f_is_list f = true -> f_conv f text = inr e -> (e = ValueErr \/ e = ConfigValueErr) ->
    f_conv_items f text = inl l -> converted f text (VMany l).
Definition taken (p : parser) (f : field) (v : val) : Prop :=
  in_range (f_range f) v /\ v <> VNone /\
  match p (f_section f) (f_name f) with
  | Some text => converted f text v
  | None => v = f_default f
  end.

(** A field is active in a configuration (given as the value of each option name) when it has no dependency or when the
    option it depends on has one of the listed values. *)
Definition active (cfg : string -> option val) (f : field) : Prop :=
  forall dep values, f_dependency f = Some (dep, values) -> exists s b, cfg dep = Some (VOne s) /\ In b values /\ same s b.

(** Declarative meaning of a schema and a file: active fields take their value; options without an active field keep
    their preset. *)
Definition is_configuration (p : parser) (fields : list field) (cfg : string -> option val) : Prop :=
  (forall f, In f fields -> active cfg f -> exists v, taken p f v /\ cfg (f_name f) = Some v) /\
  (forall n, (forall f, In f fields -> f_name f = n -> ~ active cfg f) -> cfg n = get presets n).

(** Schemas for which dependencies are resolved: each dependency is on an existing field that has no dependency itself,
    and fields with the same name depend on the same field, with no value in common. *)
Definition exclusive (f g : field) : Prop :=
  exists d vf vg, f_dependency f = Some (d, vf) /\ f_dependency g = Some (d, vg) /\
    forall s a b, In a vf -> In b vg -> same s a -> ~ same s b.
Definition resolved (fields : list field) : Prop :=
  (forall f d values, In f fields -> f_dependency f = Some (d, values) ->
     exists g, In g fields /\ f_name g = d /\ f_dependency g = None) /\
  (forall i j f g, nth_error fields i = Some f -> nth_error fields j = Some g -> i <> j -> f_name f = f_name g -> exclusive f g).

(** x comes strictly before y in l *)
Definition before {A} (l : list A) (x y : A) : Prop := exists l1 l2 l3, l = l1 ++ x :: l2 ++ y :: l3.

(** Text conversion functions that only raise ValueError or TypeError, like int(), float() and json.loads() *)
Definition ordinary {A} (r : result A) : Prop := match r with inl _ => True | inr e => e = ValueErr \/ e = TypeErr end.

(** The option names listed under a section title when the configuration is printed *)
Fixpoint listed (l : list (string * list string)) (sec : string) : list string :=
  match l with [] => [] | (s, ns) :: r => if String.eqb sec s then ns else listed r sec end.
