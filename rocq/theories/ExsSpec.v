(** The values of exponential_solver in config/config-format.json 107-112, and the functions they name: those of the same name, except that the names with a norm estimate stand for pmex and kiops_nest *)
From Coq Require Import String List.
Import ListNotations.
Local Open Scope string_scope.
Definition selectable : list string := ["pmex"; "kiops"; "exode"; "pmex_ne"; "cwy_1s"; "cwy_ne"; "cwy_ne1s"; "dcgs2"; "icwy_1s"; "icwy_neiop"; "icwy_ne"; "icwy_ne1s"; "kiops_ne"; "pmex_1s"; "pmex_ne1s"].
Definition named (s : string) : string := if s =? "pmex_ne" then "pmex" else if s =? "kiops_ne" then "kiops_nest" else s.
