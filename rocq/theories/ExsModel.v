(** Which function computes the exponentials in a step: integrators/epi.py, epi_stiff.py, srerk.py, rosexp2.py. A function of solvers/ is represented by its name. *)
From Coq Require Import String.
From Verif Require Import SelModel.
Local Open Scope string_scope.

(** epi.py 119-348 *)
Definition epi_solver (s : string) : res string :=
  if s =? "pmex_ne" then Ok "pmex" else if s =? "pmex_1s" then Ok "pmex_1s" else if s =? "pmex_ne1s" then Ok "pmex_ne1s"
  else if s =? "icwy_ne1s" then Ok "icwy_ne1s" else if s =? "icwy_ne" then Ok "icwy_ne" else if s =? "icwy_1s" then Ok "icwy_1s" else if s =? "icwy_neiop" then Ok "icwy_neiop"
  else if s =? "cwy_ne1s" then Ok "cwy_ne1s" else if s =? "cwy_ne" then Ok "cwy_ne" else if s =? "cwy_1s" then Ok "cwy_1s" else if s =? "dcgs2" then Ok "dcgs2"
  else if s =? "kiops_ne" then Ok "kiops_nest" else if s =? "exode" then Ok "exode" else if s =? "pmex" then Ok "pmex" else if s =? "kiops" then Ok "kiops" else Raise ValueError.
(** epi_stiff.py 81-121 *)
Definition epi_stiff_solver (s : string) : res string := if s =? "pmex" then Ok "pmex" else if s =? "exode" then Ok "exode" else Ok "kiops".
(** srerk.py 87-280: the first projection; 299-573, the others, have the same branches *)
Definition srerk_solver (s : string) : res string :=
  if s =? "kiops" then Ok "kiops" else if s =? "pmex" then Ok "pmex" else if s =? "pmex_1s" then Ok "pmex_1s" else if s =? "pmex_ne1s" then Ok "pmex_ne1s"
  else if s =? "icwy_ne1s" then Ok "icwy_ne1s" else if s =? "icwy_ne" then Ok "icwy_ne" else if s =? "icwy_1s" then Ok "icwy_1s" else if s =? "icwy_neiop" then Ok "icwy_neiop"
  else if s =? "cwy_ne1s" then Ok "cwy_ne1s" else if s =? "cwy_ne" then Ok "cwy_ne" else if s =? "cwy_1s" then Ok "cwy_1s" else if s =? "dcgs2" then Ok "dcgs2"
  else if s =? "kiops_ne" then Ok "kiops_nest" else Raise ValueError.
(** rosexp2.py 35, partrosexp2.py 46 *)
Definition rosexp2_solver (s : string) : res string := Ok "pmex".
(** the value of the configuration that the integrator uses; the methods without exponentials use none *)
Fixpoint uses (m : integrator) (s : string) : option (res string) :=
  match m with
  | Epi _ _ => Some (epi_solver s) | EpiStiff _ _ => Some (epi_stiff_solver s) | Srerk _ _ => Some (srerk_solver s) | RosExp2 _ _ | PartRosExp2 _ _ => Some (rosexp2_solver s)
  | StrangSplitting s1 s2 => match uses s1 s with Some x => Some x | None => uses s2 s end
  | _ => None
  end.
