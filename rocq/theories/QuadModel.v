(** Gauss-Legendre quadrature: wx_factory/geometry/quadrature.py. Numbers are exact reals; the code evaluates the points with 34 digits and rounds them to doubles. *)
From Coq Require Import Reals List.
Import ListNotations.
Open Scope R_scope.

(** gauss_legendre, 11-71. [roots n]: scipy.special.roots_legendre, 67, an external function. [None]: ValueError, 62. The code tests n <= 5, then the cases; a natural covers n >= 0, and negative n end in the same error as 0 *)
Definition gauss_legendre (roots : nat -> list R * list R) (n : nat) : option (list R * list R) :=
  match n with
  | 0%nat => None
  | 1%nat => Some ([0], [2])
  | 2%nat => Some ([-1 / sqrt 3; 1 / sqrt 3], [1; 1])
  | 3%nat => Some ([- sqrt (3 / 5); 0; sqrt (3 / 5)], [5 / 9; 8 / 9; 5 / 9])
  | 4%nat => Some ([- sqrt (2 * sqrt 30 / 35 + 3 / 7); - sqrt (3 / 7 - 2 * sqrt 30 / 35); sqrt (3 / 7 - 2 * sqrt 30 / 35); sqrt (2 * sqrt 30 / 35 + 3 / 7)],
                   [(18 - sqrt 30) / 36; (18 + sqrt 30) / 36; (18 + sqrt 30) / 36; (18 - sqrt 30) / 36])
  | 5%nat => Some ([- sqrt (2 * sqrt 70 / 63 + 5 / 9); - sqrt (5 / 9 - 2 * sqrt 70 / 63); 0; sqrt (5 / 9 - 2 * sqrt 70 / 63); sqrt (2 * sqrt 70 / 63 + 5 / 9)],
                   [(322 - 13 * sqrt 70) / 900; (322 + 13 * sqrt 70) / 900; 128 / 225; (322 + 13 * sqrt 70) / 900; (322 - 13 * sqrt 70) / 900])
  | _ => Some (roots n)
  end.
