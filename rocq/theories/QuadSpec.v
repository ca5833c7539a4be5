(** What a quadrature rule should do. *)
From Coq Require Import Reals List.
Import ListNotations.
Open Scope R_scope.

(** the polynomial with coefficients [cs], constant term first *)
Fixpoint poly (cs : list R) (x : R) : R := match cs with [] => 0 | c :: cs' => c + x * poly cs' x end.
(** the weighted sum of the values of [f] *)
Fixpoint quad (xs ws : list R) (f : R -> R) : R :=
  match xs, ws with x :: xs', w :: ws' => w * f x + quad xs' ws' f | _, _ => 0 end.
(** points from left to right *)
Fixpoint increasing (xs : list R) : Prop :=
  match xs with x :: ((y :: _) as xs') => x < y /\ increasing xs' | _ => True end.
(** Legendre polynomials: k P_k = (2 k - 1) x P_{k-1} - (k - 1) P_{k-2} *)
Fixpoint legendre_R (k : nat) (x : R) : R :=
  match k with
  | O => 1
  | S O => x
  | S ((S k'') as k') => ((2 * INR k - 1) * x * legendre_R k' x - (INR k - 1) * legendre_R k'' x) / INR k
  end.
