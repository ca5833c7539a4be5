(** What the operators of an element should do. *)
From mathcomp Require Import all_ssreflect all_algebra.
Set Implicit Arguments.
Unset Strict Implicit.
Unset Printing Implicit Defensive.
Import GRing.Theory.
Local Open Scope ring_scope.

(** Reduced echelon form of the first ncols columns. [piv]: the columns of the pivots, from the first row down *)
Definition reduced_echelon (F : fieldType) (m n ncols : nat) (A : 'M[F]_(m, n)) : Prop :=
  exists piv : seq 'I_n,
    [/\ sorted ltn (map val piv), (size piv <= m)%N & {in piv, forall c : 'I_n, (c < ncols)%N}] /\
    [/\ {in piv, forall (c : 'I_n) (i : 'I_m), A i c = (i == index c piv :> nat)%:R},
        {in piv, forall (c : 'I_n) (i : 'I_m) (d : 'I_n), (index c piv <= i)%N -> (d < c)%N -> A i d = 0}
      & forall (i : 'I_m) (d : 'I_n), (size piv <= i)%N -> (d < ncols)%N -> A i d = 0].

(** Legendre polynomials: k P_k = (2 k - 1) X P_{k-1} - (k - 1) P_{k-2} *)
Fixpoint legendre (F : fieldType) (k : nat) : {poly F} :=
  match k with
  | 0%N => 1
  | 1%N => 'X
  | (k''.+1 as k').+1 => k%:R^-1 *: ((2 * k - 1)%:R *: ('X * legendre F k') - (k - 1)%:R *: legendre F k'')
  end.

(** the values of a polynomial at the points, and points that are symmetric about 0 *)
Definition values (F : fieldType) (pts : seq F) (p : {poly F}) : 'cV[F]_(size pts) := \col_i p.[pts`_i].
Definition mirrored (F : fieldType) (xi : seq F) : Prop := forall k, (k < size xi)%N -> xi`_(size xi - k - 1) = - xi`_k.
