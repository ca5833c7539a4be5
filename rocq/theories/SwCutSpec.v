(** Fields of the whole sphere as the tiles of several processes hold them. *)
From Coq Require Import Reals ZArith Arith.
From Verif Require Import TopologyModel TopologySpec GeoModel SwModel SwSpec.
From mathcomp Require Import all_ssreflect.
From Verif Require Import SwRhs.
Set Implicit Arguments.
Unset Strict Implicit.
Unset Printing Implicit Defensive.
Delimit Scope Z_scope with zz.

(** [q] on k x k tiles per panel, with N x N elements of ns x ns points, three variables, is [F], given on whole panels *)
Definition same_state (k N ns : nat) (q F : Z -> nat -> nat -> nat -> nat -> R) : Prop :=
  forall r v row col p, (0 <= r < 6 * Z.of_nat k * Z.of_nat k)%zz -> (v < 3)%N -> (row < N)%N -> (col < N)%N -> (p < ns * ns)%N -> q r v row col p = cut k N (fun c => F c v) r row col p.
(** [A], the topography the tiles hold, is [B], that of whole panels; elements 0 and N + 1 at the sides are the halo, whose outer sides hold no value *)
Definition outside (N ns e p : nat) : Prop := e = 0%N /\ (p < ns)%N \/ e = (N + 1)%N /\ (ns <= p)%N.
Definition same_topography (k N ns : nat) (A B : option topography) : Prop :=
  match A, B with
  | None, None => True
  | Some A, Some B => forall r, (0 <= r < 6 * Z.of_nat k * Z.of_nat k)%zz ->
      (forall row col p, (row < N)%N -> (col < N)%N -> (p < ns * ns)%N ->
        hsurf A r row col p = cut k N (hsurf B) r row col p /\ dzdx1 A r row col p = cut k N (dzdx1 B) r row col p /\ dzdx2 A r row col p = cut k N (dzdx2 B) r row col p) /\
      (forall x e p, (x < N)%N -> (e <= N + 1)%N -> ~ outside N ns e p ->
        hsurf_itf_i A r x e p = cut_i k N (hsurf_itf_i B) r x e p /\ hsurf_itf_j A r x e p = cut_j k N (hsurf_itf_j B) r x e p)
  | _, _ => False
  end.
(** the rotation of the panels, as the tiles know it *)
Definition cut_rotation (k : nat) (rot : Z -> rotation) : Z -> rotation := fun r => rot (panel (tile_of_rank (Z.of_nat k) r)).
