(** Transport of a tracer by a given wind on the sphere: rhs/rhs_advection2d.py, on all the tiles. The arrays have the older layout (variable, line of points, column of points), and lines 28-52, 68-75 are the text of rhs_sw_stiff.py 32-63, 86-93 without topography, so b_ext, b_sent, b_halo and b_var of SwSplitModel are used with None. Numbers are exact reals. *)
From Coq Require Import Reals ZArith List.
From Verif Require Import TopologyModel GeoModel FluxModel SwModel.
From mathcomp Require Import all_ssreflect all_algebra.
From Verif Require Import RField OpModel RhsModel SwSplitModel.
Set Implicit Arguments.
Unset Strict Implicit.
Unset Printing Implicit Defensive.
Import GRing.Theory.
Delimit Scope R_scope with re.
Local Open Scope ring_scope.

(** rhs_advection2d.py 87-100, 106-119: the flux at an interface from the tracer and the wind on its left and on its right *)
Definition rusanov (G hL uL hR uR : R) : R :=
  (let eig := Rmax (Rabs uL) (Rabs uR) in let flux_L := G * hL * uL in let flux_R := G * hR * uR in 1 / 2 * (flux_L + flux_R - eig * G * (hR - hL)))%re.
(** Q: the tracer, then the wind *)
Definition carried (h u1 u2 : Z -> nat -> nat -> R) (r : Z) (v : nat) : nat -> nat -> R := match v with 0%nat => h r | 1%nat => u1 r | _ => u2 r end.

Section Advection.
Variables (k N ns : nat) (pts : seq R) (radius : R) (Q : Z -> nat -> nat -> nat -> R).
Let var_i := b_var_i k N ns pts None Q.
Let var_j := b_var_j k N ns pts None Q.
(** 77-119: interface i is between the elements i and i + 1 *)
Definition adv_i (r : Z) (i y : nat) : R := rusanov (b_G_i k N ns pts radius r i y) (var_i r 0 i 1 y) (var_i r 1 i 1 y) (var_i r 0 i.+1 0 y) (var_i r 1 i.+1 0 y).
Definition adv_j (r : Z) (i x : nat) : R := rusanov (b_G_j k N ns pts radius r i x) (var_j r 0 i 1 x) (var_j r 2 i 1 x) (var_j r 0 i.+1 0 x) (var_j r 2 i.+1 0 x).
(** 55-56 *)
Definition adv_x1 (r : Z) (y x : nat) : R := (b_G k N ns pts radius r y x * Q r 0%N y x * Q r 1%N y x)%re.
Definition adv_x2 (r : Z) (y x : nat) : R := (b_G k N ns pts radius r y x * Q r 0%N y x * Q r 2%N y x)%re.
(** 58-66, 121-139 *)
Definition advection (r : Z) (v y x : nat) : R :=
  match v with 0%nat => (b_G k N ns pts radius r y x)^-1 * - (along_x1 ns pts (adv_x1 r) (adv_i r) y x + along_x2 ns pts (adv_x2 r) (adv_j r) y x) | _ => 0 end.
End Advection.
