(** The right-hand side of the shallow water equations on all the tiles: rhs/rhs_sw.py with the fluxes of SwModel and the operators of OpModel; output/diagnostic.py: global_integral_2d. *)
From Coq Require Import Reals ZArith.
From Verif Require Import TopologyModel GeoModel SwModel.
From mathcomp Require Import all_ssreflect all_algebra.
From Verif Require Import RField OpModel FluxModel RhsModel.
Set Implicit Arguments.
Unset Strict Implicit.
Unset Printing Implicit Defensive.
Import GRing.Theory.
Local Open Scope ring_scope.

(** init/initialize.py 48-54: topography. Rank, then row, column, point (row or column, element with the halo, point at the sides) *)
Record topography := { hsurf : Z -> nat -> nat -> nat -> R; hsurf_itf_i : Z -> nat -> face; hsurf_itf_j : Z -> nat -> face; dzdx1 : Z -> nat -> nat -> nat -> R; dzdx2 : Z -> nat -> nat -> nat -> R }.
Section Sphere.
Variables (k N ns : nat) (pts : seq R) (radius Omega : R) (rot : Z -> rotation).
Variable topo : option topography.
(** q: rank, variable (h, hu1, hu2), row, column, point *)
Variable q : Z -> nat -> nat -> nat -> nat -> R.
Definition no_topography : topography := {| hsurf := fun _ _ _ _ => R0; hsurf_itf_i := fun _ _ _ _ => R0; hsurf_itf_j := fun _ _ _ _ => R0; dzdx1 := fun _ _ _ _ => R0; dzdx2 := fun _ _ _ _ => R0 |}.
(** 77-79, 160-162, 213-219: adding or subtracting zero stands for leaving the values alone *)
Definition ground : topography := if topo is Some t then t else no_topography.
Definition point (i : nat) : R := nth R0 pts i.
Definition Q_unpacked (r : Z) (v row col p : nat) : R := if v == 0%N then q r v row col p + hsurf ground r row col p else q r v row col p.
(** 82-88 *)
Definition ext_i (r : Z) (v row : nat) : face := fun e p => apply_op (ns * ns) (Q_unpacked r v row e.-1) (extrap_x_2d ns (neg pts) (pos pts)) p.
Definition ext_j (r : Z) (v col : nat) : face := fun e p => apply_op (ns * ns) (Q_unpacked r v e.-1 col) (extrap_y_2d ns (neg pts) (pos pts)) p.
Definition itf_flux_i := flux_i k N ns point radius ext_i ext_j (hsurf_itf_i ground).
Definition itf_flux_j := flux_j k N ns point radius ext_i ext_j (hsurf_itf_j ground).
(** 134-135, 210-211 *)
Definition sw_df1 (r : Z) (v row col p : nat) : R :=
  apply_op (ns * ns) (flux_x1 k N ns point radius q r v row col) (derivative_x_2d ns (D pts)) p + apply_op (ns + ns) (itf_flux_i r v row col.+1) (correction_WE_2d ns (cneg pts) (cpos pts)) p.
Definition sw_df2 (r : Z) (v row col p : nat) : R :=
  apply_op (ns * ns) (flux_x2 k N ns point radius q r v row col) (derivative_y_2d ns (D pts)) p + apply_op (ns + ns) (itf_flux_j r v col row.+1) (correction_SN_2d ns (cneg pts) (cpos pts)) p.
(** 238 *)
Definition sw_rhs (r : Z) (v row col p : nat) : R :=
  (sqrtG_pt k N ns point radius r row col p)^-1 * (- sw_df1 r v row col p - sw_df2 r v row col p) - forcing k N ns point radius q Omega rot (dzdx1 ground) (dzdx2 ground) r v row col p.
End Sphere.
(** diagnostic.py 58-65; operators.py 155: quad_weights; allreduce: the sum over the ranks *)
Definition global_integral_2d (k N ns : nat) (pts ws : seq R) (radius : R) (field : Z -> nat -> nat -> nat -> R) : R :=
  \sum_(r < 6 * k * k) \sum_(row < N) \sum_(col < N) \sum_(j < ns) \sum_(i < ns) field (Z.of_nat r) row col (j * ns + i)%N * sqrtG_pt k N ns (point pts) radius (Z.of_nat r) row col (j * ns + i)%N * (ws`_j * ws`_i).
