(** Diagnostics of the shallow water equations: output/diagnostic.py, at one element (vorticity) or one point (energy). Numbers are exact: any field for the vorticity, reals for the energy. *)
From Coq Require Import Reals.
From mathcomp Require Import all_ssreflect all_algebra.
From Verif Require Import GeoModel FluxModel OpModel.
Set Implicit Arguments.
Unset Strict Implicit.
Unset Printing Implicit Defensive.
Import GRing.Theory.
Delimit Scope R_scope with re.
Local Open Scope ring_scope.

Section Vorticity.
Variables (F : fieldType) (pts : seq F).
Let ns := size pts.
(** the metric at the points: H_cov and inv_sqrtG; the contravariant wind *)
Variables (g11 g12 g21 g22 inv_sqrtG u1 u2 : nat -> F).
(** 11-12 *)
Definition u1_dual (p : nat) : F := g11 p * u1 p + g12 p * u2 p.
Definition u2_dual (p : nat) : F := g21 p * u1 p + g22 p * u2 p.
(** 9-19; operators.py 196-197 *)
Definition relative_vorticity (p : nat) : F :=
  let du1dx2 := apply_op (ns * ns) u2_dual (derivative_y_2d ns (diff_solpt pts)) in
  let du2dx1 := apply_op (ns * ns) u1_dual (derivative_x_2d ns (diff_solpt pts)) in
  inv_sqrtG p * (du2dx1 p - du1dx2 p).
Variables (h f : nat -> F).
(** 22-28; [f]: coriolis_f *)
Definition potential_vorticity (p : nat) : F := (relative_vorticity p + f p) / h p.
(** 31-35 *)
Definition absolute_vorticity (p : nat) : F := relative_vorticity p + f p.
(** 55-57 *)
Definition potential_enstrophy (p : nat) : F := (relative_vorticity p + f p) ^+ 2 / (2%:R * h p).
End Vorticity.

Local Open Scope re.
(** 38-52, at a point; [topo]: hsurf, if there is topography *)
Definition total_energy (h u1 u2 : R) (topo : option R) (g : sym2) : R :=
  let u1_dual := s11 g * u1 + s12 g * u2 in
  let u2_dual := s12 g * u1 + s22 g * u2 in
  let kinetic := / 2 * h * (u1_dual * u1 + u2_dual * u2) in
  let potential := match topo with Some b => / 2 * gravity * (Rpow_def.pow (h + b) 2 - Rpow_def.pow b 2) | None => / 2 * gravity * Rpow_def.pow h 2 end in
  kinetic + potential.
