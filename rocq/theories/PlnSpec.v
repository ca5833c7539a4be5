(** What the right-hand sides on a vertical plane are compared with. *)
From Coq Require Import Reals.
From Verif Require Import FluxModel.
From mathcomp Require Import all_ssreflect all_algebra.
From Verif Require Import RField.
Set Implicit Arguments.
Unset Strict Implicit.
Unset Printing Implicit Defensive.
Import GRing.Theory.
Delimit Scope R_scope with re.
Local Open Scope ring_scope.

(** the pressure of the equation of state *)
Definition eos (rho_theta : R) : R := (p0 * Rpower (rho_theta * Rd / p0) (cpd / cvd))%re.
(** flux of the Euler equations across a line, q: the state, d: the momentum across the line *)
Definition euler_flux (d : nat) (q : nat -> R) (v : nat) : R := (q v * (q d / q 0%N) + (if v == d then eos (q 3%N) else 0))%re.
(** its acoustic part: the transport of mass, and pressure *)
Definition acoustic_flux (d : nat) (q : nat -> R) (v : nat) : R := if v == 0%N then q d else if v == d then eos (q 3%N) else 0%re.
(** the integral over a rectangle of the columns of elements c0, ..., c0 + nc - 1, by Gauss quadrature in each element *)
Definition region_integral (c0 nc nz : nat) (ws : seq R) (dx1 dx3 : R) (f : nat -> nat -> R) : R :=
  let ns := seq.size ws in
  \sum_(row < nz) \sum_(col < nc) \sum_(j < ns) \sum_(i < ns) ((dx1 / 2) * (dx3 / 2) * (ws`_j * ws`_i)%R * f (row * ns + j)%N ((c0 + col) * ns + i)%N)%re.
(** the integral over a line of n elements *)
Definition line_integral (c0 n : nat) (ws : seq R) (dx : R) (f : nat -> R) : R :=
  let ns := seq.size ws in \sum_(e < n) \sum_(i < ns) (dx / 2 * ws`_i * f ((c0 + e) * ns + i)%N)%re.
(** the flux through the interface i of a line of n elements, s: element, side, variable. Walls take pressure only; elsewhere the mean of the fluxes of the two sides *)
Definition central_flux (n d : nat) (s : nat -> nat -> nat -> R) (i v : nat) : R :=
  if i == 0%N then (if v == d then eos (s 0%N 0%N 3%N) else 0%re)
  else if i == n then (if v == d then eos (s n.-1 1%N 3%N) else 0%re)
  else ((euler_flux d (s i.-1 1%N) v + euler_flux d (s i 0%N) v) / 2)%re.
