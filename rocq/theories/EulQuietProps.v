(** C85: an atmosphere at rest under one pressure feels nothing but gravity. *)
From Coq Require Import Reals ZArith Lia Lra Arith.
From Verif Require Import EulModel EulCutSpec EulRestSpec.
From mathcomp Require Import all_ssreflect all_algebra.
From Verif Require Import RField OpModel EulRhs EulSymbols EulQuiet EulQuietCases.
Delimit Scope R_scope with re.
Delimit Scope Z_scope with zz.

(** Any density, heights and slopes of the layers (so any mountains), order and points, number of processes, deep or shallow atmosphere. The Christoffel symbols are those the program computes from the metric. The tendencies of the horizontal momentum and of rho theta are zero, that of the vertical momentum is the weight; the damping, where it is switched on, is added *)
Theorem C85_rest : forall k N NZ pts earth_radius deta deep geo christoffel damping q T, (0 < k)%coq_nat -> (0 < N)%coq_nat -> (0 < NZ)%coq_nat -> (0 < size pts)%N -> uniq (extension (pts : seq R_fieldType)) ->
  deta <> 0%re -> regular_layers k N NZ (size pts) earth_radius deep geo -> (0 < T)%re -> numeric_symbols k N NZ (size pts) pts earth_radius deta deep geo christoffel -> at_rest k N NZ (size pts) T q ->
  let rhs := euler_rhs k N NZ (size pts) pts earth_radius deta deep false geo christoffel damping q in
  everywhere k N NZ (size pts) (fun r l row col p =>
    rhs r 1%N l row col p = (- damping r 1%N l row col p)%re /\ rhs r 2%N l row col p = (- damping r 2%N l row col p)%re /\
    rhs r 3%N l row col p = (- gravity_w k N (size pts) pts earth_radius deta deep geo q r l row col p - damping r 3%N l row col p)%re /\ rhs r 4%N l row col p = 0%re).
Proof. exact rest_all. Qed.
Print Assumptions C85_rest.
(** and mass does not move where the density is the same everywhere *)
Theorem C85_mass : forall k N NZ pts earth_radius deta deep geo christoffel damping q T rho, (0 < k)%coq_nat -> (0 < N)%coq_nat -> (0 < NZ)%coq_nat -> (0 < size pts)%N -> uniq (extension (pts : seq R_fieldType)) ->
  (0 < T)%re -> at_rest k N NZ (size pts) T q -> one_density k N NZ (size pts) rho q ->
  everywhere k N NZ (size pts) (fun r l row col p => euler_rhs k N NZ (size pts) pts earth_radius deta deep false geo christoffel damping q r 0%N l row col p = 0%re).
Proof. exact mass_all. Qed.
Print Assumptions C85_mass.
(** the equations the program solves for the symbols have a solution, and one only, whatever the layers are *)
Theorem C85_symbols : forall k N NZ pts earth_radius deta deep geo, (0 < k)%coq_nat -> (0 < N)%coq_nat -> deta <> 0%re -> regular_layers k N NZ (size pts) earth_radius deep geo ->
  (exists c, numeric_symbols k N NZ (size pts) pts earth_radius deta deep geo c) /\
  (forall c c', numeric_symbols k N NZ (size pts) pts earth_radius deta deep geo c -> numeric_symbols k N NZ (size pts) pts earth_radius deta deep geo c' ->
   everywhere k N NZ (size pts) (fun r l row col p => forall a b, (a < 3)%coq_nat -> (3 <= b)%coq_nat /\ (b <= 8)%coq_nat -> c r l row col p a b = c' r l row col p a b)).
Proof. exact symbols_all. Qed.
Print Assumptions C85_symbols.
(** 24 processes, 3 x 3 columns of 5 elements, layers that are not level, a density that varies *)
Example C85_case : (0 < size case_pts)%N /\ uniq (extension (case_pts : seq R_fieldType)) /\ regular_layers 2 3 5 (size case_pts) 6371220%re true case_layers /\ at_rest 2 3 5 (size case_pts) 300%re case_state /\
  exists c, numeric_symbols 2 3 5 (size case_pts) case_pts 6371220%re (1 / 5)%re true case_layers c.
Proof. exact case_holds. Qed.
Example C85_case_slopes : s1_pt case_layers 3%zz 1%N 2%N 0%N 4%N <> 0%re /\ z_pt case_layers 3%zz 1%N 2%N 0%N 4%N <> z_pt case_layers 3%zz 1%N 0%N 0%N 4%N.
Proof. exact case_slopes. Qed.
