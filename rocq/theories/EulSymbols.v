(** The Christoffel symbols of the Euler equations on the cubed sphere: geometry/metric3d.py 915-1006 and geometry/operators.py 635-710 on all the tiles, with the metric of EulModel and EulRhs. *)
From Coq Require Import Reals ZArith.
From Verif Require Import TopologyModel GeoModel SwModel EulModel EulCutSpec.
From mathcomp Require Import all_ssreflect all_algebra.
From Verif Require Import RField OpModel FluxModel RhsModel SwRhs EulRhs.
Set Implicit Arguments.
Unset Strict Implicit.
Unset Printing Implicit Defensive.
Import GRing.Theory.
Local Open Scope ring_scope.

Section Sphere.
Variables (k N NZ ns : nat) (pts : seq R) (earth_radius deta : R) (deep : bool) (geo : layers).
Notation g_i := (h_i k N ns (point pts) earth_radius deta deep geo (eta_itf_i ns pts geo) (eta_itf_j ns pts geo)).
Notation g_j := (h_j k N ns (point pts) earth_radius deta deep geo (eta_itf_i ns pts geo) (eta_itf_j ns pts geo)).
Notation g_k := (h_k k N NZ ns (point pts) earth_radius deta deep geo (eta_itf_k ns pts geo)).
Notation s_i := (sqrtG_i k N ns (point pts) earth_radius deta deep geo (eta_itf_i ns pts geo) (eta_itf_j ns pts geo)).
Notation s_j := (sqrtG_j k N ns (point pts) earth_radius deta deep geo (eta_itf_i ns pts geo) (eta_itf_j ns pts geo)).
Notation s_k := (sqrtG_k k N NZ ns (point pts) earth_radius deta deep geo (eta_itf_k ns pts geo)).
Notation s_pt := (sG k N ns pts earth_radius deta deep geo).
Notation g_pt := (hc k N ns pts earth_radius deta deep geo).
(** metric3d.py 927-933 with grad (operators.py 635-710): derivative along c of H_contra[a, b] * sqrtG. comma_i, comma_j, comma_k (264-318, 370-425, 480-535) apply diff_solpt and correction along one axis, which is what derivative_x, correction_WE and the others do on the other layout; element e of a line has the boundaries e and e + 1 (692-696) *)
Definition grad_metric (r : Z) (a b c l row col p : nat) : R :=
  match c with
  | 0%N => sphere_df1 ns pts (fun l row col p => g_pt r l row col p a b * s_pt r l row col p) (fun l row e p => g_i r l row a b e p * s_i r l row e p) l row col p
  | 1%N => sphere_df2 ns pts (fun l row col p => g_pt r l row col p a b * s_pt r l row col p) (fun l col e p => g_j r l col a b e p * s_j r l col e p) l row col p
  | _ => sphere_df3 ns pts (fun l row col p => g_pt r l row col p a b * s_pt r l row col p) (fun row col e p => g_k r row col a b e p * s_k r row col e p) l row col p
  end.
(** 939-1006: at every point the symbols solve the system of GeoModel, and metric.christoffel[a, 3 .. 8] hold those with lower indices 11, 12, 13, 22, 23, 33 (1112-1141). The rotation terms christoffel[a, 0 .. 2] are left free *)
Definition numeric_symbols (christoffel : Z -> nat -> nat -> nat -> nat -> nat -> nat -> R) : Prop :=
  forall r l row col p, is_rank k r -> (l < NZ)%coq_nat -> (row < N)%coq_nat -> (col < N)%coq_nat -> (p < Nat.pow ns 3)%coq_nat -> exists G,
  solves_system (s_pt r l row col p) (g_pt r l row col p) (fun a b c => grad_metric r a b c l row col p) G /\
  forall a, (a < 3)%coq_nat -> let c := christoffel r l row col p a in
  c 3%N = G a 0%N 0%N /\ c 4%N = G a 0%N 1%N /\ c 5%N = G a 0%N 2%N /\ c 6%N = G a 1%N 1%N /\ c 7%N = G a 1%N 2%N /\ c 8%N = G a 2%N 2%N.
End Sphere.
