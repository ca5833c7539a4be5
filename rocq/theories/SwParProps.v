(** C67: the number of processes does not change the results. *)
From Coq Require Import Reals ZArith.
From Coquelicot Require Import Hierarchy.
From Verif Require Import TopologyModel TopologySpec GeoModel SwModel SwSpec StepModel FieldSpace.
From mathcomp Require Import all_ssreflect all_algebra.
From Verif Require Import RField SwRhs SwCutSpec SwParRhs SwSteps.
Delimit Scope R_scope with re.
Delimit Scope Z_scope with zz.

(** A state of kN x kN elements per panel: computed by 6 k^2 processes with N x N elements each, its right-hand side is the one computed by 6 processes, cut into tiles. Any depth, wind, rotation, topography, order and points. [same_state], [same_topography]: SwCutSpec *)
Theorem C67_rhs : forall k N ns pts radius Omega rot Tc T q F, (0 < k)%N -> (0 < N)%N -> (0 < ns)%N -> same_topography k N ns Tc T -> same_state k N ns q F ->
  same_state k N ns (sw_rhs k N ns pts radius Omega (cut_rotation k rot) Tc q) (sw_rhs 1 (k * N)%coq_nat ns pts radius Omega rot T F).
Proof. intros k N ns pts radius Omega rot Tc T q F Hk HN Hns ET E. exact (rhs_cut (k := k) (N := N) (ns := ns) pts radius Omega rot (Tc := Tc) (T := T) (q := q) (F := F) Hk HN Hns E ET). Qed.
Print Assumptions C67_rhs.
(** the same after any number of steps of the explicit integrators *)
Theorem C67_steps : forall k N ns pts radius Omega rot Tc T dt n q F, (0 < k)%N -> (0 < N)%N -> (0 < ns)%N -> same_topography k N ns Tc T -> same_state k N ns q F ->
  let f : states -> states := sw_rhs k N ns pts radius Omega (cut_rotation k rot) Tc in let g : states -> states := sw_rhs 1 (k * N)%coq_nat ns pts radius Omega rot T in
  same_state k N ns (Nat.iter n (fun q => euler1 f q dt) q) (Nat.iter n (fun q => euler1 g q dt) F) /\
  same_state k N ns (Nat.iter n (fun q => tvdrk3 f q dt) q) (Nat.iter n (fun q => tvdrk3 g q dt) F).
Proof. intros k N ns pts radius Omega rot Tc T dt n q F Hk HN Hns ET E f g. exact (conj (euler1_cut (k := k) (N := N) (ns := ns) pts radius Omega rot (Tc := Tc) (T := T) Hk HN Hns ET dt n E) (tvdrk3_cut (k := k) (N := N) (ns := ns) pts radius Omega rot (Tc := Tc) (T := T) Hk HN Hns ET dt n E)). Qed.
Print Assumptions C67_steps.
(** global integrals: each process sums over its tile, then over the processes *)
Theorem C67_integral : forall k N ns pts ws radius f F, (0 < k)%N -> (0 < N)%N -> (0 < ns)%N ->
  (forall r i j p, (0 <= r < 6 * Z.of_nat k * Z.of_nat k)%zz -> (i < N)%N -> (j < N)%N -> (p < ns * ns)%N -> f r i j p = cut k N F r i j p) ->
  global_integral_2d k N ns pts ws radius f = global_integral_2d 1 (k * N)%N ns pts ws radius F.
Proof. intros k N ns pts ws radius f F Hk HN Hns E. exact (integral_cut (k := k) (N := N) (ns := ns) pts ws radius (f := f) (F := F) Hk HN Hns E). Qed.
Print Assumptions C67_integral.
(** every state of the whole panels has such tiles; 24 processes, 3 x 3 elements each *)
Example C67_case : forall F, same_state 2 3 4 (fun r v => cut 2 3 (fun c => F c v) r) F.
Proof. intro F. exact (@cut_state 2 3 4 F). Qed.
Example C67_case_value : forall F : states, cut 2 3 (fun c => F c 1%N) 7%zz 2 1 5 = F 1%zz 1%N 5%N 4%N 5%N.
Proof. reflexivity. Qed.
(** a topography that is a function of the place in the panel, with and without values on the outer sides of the halo *)
Example C67_topography : forall B A : Z -> nat -> nat -> nat -> R, (forall r x e p, ~ outside 3 4 e p -> A r x e p = cut_i 2 3 B r x e p) ->
  same_topography 2 3 4 (Some {| hsurf := cut 2 3 B; hsurf_itf_i := A; hsurf_itf_j := cut_j 2 3 B; dzdx1 := cut 2 3 B; dzdx2 := cut 2 3 B |})
    (Some {| hsurf := B; hsurf_itf_i := B; hsurf_itf_j := B; dzdx1 := B; dzdx2 := B |}).
Proof. intros B A H r Hr. split; [intros; repeat split|]. intros x e p _ _ Ho. split; [apply H, Ho|reflexivity]. Qed.
