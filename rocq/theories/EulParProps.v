(** C84: the number of processes does not change the results of the Euler equations on the cubed sphere. *)
From Coq Require Import Reals ZArith Arith Lia.
From Coquelicot Require Import Hierarchy.
From Verif Require Import TopologyModel TopologySpec SwSpec EulModel StepModel FieldSpace3 EulCutSpec.
From mathcomp Require Import all_ssreflect all_algebra.
From Verif Require Import RField EulRhs EulIntegral EulParRhs EulSteps.
Delimit Scope R_scope with re.
Delimit Scope Z_scope with zz.

(** A state of kN x kN columns per panel: computed by 6 k^2 processes with N x N columns each, its right-hand side is the one computed by 6 processes, cut into tiles. Any state, heights and slopes of the layers, Christoffel symbols, damping, order and points; deep and shallow atmosphere. [same_state3], [same_layers], [same_symbols]: EulCutSpec *)
Theorem C84_rhs : forall k N NZ ns pts earth_radius deta deep advection_only geo geo' christoffel christoffel' damping damping' q q', (0 < k)%coq_nat -> (0 < N)%coq_nat -> (0 < NZ)%coq_nat -> (0 < ns)%coq_nat ->
  same_layers k N NZ ns geo geo' -> same_symbols k N NZ ns christoffel christoffel' -> same_state3 k N NZ ns damping damping' -> same_state3 k N NZ ns q q' ->
  same_state3 k N NZ ns (euler_rhs k N NZ ns pts earth_radius deta deep advection_only geo christoffel damping q) (euler_rhs 1 (k * N)%coq_nat NZ ns pts earth_radius deta deep advection_only geo' christoffel' damping' q').
Proof. intros k N NZ ns pts earth deta deep adv geo geo' chr chr' damp damp' q q' Hk HN HZ Hns EL EC ED EQ. exact (rhs3_cut (k := k) (N := N) (NZ := NZ) (ns := ns) pts earth deta deep adv (geo := geo) (geo' := geo') (chr := chr) (chr' := chr') (damp := damp) (damp' := damp') (q := q) (q' := q') Hk HN HZ Hns EL EC ED EQ). Qed.
Print Assumptions C84_rhs.
(** the same after any number of steps of the explicit integrators; the damping may depend on the state *)
Theorem C84_steps : forall k N NZ ns pts earth_radius deta deep advection_only geo geo' christoffel christoffel' (damping damping' : states3 -> states3) dt n q q', (0 < k)%coq_nat -> (0 < N)%coq_nat -> (0 < NZ)%coq_nat -> (0 < ns)%coq_nat ->
  same_layers k N NZ ns geo geo' -> same_symbols k N NZ ns christoffel christoffel' -> (forall u w, same_state3 k N NZ ns u w -> same_state3 k N NZ ns (damping u) (damping' w)) -> same_state3 k N NZ ns q q' ->
  let f : states3 -> states3 := fun q => euler_rhs k N NZ ns pts earth_radius deta deep advection_only geo christoffel (damping q) q in
  let g : states3 -> states3 := fun q => euler_rhs 1 (k * N)%coq_nat NZ ns pts earth_radius deta deep advection_only geo' christoffel' (damping' q) q in
  same_state3 k N NZ ns (Nat.iter n (fun q => euler1 f q dt) q) (Nat.iter n (fun q => euler1 g q dt) q') /\
  same_state3 k N NZ ns (Nat.iter n (fun q => tvdrk3 f q dt) q) (Nat.iter n (fun q => tvdrk3 g q dt) q').
Proof. intros k N NZ ns pts earth deta deep adv geo geo' chr chr' damp damp' dt n q q' Hk HN HZ Hns EL EC ED EQ f g. exact (conj (euler1_cut3 (k := k) (N := N) (NZ := NZ) (ns := ns) pts earth deta deep adv (geo := geo) (geo' := geo') (chr := chr) (chr' := chr') (damp := damp) (damp' := damp') Hk HN HZ Hns EL EC ED dt n EQ) (tvdrk3_cut3 (k := k) (N := N) (NZ := NZ) (ns := ns) pts earth deta deep adv (geo := geo) (geo' := geo') (chr := chr) (chr' := chr') (damp := damp) (damp' := damp') Hk HN HZ Hns EL EC ED dt n EQ)). Qed.
Print Assumptions C84_steps.
(** totals: each process sums over its tile, then over the processes *)
Theorem C84_integral : forall k N NZ ns pts ws earth_radius deta deep geo geo' f F, (0 < k)%coq_nat -> (0 < N)%coq_nat -> (0 < NZ)%coq_nat -> (0 < ns)%coq_nat ->
  same_layers k N NZ ns geo geo' -> same_points k N NZ ns f F ->
  global_integral_3d k N NZ ns pts ws earth_radius deta deep geo f = global_integral_3d 1 (k * N)%N NZ ns pts ws earth_radius deta deep geo' F.
Proof. intros k N NZ ns pts ws earth deta deep geo geo' f F Hk HN HZ Hns EL EF. exact (integral_cut3 (k := k) (N := N) (NZ := NZ) (ns := ns) pts ws earth deta deep (geo := geo) (geo' := geo') (f := f) (F := F) Hk HN HZ Hns EL EF). Qed.
Print Assumptions C84_integral.
(** every state and every geometry of the whole panels has such tiles; 24 processes, 3 x 3 columns of 5 elements each *)
Example C84_case : forall F, same_state3 2 3 5 4 (fun r v l => cut 2 3 (fun c => F c v l) r) F.
Proof. intro F. exact (@cut_state3 2 3 5 4 F). Qed.
Example C84_case_value : forall F : states3, cut 2 3 (fun c => F c 1%N 2%N) 7%zz 2 1 5 = F 1%zz 1%N 2%N 5%N 4%N 5%N.
Proof. reflexivity. Qed.
Definition cut_layers (B : layers) : layers :=
  let pt (F : at_points) : at_points := fun r l => cut 2 3 (fun c => F c l) r in let i (F : at_itf) : at_itf := fun r l => cut_i 2 3 (fun c => F c l) r in let j (F : at_itf) : at_itf := fun r l => cut_j 2 3 (fun c => F c l) r in
  let k (F : at_itf) : at_itf := fun r row col b => cut 2 3 (fun c i j => F c i j b) r row col in
  {| z_pt := pt (z_pt B); z_i := i (z_i B); z_j := j (z_j B); z_k := k (z_k B); s1_pt := pt (s1_pt B); s2_pt := pt (s2_pt B); s1_i := i (s1_i B); s2_i := i (s2_i B); s1_j := j (s1_j B); s2_j := j (s2_j B); s1_k := k (s1_k B); s2_k := k (s2_k B); dRdeta_pt := pt (dRdeta_pt B) |}.
Example C84_layers : forall B, same_layers 2 3 5 4 (cut_layers B) B.
Proof. intro B. split; [|split; [|split]]; (split; [|split; [|try split]]); intros r l i j p _ _ _ _ _; reflexivity. Qed.
