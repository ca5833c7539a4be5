(** Steps of the implicit and of the exponential integrators on tiles and on whole panels. *)
From Coq Require Import Reals ZArith List Arith Lia.
From Coquelicot Require Import Hierarchy.
From Verif Require Import TopologyModel TopologySpec SwSpec FieldSpace FieldSpace3 StepModel EpiModel EulModel EulSpec EulCutSpec EulTerrainSpec ParSolveModel ParSolveSpec ParSolve ParSolveInst ParPmex ParEpi.
From mathcomp Require Import all_ssreflect all_algebra.
From Verif Require Import RField OpModel RhsModel SwRhs SwCutSpec SwParRhs EulRhs EulParRhs EulSymbols EulSlopes EulSlopeSpec EulTerrain EulTerrainAll EulTerrainCases.
Set Implicit Arguments.
Unset Strict Implicit.
Unset Printing Implicit Defensive.
Delimit Scope R_scope with re.

Lemma sw_map k N ns pts radius Omega rot Tc T : (0 < k)%N -> (0 < N)%N -> (0 < ns)%N -> same_topography k N ns Tc T ->
  same_map (same_state k N ns : states -> states -> Prop) (sw_rhs k N ns pts radius Omega (cut_rotation k rot) Tc) (sw_rhs 1 (k * N)%coq_nat ns pts radius Omega rot T).
Proof. move=> Hk HN Hns ET u w H. exact: (rhs_cut pts radius Omega rot Hk HN Hns H ET). Qed.
Lemma eul_map k N NZ pts earth_radius ztop Omega deep advection_only rot T T' christoffel christoffel' (damping damping' : states3 -> states3) : (0 < k)%coq_nat -> (0 < N)%coq_nat -> (0 < NZ)%coq_nat -> (0 < size pts)%N ->
  uniq (extension (pts : seq R_fieldType)) -> inner pts -> (0 < earth_radius)%re -> below k N (size pts) ztop T -> same_terrain k N (size pts) T T' -> let ns := size pts in let deta := delta_eta NZ in
  let geo := layers_of k N NZ ns pts deta (heights_of NZ ns pts ztop T) in let geo' := layers_of 1 (k * N)%coq_nat NZ ns pts deta (heights_of NZ ns pts ztop T') in
  numeric_symbols k N NZ ns pts earth_radius deta deep geo christoffel -> rotation_symbols k N NZ ns pts earth_radius deta Omega deep (cut_rotation k rot) geo christoffel ->
  numeric_symbols 1 (k * N)%coq_nat NZ ns pts earth_radius deta deep geo' christoffel' -> rotation_symbols 1 (k * N)%coq_nat NZ ns pts earth_radius deta Omega deep rot geo' christoffel' ->
  same_map (same_state3 k N NZ ns : states3 -> states3 -> Prop) damping damping' ->
  same_map (same_state3 k N NZ ns : states3 -> states3 -> Prop) (fun q => euler_rhs k N NZ ns pts earth_radius deta deep advection_only geo christoffel (damping q) q) (fun q => euler_rhs 1 (k * N)%coq_nat NZ ns pts earth_radius deta deep advection_only geo' christoffel' (damping' q) q).
Proof. intros Hk HN HZ Hns U I E B ET ns deta geo geo' S1 S2 S3 S4 HD u w H. exact: (terrain_rhs advection_only Hk HN HZ Hns U I E B ET S1 S2 S3 S4 (HD _ _ H) H). Qed.
Lemma eul_ros2 k N NZ ns (f g M M' : states3 -> states3) tol restart maxiter dt n q q' : (0 < k)%coq_nat -> (restart < 5 * (NZ * (N * (N * Nat.pow ns 3))))%coq_nat -> same_map (same_state3 k N NZ ns : states3 -> states3 -> Prop) M M' ->
  same_map (same_state3 k N NZ ns : states3 -> states3 -> Prop) f g -> same_state3 k N NZ ns q q' ->
  same_outcome (same_state3 k N NZ ns : states3 -> states3 -> Prop) (steps (fun q => ros2_dist (eul_entries (6 * k * k)%coq_nat N NZ ns) M tol restart maxiter f q dt) n (from (q : states3)))
    (steps (fun q => ros2_dist (eul_entries 6 (k * N)%coq_nat NZ ns) M' tol restart maxiter g q dt) n (from (q' : states3))).
Proof. move=> Hk HL HM Hf Hq. exact (eul_steps k N NZ ns M M' tol restart maxiter f g dt n (from (q : states3)) (from (q' : states3)) Hk HL HM Hf (conj Hq (conj erefl (conj erefl erefl)))). Qed.
Lemma sw_ros2 k N ns (f g M M' : states -> states) tol restart maxiter dt n q q' : (0 < k)%coq_nat -> (restart < 3 * (N * (N * (ns * ns))))%coq_nat -> same_map (same_state k N ns : states -> states -> Prop) M M' ->
  same_map (same_state k N ns : states -> states -> Prop) f g -> same_state k N ns q q' ->
  same_outcome (same_state k N ns : states -> states -> Prop) (steps (fun q => ros2_dist (sw_entries (6 * k * k)%coq_nat N ns) M tol restart maxiter f q dt) n (from (q : states)))
    (steps (fun q => ros2_dist (sw_entries 6 (k * N)%coq_nat ns) M' tol restart maxiter g q dt) n (from (q' : states))).
Proof. move=> Hk HL HM Hf Hq. exact (sw_steps k N ns M M' tol restart maxiter f g dt n (from (q : states)) (from (q' : states)) Hk HL HM Hf (conj Hq (conj erefl (conj erefl erefl)))). Qed.
