(** C87: solvers and implicit and exponential integrators on any number of processes. *)
From Coq Require Import Reals ZArith List Arith Lia Lra Permutation.
From Coquelicot Require Import Hierarchy.
From Verif Require Import TopologyModel TopologySpec SwSpec FieldSpace FieldSpace3 StepModel FgmresModel EpiModel KiopsModel EulModel EulCutSpec EulTerrainSpec ParSolveModel ParSolveSpec ParSolve ParSolveInst ParSolveCase ParPmex ParEpi.
From mathcomp Require Import all_ssreflect all_algebra.
From Verif Require Import RField OpModel RhsModel SwRhs SwCutSpec EulRhs EulSymbols EulSlopes EulSlopeSpec EulTerrain ParSolveAll.
Delimit Scope R_scope with re.

(** ** the solvers *)
(** fgmres on two distributions of the same vectors, over any numbers of processes, with an operator and a preconditioner that do the same: the same solution, residual and number of iterations, or both raise; unless in one run the processes get out of step ([ParSolveModel.Split]). [redistribution], [same_map], [same_outcome]: ParSolveSpec *)
Theorem C87_fgmres : forall (V W : ModuleSpace R_Ring) (holds : list (list (V -> R))) (holds' : list (list (W -> R))) rel A M A' M' b b' v v' tol restart maxiter hegedus,
  redistribution holds holds' rel -> holds <> nil -> holds' <> nil -> (forall es, In es holds -> (restart < length es)%coq_nat) -> (forall es, In es holds' -> (restart < length es)%coq_nat) ->
  same_map rel A A' -> same_map rel M M' -> rel b b' -> rel v v' ->
  same_outcome rel (dist_fgmres holds A M b (Some v) tol restart maxiter hegedus) (dist_fgmres holds' A' M' b' (Some v') tol restart maxiter hegedus) /\
  same_outcome rel (dist_fgmres holds A M b None tol restart maxiter hegedus) (dist_fgmres holds' A' M' b' None tol restart maxiter hegedus).
Proof.
  intros V W holds holds' rel A M A' M' b b' v v' tol restart maxiter hegedus D N N' L L' HA HM Hb Hv.
  exact (conj (dist_same holds holds' rel D N N' A M A' M' HA HM b b' (Some v) (Some v') tol restart maxiter hegedus L L' Hb Hv) (dist_same holds holds' rel D N N' A M A' M' HA HM b b' None None tol restart maxiter hegedus L L' Hb I)).
Qed.
Print Assumptions C87_fgmres.
(** on one process the processes cannot get out of step: the result is that of the solver of C69 *)
Theorem C87_one : forall (V : ModuleSpace R_Ring) (es : list (V -> R)) A M b x0 tol restart maxiter hegedus,
  dist_fgmres [:: es] A M b x0 tol restart maxiter hegedus =
  match fgmres (global_dotprod [:: es]) A M (stagnated es) b (length es) x0 tol restart maxiter hegedus with None => Raised | Some res => Returned (Answer (x res) (norm_r res) (norm_b res) (niter res) [:: flag res]) end.
Proof. intros. exact (one_process es A M b x0 tol restart maxiter hegedus). Qed.
Print Assumptions C87_one.
(** they can on two: the test for stagnation is made by each process on its own entries, and the first process, whose entries are right from the start, returns while the second begins another pass. One process with the same four entries returns *)
Theorem C87_refuted : forall maxiter, (2 <= maxiter)%coq_nat ->
  dist_fgmres [:: at_first; at_second] diag same_four ones (Some guess) (1 / 10)%re 1 maxiter false = ParSolveModel.Split /\
  exists a, dist_fgmres [:: (at_first ++ at_second)%list] diag same_four ones (Some guess) (1 / 10)%re 1 maxiter false = Returned a.
Proof. intros [|[|rest]] H; [lia|lia|]. exact (conj (out_of_step rest) (in_step (S (S rest)))). Qed.
Print Assumptions C87_refuted.
(** pmex: all its tests are on sums over the processes. The same counters, substeps, error estimates and values at the output times, or both raise; without exception *)
Theorem C87_pmex : forall (V W : ModuleSpace R_Ring) (holds : list (list (V -> R))) (holds' : list (list (W -> R))) rel expm a delta n A A' u u' p, redistribution holds holds' rel -> same_map rel A A' -> (forall i, rel (u i) (u' i)) ->
  same_pmex rel (pmex_dist holds expm a delta n A u p) (pmex_dist holds' expm a delta n A' u' p).
Proof. intros V W holds holds' rel expm a delta n A A' u u' p D HA Hu. exact (pmex_same holds holds' rel expm a delta n A A' u u' p D HA Hu). Qed.
Print Assumptions C87_pmex.

(** ** the shallow water equations: 6 k^2 tiles or 6 whole panels *)
Theorem C87_shallow : forall k N ns pts radius Omega rot Tc T q q', (0 < k)%N -> (0 < N)%N -> (0 < ns)%N -> same_topography k N ns Tc T -> same_state k N ns q q' ->
  let f : states -> states := sw_rhs k N ns pts radius Omega (cut_rotation k rot) Tc in let g : states -> states := sw_rhs 1 (k * N)%coq_nat ns pts radius Omega rot T in
  let same : states -> states -> Prop := same_state k N ns in
  (forall M M' tol restart maxiter dt n, same_map same M M' -> (restart < 3 * (N * (N * (ns * ns))))%coq_nat ->
    same_outcome same (steps (fun q => ros2_dist (sw_entries (6 * k * k)%coq_nat N ns) M tol restart maxiter f q dt) n (from (q : states))) (steps (fun q => ros2_dist (sw_entries 6 (k * N)%coq_nat ns) M' tol restart maxiter g q dt) n (from (q' : states)))) /\
  (forall order expm tol n I I' (same_i : I -> I' -> Prop) init init' sub e e' size i i' dts, (forall i i' q q' dt, same_i i i' -> same q q' -> same_i (fst (init i q dt)) (fst (init' i' q' dt)) /\ same (snd (init i q dt)) (snd (init' i' q' dt))) ->
    Epi order f (fun q r v => matvec_fd v 1 q r f) (pmex_phi (sw_entries (6 * k * k)%coq_nat N ns) expm tol n f) init sub = Some e ->
    Epi order g (fun q r v => matvec_fd v 1 q r g) (pmex_phi (sw_entries 6 (k * N)%coq_nat ns) expm tol n g) init' sub = Some e' ->
    same_i i i' -> same_option same (epi_run e (initial size i) q dts) (epi_run e' (initial size i') q' dts)).
Proof.
  intros k N ns pts radius Omega rot Tc T q q' Hk HN Hns ET Hq f g same. pose proof (sw_map pts radius Omega rot Hk HN Hns ET) as Hf. split.
  - intros M M' tol restart maxiter dt n HM HL. exact (sw_ros2 tol maxiter dt n (ssrbool.elimT ltP Hk) HL HM Hf Hq).
  - intros order expm tol n J J' same_i init init' sub e e' size i i' dts Hi E E' H. pose proof (sw_redistribution k N ns) as D.
    exact (epi_same _ _ _ same_i D e e' (epi_pmex_same _ _ _ same_i order expm tol n f g init init' sub e e' D Hf Hi E E') size i i' q q' dts H Hq).
Qed.
Print Assumptions C87_shallow.

(** ** the Euler equations over a terrain *)
Theorem C87_euler : forall k N NZ pts earth_radius ztop Omega deep advection_only rot T T' christoffel christoffel' (damping damping' : states3 -> states3) q q', (0 < k)%coq_nat -> (0 < N)%coq_nat -> (0 < NZ)%coq_nat -> (0 < size pts)%N ->
  uniq (extension (pts : seq R_fieldType)) -> inner pts -> (0 < earth_radius)%re -> below k N (size pts) ztop T -> same_terrain k N (size pts) T T' -> let ns := size pts in let deta := delta_eta NZ in
  let geo := layers_of k N NZ ns pts deta (heights_of NZ ns pts ztop T) in let geo' := layers_of 1 (k * N)%coq_nat NZ ns pts deta (heights_of NZ ns pts ztop T') in
  numeric_symbols k N NZ ns pts earth_radius deta deep geo christoffel -> rotation_symbols k N NZ ns pts earth_radius deta Omega deep (cut_rotation k rot) geo christoffel ->
  numeric_symbols 1 (k * N)%coq_nat NZ ns pts earth_radius deta deep geo' christoffel' -> rotation_symbols 1 (k * N)%coq_nat NZ ns pts earth_radius deta Omega deep rot geo' christoffel' ->
  let same : states3 -> states3 -> Prop := same_state3 k N NZ ns in same_map same damping damping' -> same q q' ->
  let f : states3 -> states3 := fun q => euler_rhs k N NZ ns pts earth_radius deta deep advection_only geo christoffel (damping q) q in
  let g : states3 -> states3 := fun q => euler_rhs 1 (k * N)%coq_nat NZ ns pts earth_radius deta deep advection_only geo' christoffel' (damping' q) q in
  (forall M M' tol restart maxiter dt n, same_map same M M' -> (restart < 5 * (NZ * (N * (N * Nat.pow ns 3))))%coq_nat ->
    same_outcome same (steps (fun q => ros2_dist (eul_entries (6 * k * k)%coq_nat N NZ ns) M tol restart maxiter f q dt) n (from (q : states3))) (steps (fun q => ros2_dist (eul_entries 6 (k * N)%coq_nat NZ ns) M' tol restart maxiter g q dt) n (from (q' : states3)))) /\
  (forall order expm tol n I I' (same_i : I -> I' -> Prop) init init' sub e e' size i i' dts, (forall i i' q q' dt, same_i i i' -> same q q' -> same_i (fst (init i q dt)) (fst (init' i' q' dt)) /\ same (snd (init i q dt)) (snd (init' i' q' dt))) ->
    Epi order f (fun q r v => matvec_fd v 1 q r f) (pmex_phi (eul_entries (6 * k * k)%coq_nat N NZ ns) expm tol n f) init sub = Some e ->
    Epi order g (fun q r v => matvec_fd v 1 q r g) (pmex_phi (eul_entries 6 (k * N)%coq_nat NZ ns) expm tol n g) init' sub = Some e' ->
    same_i i i' -> same_option same (epi_run e (initial size i) q dts) (epi_run e' (initial size i') q' dts)).
Proof.
  intros k N NZ pts earth_radius ztop Omega deep advection_only rot T T' christoffel christoffel' damping damping' q q' Hk HN HZ Hns U In Er B ET ns deta geo geo' S1 S2 S3 S4 same HD Hq f g.
  pose proof (eul_map advection_only Hk HN HZ Hns U In Er B ET S1 S2 S3 S4 HD) as Hf. split.
  - intros M M' tol restart maxiter dt n HM HL. exact (eul_ros2 tol maxiter dt n Hk HL HM Hf Hq).
  - intros order expm tol n J J' same_i init init' sub e e' size i i' dts Hi E E' H. pose proof (eul_redistribution k N NZ ns) as D.
    exact (epi_same _ _ _ same_i D e e' (epi_pmex_same _ _ _ same_i order expm tol n f g init init' sub e e' D Hf Hi E E') size i i' q q' dts H Hq).
Qed.
Print Assumptions C87_euler.
(** the entries of a state on tiles are those on panels, in another order *)
Example C87_entries : redistribution (sw_entries 24 3 2) (sw_entries 6 6 2) (same_state 2 3 2 : states -> states -> Prop) /\ redistribution (eul_entries 24 3 5 2) (eul_entries 6 6 5 2) (same_state3 2 3 5 2 : states3 -> states3 -> Prop) /\
  (forall es, In es (eul_entries 24 3 5 2) -> length es = (5 * (5 * (3 * (3 * 8))))%coq_nat).
Proof.
  split; [exact (sw_redistribution 2 3 2)|]. split; [exact (eul_redistribution 2 3 5 2)|]. intros es H. exact (eul_length 24 3 5 2 es H).
Qed.
