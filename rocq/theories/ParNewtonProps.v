(** C87, continued: newton_krylov, kiops and the integrators that use them on any number of processes. *)
From Coq Require Import Reals ZArith List Arith Lia Lra.
From Coquelicot Require Import Hierarchy.
From Verif Require Import TopologyModel TopologySpec SwSpec FieldSpace FieldSpace3 StepModel FgmresModel EpiModel NewtonModel KiopsModel EulModel EulCutSpec EulTerrainSpec ParSolveModel ParSolveSpec ParSolve ParSolveInst ParNewtonModel ParNewtonSpec ParNewton ParNewtonOne ParNewtonCase ParExpModel ParExp.
From mathcomp Require Import all_ssreflect all_algebra.
From Verif Require Import RField OpModel RhsModel SwRhs SwCutSpec EulRhs EulSymbols EulSlopes EulSlopeSpec EulTerrain ParSolveAll ParNewtonAll.
Delimit Scope R_scope with re.

(** ** the solvers *)
(** newton_krylov with a given maxiter and at most one cycle of fgmres (the default): the same solution, iterations, residuals and announcement, or both raise; no processes out of step ([same_res], [same_found]: ParNewtonSpec) *)
Theorem C87_newton : forall (V W : ModuleSpace R_Ring) (holds : list (list (V -> R))) (holds' : list (list (W -> R))) rel M M' rdiff o F F' x x' n, redistribution holds holds' rel -> holds <> nil -> holds' <> nil -> same_map rel M M' ->
  (forall es, In es holds -> (go_restart o < length es)%coq_nat) -> (forall es, In es holds' -> (go_restart o < length es)%coq_nat) -> (go_fmaxiter o <= 1)%coq_nat -> go_maxiter o = Some n -> same_map rel F F' -> rel x x' ->
  same_res (same_found rel) (newton_dist holds F M rdiff o x) (newton_dist holds' F' M' rdiff o x').
Proof. intros V W holds holds' rel M M' rdiff o F F' x x' n D N N' HM L L' O E HF Hx. exact (newton_same holds holds' rel M M' rdiff o F F' x x' n D N N' HM L L' O E HF Hx). Qed.
Print Assumptions C87_newton.
(** without maxiter the number of passes comes from the number of entries of one process: the result is the same if a solution is announced before the other limit *)
Theorem C87_newton_default : forall (V W : ModuleSpace R_Ring) (holds : list (list (V -> R))) (holds' : list (list (W -> R))) rel M M' rdiff search tol F F' x x' n n', redistribution holds holds' rel -> holds <> nil -> holds' <> nil -> same_map rel M M' ->
  (forall es, In es holds -> length es = n) -> (forall es, In es holds' -> length es = n') -> (30 < n)%coq_nat -> (30 < n')%coq_nat -> same_map rel F F' -> rel x x' ->
  newton_dist holds F M rdiff (usual search tol None) x = newton_dist holds F M rdiff (usual search tol (Some (100 * (n + 1)))%coq_nat) x /\
  (forall a, newton_dist holds F M rdiff (usual search tol None) x = Value a -> f_ok a = true -> (f_it a < 100 * (n' + 1))%coq_nat -> same_res (same_found rel) (Value a) (newton_dist holds' F' M' rdiff (usual search tol None) x')).
Proof.
  intros V W holds holds' rel M M' rdiff search tol F F' x x' n n' D N N' HM E E' B B' HF Hx.
  exact (conj (newton_default holds F M rdiff tol search n x N E) (fun a => newton_found holds holds' rel M M' rdiff search tol F F' x x' n n' a D N N' HM E E' B B' HF Hx)).
Qed.
Print Assumptions C87_newton_default.
(** on one process it is the newton_krylov of C79 on the array of the entries, if the linear solver gives there what fgmres gives *)
Theorem C87_newton_one : forall (V : ModuleSpace R_Ring) (es : list (V -> R)) F (F' : list R -> list R) M rdiff o (solve : (list R -> list R) -> list R -> R -> list R) x n a, (forall e, In e es -> linear_entry e) -> (forall v, F' (array_of es v) = array_of es (F v)) ->
  (forall A A' b tol s, (forall v, A' (array_of es v) = array_of es (A v)) -> dist_fgmres [:: es] A M b None tol (go_restart o) (go_fmaxiter o) false = Returned s -> solve A' (array_of es b) tol = array_of es (a_x s)) ->
  go_maxiter o = Some n -> newton_dist [:: es] F M rdiff o x = Value a ->
  newton F' rdiff solve (options_of o) (array_of es x) = Done (array_of es (f_x a)) (f_it a) (f_residuals a) (f_ok a).
Proof. intros V es F F' M rdiff o solve x n a L HF HS E H. exact (newton_one es L F F' M rdiff o solve HF HS n x a E H). Qed.
Print Assumptions C87_newton_one.
(** such a solver on 40 numbers *)
Example C87_solver : (forall e, In e (cells 40) -> linear_entry (V := st_module) e) /\ exists solve, forall (A : states -> states) A' b tol s, (forall v : states, A' (array_of (V := st_module) (cells 40) v) = array_of (V := st_module) (cells 40) (A v)) -> dist_fgmres (V := st_module) [:: cells 40] A (fun v => v) b None tol 30 1 false = Returned s -> solve A' (array_of (V := st_module) (cells 40) b) tol = array_of (V := st_module) (cells 40) (a_x s).
Proof.
  split; [exact (cells_linear 40)|]. exists (array_solver (V := st_module) (cells 40) field_of (fun v => v) 30 1). intros A A' b tol s HA.
  apply (array_solver_same (V := st_module) (cells 40) field_of (fun v => v) 30 1 (cells_linear 40) (cells_inv 40)); [auto|apply Nat.leb_le; reflexivity|apply Nat.leb_le; reflexivity|exact HA].
Qed.
(** around a nonlinear solver that gives a value the steps are those of C32 and C80, and around a solver that gives vectors those of SrerkModel *)
Theorem C87_steps_one : forall (V : ModuleSpace R_Ring) (newton : newton_t (V := V)) rhs dt sc n q, implicit_steps sc (fun F x => Value (newton F x)) (fun F x => Value (newton F x)) rhs dt n q = Value (implicit_plain sc newton rhs dt n q).
Proof. intros V newton rhs dt sc n q. exact (implicit_value newton rhs dt sc n q). Qed.
Print Assumptions C87_steps_one.
Theorem C87_srerk_one : forall (V : ModuleSpace R_Ring) alpha (sol : list R -> (V -> V) -> list V -> list V) rhs nodes dt size q,
  srerk_dist alpha (fun size ts A us => Some (size, sol ts A us)) rhs nodes dt (size, q) = omap (fun v => (size, v)) (SrerkModel.srerk_step V alpha sol rhs (fun v => matvec_fd v dt q (rhs q) rhs) q dt nodes).
Proof. intros V alpha sol rhs nodes dt size q. exact (srerk_value alpha sol rhs nodes dt size q). Qed.
Print Assumptions C87_srerk_one.
(** kiops: all its tests are on sums over the processes *)
Theorem C87_kiops : forall (V W : ModuleSpace R_Ring) (holds : list (list (V -> R))) (holds' : list (list (W -> R))) rel expm a n A A' u u' p, redistribution holds holds' rel -> same_map rel A A' -> (forall i, rel (u i) (u' i)) ->
  same_kiops rel (kiops_dist holds expm a n A u p) (kiops_dist holds' expm a n A' u' p).
Proof. intros V W holds holds' rel expm a n A A' u u' p D HA Hu. exact (kiops_same holds holds' rel expm a n A A' u u' p D HA Hu). Qed.
Print Assumptions C87_kiops.

(** ** the shallow water equations: 6 k^2 tiles or 6 whole panels. [implicit_same], [exponential_same]: ParNewtonSpec *)
Theorem C87_shallow_more : forall k N ns pts radius Omega rot Tc T, (0 < k)%N -> (0 < N)%N -> (0 < ns)%N -> same_topography k N ns Tc T -> (30 < 3 * (N * (N * (ns * ns))))%coq_nat ->
  let f : states -> states := sw_rhs k N ns pts radius Omega (cut_rotation k rot) Tc in let g : states -> states := sw_rhs 1 (k * N)%coq_nat ns pts radius Omega rot T in
  let same : states -> states -> Prop := same_state k N ns in let tiles := sw_entries (6 * k * k)%coq_nat N ns in let panels := sw_entries 6 (k * N)%coq_nat ns in
  let size := (3 * (N * (N * (ns * ns))))%coq_nat in let size' := (3 * (k * N * (k * N * (ns * ns))))%coq_nat in
  implicit_same tiles panels same size size' f g /\ implicit_same panels tiles (fun q' q => same q q') size' size g f /\ exponential_same tiles panels same f g.
Proof. intros k N ns pts radius Omega rot Tc T Hk HN Hns ET L f g same tiles panels size size'. exact (sw_more pts radius Omega rot Hk HN Hns ET L). Qed.
Print Assumptions C87_shallow_more.

(** ** the Euler equations over a terrain *)
Theorem C87_euler_more : forall k N NZ pts earth_radius ztop Omega deep advection_only rot T T' christoffel christoffel' (damping damping' : states3 -> states3), (0 < k)%coq_nat -> (0 < N)%coq_nat -> (0 < NZ)%coq_nat -> (0 < size pts)%N ->
  uniq (extension (pts : seq R_fieldType)) -> inner pts -> (0 < earth_radius)%re -> below k N (size pts) ztop T -> same_terrain k N (size pts) T T' -> let ns := size pts in let deta := delta_eta NZ in
  let geo := layers_of k N NZ ns pts deta (heights_of NZ ns pts ztop T) in let geo' := layers_of 1 (k * N)%coq_nat NZ ns pts deta (heights_of NZ ns pts ztop T') in
  numeric_symbols k N NZ ns pts earth_radius deta deep geo christoffel -> rotation_symbols k N NZ ns pts earth_radius deta Omega deep (cut_rotation k rot) geo christoffel ->
  numeric_symbols 1 (k * N)%coq_nat NZ ns pts earth_radius deta deep geo' christoffel' -> rotation_symbols 1 (k * N)%coq_nat NZ ns pts earth_radius deta Omega deep rot geo' christoffel' ->
  let same : states3 -> states3 -> Prop := same_state3 k N NZ ns in same_map same damping damping' -> (30 < 5 * (NZ * (N * (N * Nat.pow ns 3))))%coq_nat ->
  let f : states3 -> states3 := fun q => euler_rhs k N NZ ns pts earth_radius deta deep advection_only geo christoffel (damping q) q in
  let g : states3 -> states3 := fun q => euler_rhs 1 (k * N)%coq_nat NZ ns pts earth_radius deta deep advection_only geo' christoffel' (damping' q) q in
  let tiles := eul_entries (6 * k * k)%coq_nat N NZ ns in let panels := eul_entries 6 (k * N)%coq_nat NZ ns in
  let size := (5 * (NZ * (N * (N * Nat.pow ns 3))))%coq_nat in let size' := (5 * (NZ * (k * N * (k * N * Nat.pow ns 3))))%coq_nat in
  implicit_same tiles panels same size size' f g /\ implicit_same panels tiles (fun q' q => same q q') size' size g f /\ exponential_same tiles panels same f g.
Proof.
  intros k N NZ pts earth_radius ztop Omega deep advection_only rot T T' christoffel christoffel' damping damping' Hk HN HZ Hns U In Er B ET ns deta geo geo' S1 S2 S3 S4 same HD L f g tiles panels size size'.
  exact (eul_more Hk L (eul_map advection_only Hk HN HZ Hns U In Er B ET S1 S2 S3 S4 HD)).
Qed.
Print Assumptions C87_euler_more.
(** a state at rest on 24 tiles: newton_krylov announces it after one iteration, with the default limit *)
Example C87_rest : forall (F : states -> states) M rdiff tol x, (0 <= tol)%re -> F x = zero -> newton_dist (sw_entries 24 3 2) F M rdiff (usual None tol None) x = Value (ParNewtonModel.Found x 1 [:: 0%re; 0%re] true).
Proof.
  intros F M rdiff tol x Ht E. rewrite (newton_default (sw_entries 24 3 2) F M rdiff tol None 108 x); [|discriminate|intros es H; exact (sw_length _ _ _ es H)].
  apply newton_rest; try assumption; [discriminate|exact (sw_zero 24 3 2)| |apply Nat.leb_le; reflexivity]. intros es H. rewrite (sw_length _ _ _ es H). apply Nat.leb_le. reflexivity.
Qed.
