(** C46, C47, C61 and C64: fluxes at the interfaces of elements, and forcing. *)
From Coq Require Import Reals Arith List Bool Lia Lra.
From Verif Require Import FluxModel FluxSpec FluxProofs FluxFaces FluxLoops FluxFinal.
Import ListNotations.
Open Scope R_scope.

(** ** C46: one flux per interface *)
Theorem C46_shallow_water n m q sqrtG H11 H12 H21 H22 v : single_valued n m (sw_flux_x1_itf n m q sqrtG H11 H21 v) /\ single_valued n m (sw_flux_x2_itf n m q sqrtG H12 H22 v).
Proof. exact (conj (sw_single_x1 n m q sqrtG H11 H21 v) (sw_single_x2 n m q sqrtG H12 H22 v)). Qed.
Print Assumptions C46_shallow_water.
(** Euler on a plane: also, only the pressure acts through the walls *)
Theorem C46_plane_x1 nx nz ns q empty v : single_valued_x1 nx nz ns (bubble_common_flux_x nx nz ns q empty v) /\
  at_walls_x1 nx nz ns (fun e p => bubble_common_flux_x nx nz ns q empty v e p = if (v =? 1)%nat then dry_pressure p0 Rd cpd cvd (q 3%nat e p) else 0).
Proof. exact (plane_python_x1 nx nz ns q empty v). Qed.
Print Assumptions C46_plane_x1.
Theorem C46_plane_x2 nx nz ns q empty v : single_valued_x2 nx nz ns (bubble_common_flux_z nx nz ns q empty v) /\
  at_walls_x2 nx nz ns (fun e p => bubble_common_flux_z nx nz ns q empty v e p = if (v =? 2)%nat then dry_pressure p0 Rd cpd cvd (q 3%nat e p) else 0).
Proof. exact (plane_python_x2 nx nz ns q empty v). Qed.
Print Assumptions C46_plane_x2.
(** the same for the compiled version, whatever the arrays held before *)
Theorem C46_plane_compiled_x1 n1 n2 ns q1 q2 f v : (v < 4)%nat -> let F := in_memory n1 n2 (2 * ns) (fst (riemann_eulercartesian_ausm_2d q1 q2 n1 n2 ns f)) v in
  single_valued_x1 n1 n2 ns F /\ at_walls_x1 n1 n2 ns (fun e p => F e p = if (v =? 1)%nat then dry_pressure p0 Rd cpd cvd (in_memory n1 n2 (2 * ns) q1 3 e p) else 0).
Proof. exact (plane_cpp_x1 n1 n2 ns q1 q2 f v). Qed.
Print Assumptions C46_plane_compiled_x1.
Theorem C46_plane_compiled_x2 n1 n2 ns q1 q2 f v : (v < 4)%nat -> let F := in_memory n1 n2 (2 * ns) (snd (riemann_eulercartesian_ausm_2d q1 q2 n1 n2 ns f)) v in
  single_valued_x2 n1 n2 ns F /\ at_walls_x2 n1 n2 ns (fun e p => F e p = if (v =? 2)%nat then dry_pressure p0 Rd cpd cvd (in_memory n1 n2 (2 * ns) q2 3 e p) else 0).
Proof. exact (plane_cpp_x2 n1 n2 ns q1 q2 f v). Qed.
Print Assumptions C46_plane_compiled_x2.
Theorem C46_finite_volumes n d var pres flux v : single_valued n 1 (ausm_2d_fv n d var pres flux v) /\ single_valued n 1 (upwind_2d_fv n d var flux v) /\ single_valued n 1 (rusanov_2d_fv n d var pres flux v).
Proof. exact (conj (ausm_fv_single n d var pres flux v) (conj (upwind_fv_single n d var flux v) (rusanov_fv_single n d var pres flux v))). Qed.
Print Assumptions C46_finite_volumes.
(** Euler on the cubed sphere. The flux of vertical momentum is stored in two parts, the second divided by the pressure of its own side *)
Theorem C46_sphere n m d advection_only vel q pres sqrtG h_contra flux wa wp v :
  let '(f, a, p) := rusanov_3d_new n m d advection_only vel q pres sqrtG h_contra flux wa wp in
  single_valued n m (f v) /\ single_valued n m a /\
  ((forall e k, (S e < n)%nat -> (k < m)%nat -> pres e (m + k)%nat <> 0 /\ pres (S e) k <> 0) -> single_valued n m (fun e k => p e k * pres e k)).
Proof. exact (conj (sphere_single n m d advection_only vel q pres sqrtG h_contra flux wa wp v) (conj (sphere_adv_single n m d advection_only vel q pres sqrtG h_contra flux wa wp) (sphere_pres_single n m d advection_only vel q pres sqrtG h_contra flux wa wp))). Qed.
Print Assumptions C46_sphere.
(** no mass, heat or tracer goes through the ground or the lid *)
Theorem C46_ground n m q old advection_only pres sqrtG h_contra flux wa wp v k : (3 <= n)%nat -> (k < m)%nat -> (v = 0 \/ 4 <= v)%nat -> sqrtG 0%nat (m + k)%nat = sqrtG 1%nat k ->
  let s := column_states n m q old in
  fst (fst (rusanov_3d_new n m 2 advection_only (column_velocity n m s) s pres sqrtG h_contra flux wa wp)) v 1%nat k = 0.
Proof. exact (no_flow_ground n m q old advection_only pres sqrtG h_contra flux wa wp v k). Qed.
Print Assumptions C46_ground.
Theorem C46_lid n m q old advection_only pres sqrtG h_contra flux wa wp v k : (3 <= n)%nat -> (k < m)%nat -> (v = 0 \/ 4 <= v)%nat -> sqrtG (n - 2)%nat (m + k)%nat = sqrtG (S (n - 2)) k ->
  let s := column_states n m q old in
  fst (fst (rusanov_3d_new n m 2 advection_only (column_velocity n m s) s pres sqrtG h_contra flux wa wp)) v (n - 2)%nat (m + k)%nat = 0.
Proof. exact (no_flow_lid n m q old advection_only pres sqrtG h_contra flux wa wp v k). Qed.
Print Assumptions C46_lid.
(** two elements, water at rest: the pressure of the water *)
Example C46_example : let q := fun (c : nat) (e p : nat) => match c with 0%nat => 1 | _ => 0 end in
  single_valued 2 1 (sw_flux_x1_itf 2 1 q (fun _ _ => 1) (fun _ _ => 1) (fun _ _ => 0) 1) /\ sw_flux_x1_itf 2 1 q (fun _ _ => 1) (fun _ _ => 1) (fun _ _ => 0) 1 0%nat 1%nat = 1 / 2 * gravity.
Proof.
  cbv zeta. split; [apply C46_shallow_water; exact (fun _ _ => 0)|].
  pose proof (sw_value_x1 2 1 (fun (c : nat) (e p : nat) => match c with 0%nat => 1 | _ => 0 end) (fun _ _ => 1) (fun _ _ => 1) (fun _ _ => 0) 1 0 0) as E. cbv zeta beta iota in E. rewrite ausm_same in E. change (1 + 0)%nat with 1%nat in E. rewrite E by lia. ring.
Qed.

(** ** C47: with the same state on both sides the flux is the physical one *)
Theorem C47_shallow_water n m q sqrtG (H : nat -> nat -> face) v e p : (S e < n)%nat -> (p < m)%nat -> (v < 3)%nat ->
  (forall c, (c < 3)%nat -> q c e (m + p)%nat = q c (S e) p) -> sqrtG e (m + p)%nat = sqrtG (S e) p -> (forall a b, (a < 2)%nat -> (b < 2)%nat -> H a b e (m + p)%nat = H a b (S e) p) ->
  0 < q 0%nat (S e) p -> 0 < H 0%nat 0%nat (S e) p -> 0 < H 1%nat 1%nat (S e) p ->
  let physical := fun d => shallow_water_flux gravity (sqrtG (S e) p) (fun a b => H a b (S e) p) d (q 0%nat (S e) p) (fun c => q (S c) (S e) p) v in
  sw_flux_x1_itf n m q sqrtG (H 0 0)%nat (H 1 0)%nat v (S e) p = physical 0%nat /\ sw_flux_x2_itf n m q sqrtG (H 0 1)%nat (H 1 1)%nat v (S e) p = physical 1%nat.
Proof. exact (sw_physical n m q sqrtG H v e p). Qed.
Print Assumptions C47_shallow_water.
Theorem C47_shallow_water_points sqrtG (H : nat -> nat -> R) h hu v : (v < 3)%nat ->
  sw_flux_x1 sqrtG (H 0 0)%nat (H 1 0)%nat h (hu 0%nat) (hu 1%nat) v = shallow_water_flux gravity sqrtG H 0 h hu v /\
  sw_flux_x2 sqrtG (H 0 1)%nat (H 1 1)%nat h (hu 0%nat) (hu 1%nat) v = shallow_water_flux gravity sqrtG H 1 h hu v.
Proof. exact (sw_points sqrtG H h hu v). Qed.
Print Assumptions C47_shallow_water_points.
(** Euler on a plane: the flux at the points is physical (dir: vertical) *)
Theorem C47_plane_points q dir v : (v < 4)%nat -> q 0%nat <> 0 -> pointwise_kernel q dir v = euler_plane_flux (dry_pressure p0 Rd cpd cvd (q 3%nat)) (axis dir) q v.
Proof. exact (plane_points_cpp q dir v). Qed.
Print Assumptions C47_plane_points.
(** the flux at the interfaces is, but for the normal momentum, whose advection is missing *)
Theorem C47_plane_partial q dir v : (v < 4)%nat -> 0 < q 0%nat ->
  riemann_kernel q q dir v = euler_plane_flux (dry_pressure p0 Rd cpd cvd (q 3%nat)) (axis dir) q v - (if (v =? S (axis dir))%nat then q v * (q v / q 0%nat) else 0).
Proof. exact (plane_faces_cpp q dir v). Qed.
Print Assumptions C47_plane_partial.
Theorem C47_plane_refuted : ~ (forall q dir v, (v < 4)%nat -> 0 < q 0%nat -> riemann_kernel q q dir v = euler_plane_flux (dry_pressure p0 Rd cpd cvd (q 3%nat)) (axis dir) q v).
Proof. exact (fun H => moving_wrong (H moving_air false 1%nat ltac:(lia) ltac:(cbn; lra))). Qed.
Print Assumptions C47_plane_refuted.
(** the Python version has the same gap *)
Theorem C47_plane_python_x1_partial nx nz ns q empty i j k v : (i < nz)%nat -> (j + 1 < nx)%nat -> (k < ns)%nat -> (v < 4)%nat ->
  (forall c, (c < 4)%nat -> q c (i * nx + j)%nat (ns + k)%nat = q c (i * nx + (j + 1))%nat k) -> let s := fun c => q c (i * nx + (j + 1))%nat k in 0 < s 0%nat ->
  bubble_common_flux_x nx nz ns q empty v (i * nx + (j + 1))%nat k = euler_plane_flux (dry_pressure p0 Rd cpd cvd (s 3%nat)) 0 s v - (if (v =? 1)%nat then s v * (s v / s 0%nat) else 0).
Proof. exact (python_faces_x1 nx nz ns q empty i j k v). Qed.
Print Assumptions C47_plane_python_x1_partial.
Theorem C47_plane_python_x2_partial nx nz ns q empty i j k v : (i + 1 < nz)%nat -> (j < nx)%nat -> (k < ns)%nat -> (v < 4)%nat ->
  (forall c, (c < 4)%nat -> q c (i * nx + j)%nat (ns + k)%nat = q c ((i + 1) * nx + j)%nat k) -> let s := fun c => q c ((i + 1) * nx + j)%nat k in 0 < s 0%nat ->
  bubble_common_flux_z nx nz ns q empty v ((i + 1) * nx + j)%nat k = euler_plane_flux (dry_pressure p0 Rd cpd cvd (s 3%nat)) 1 s v - (if (v =? 2)%nat then s v * (s v / s 0%nat) else 0).
Proof. exact (python_faces_x2 nx nz ns q empty i j k v). Qed.
Print Assumptions C47_plane_python_x2_partial.
(** finite volumes: [d] is the component of the normal momentum *)
Theorem C47_finite_volumes n d var pres flux v e : (S e < n)%nat -> (v < 4)%nat -> (d < 4)%nat -> (forall c, (c < 4)%nat -> var c e 1%nat = var c (S e) 0%nat) -> pres e 1%nat = pres (S e) 0%nat ->
  0 < var 0%nat (S e) 0%nat -> 0 < pres (S e) 0%nat -> flux v e 1%nat = flux v (S e) 0%nat ->
  ausm_2d_fv n d var pres flux v (S e) 0%nat = var v (S e) 0%nat * (var d (S e) 0%nat / var 0%nat (S e) 0%nat) + (if (v =? d)%nat then pres (S e) 0%nat else 0) /\
  upwind_2d_fv n d var flux v (S e) 0%nat = flux v (S e) 0%nat /\ rusanov_2d_fv n d var pres flux v (S e) 0%nat = flux v (S e) 0%nat.
Proof.
  exact (fun He Hv Hd Hq Hp Hr Hpp Hf => conj (ausm_fv_consistent n d var pres flux v e He Hq Hp Hr Hpp Hv Hd) (conj (upwind_fv_consistent n d var flux v e He Hf) (rusanov_fv_consistent n d var pres flux v e He Hf (Hq v Hv)))).
Qed.
Print Assumptions C47_finite_volumes.
(** the upwind flux is that of the side the flow comes from *)
Theorem C47_upwind n d var flux v e : (S e < n)%nat ->
  (0 < var d e 1%nat + var d (S e) 0%nat -> upwind_2d_fv n d var flux v (S e) 0%nat = flux v e 1%nat) /\
  (var d e 1%nat + var d (S e) 0%nat <= 0 -> upwind_2d_fv n d var flux v (S e) 0%nat = flux v (S e) 0%nat).
Proof. exact (upwind_fv_side n d var flux v e). Qed.
Print Assumptions C47_upwind.
Theorem C47_sphere n m d advection_only vel q pres sqrtG h_contra flux wa wp v e p : (S e < n)%nat -> (p < m)%nat ->
  q v e (m + p)%nat = q v (S e) p -> vel e (m + p)%nat = vel (S e) p -> pres e (m + p)%nat = pres (S e) p -> sqrtG e (m + p)%nat = sqrtG (S e) p -> (forall c, (c < 3)%nat -> h_contra d c e (m + p)%nat = h_contra d c (S e) p) ->
  vel (S e) p = q (S d) (S e) p / q 0%nat (S e) p ->
  fst (fst (rusanov_3d_new n m d advection_only vel q pres sqrtG h_contra flux wa wp)) v (S e) p = euler_sphere_flux (pres (S e) p) (sqrtG (S e) p) (fun a b => h_contra a b (S e) p) d (fun c => q c (S e) p) v.
Proof. exact (sphere_consistent n m d advection_only vel q pres sqrtG h_contra flux wa wp v e p). Qed.
Print Assumptions C47_sphere.
Theorem C47_sphere_points d sqrtG h q v : pointwise_3d d sqrtG h q v = euler_sphere_flux (dry_pressure p0 Rd cpd cvd (q 4%nat)) sqrtG h d q v.
Proof. exact (sphere_points d sqrtG h q v). Qed.
Print Assumptions C47_sphere_points.
(** the two parts of the flux of vertical momentum add up to it, at the points and on both sides of each interface *)
Theorem C47_sphere_parts n m d advection_only vel q pres sqrtG h_contra flux wa wp :
  (forall e p, (S e < n)%nat -> (p < m)%nat -> pres e (m + p)%nat <> 0 /\ pres (S e) p <> 0) -> let '(f, a, b) := rusanov_3d_new n m d advection_only vel q pres sqrtG h_contra flux wa wp in
  forall e p, (S e < n)%nat -> (p < m)%nat -> a e (m + p)%nat + b e (m + p)%nat * pres e (m + p)%nat = f 3%nat e (m + p)%nat /\ a (S e) p + b (S e) p * pres (S e) p = f 3%nat (S e) p.
Proof. exact (sphere_split n m d advection_only vel q pres sqrtG h_contra flux wa wp). Qed.
Print Assumptions C47_sphere_parts.
Theorem C47_sphere_parts_points d sqrtG h q : wflux_adv_3d d sqrtG q + wflux_pres_3d d sqrtG h * pressure_3d q = pointwise_3d d sqrtG h q 3%nat.
Proof. exact (sphere_points_split d sqrtG h q). Qed.
Print Assumptions C47_sphere_parts_points.
(** water moving to the right *)
Example C47_example : let q := fun (c : nat) (e p : nat) => match c with 0%nat => 2 | 1%nat => 6 | _ => 4 end in let H := fun (a b e p : nat) => if (a =? b)%nat then 1 else 0 in
  sw_flux_x1_itf 2 1 q (fun _ _ => 1) (H 0 0)%nat (H 1 0)%nat 2 1%nat 0%nat = 12.
Proof.
  cbv zeta. edestruct (C47_shallow_water 2 1 (fun (c : nat) (e p : nat) => match c with 0%nat => 2 | 1%nat => 6 | _ => 4 end) (fun _ _ => 1) (fun (a b e p : nat) => if (a =? b)%nat then 1 else 0) 2 0 0) as [-> _]; try lia; try reflexivity; cbn; try lra.
Qed.

(** ** C61: the compiled version and the Python version of Euler on a plane agree *)
Theorem C61_points n1 n2 np q f v e p : (e < n1 * n2)%nat -> (p < np)%nat -> (v < 4)%nat ->
  let Q := fun c => in_memory n1 n2 np q c e p in
  in_memory n1 n2 np (fst (pointwise_eulercartesian_2d q n1 n2 np f)) v e p = bubble_flux_x1 (Q 0%nat) (Q 1%nat) (Q 2%nat) (Q 3%nat) v /\
  in_memory n1 n2 np (snd (pointwise_eulercartesian_2d q n1 n2 np f)) v e p = bubble_flux_x3 (Q 0%nat) (Q 1%nat) (Q 2%nat) (Q 3%nat) v.
Proof. exact (cpp_python_points n1 n2 np q f v e p). Qed.
Print Assumptions C61_points.
Theorem C61_faces_x1 n1 n2 ns q1 q2 f empty v e p : (e < n1 * n2)%nat -> (p < 2 * ns)%nat -> (v < 4)%nat ->
  in_memory n1 n2 (2 * ns) (fst (riemann_eulercartesian_ausm_2d q1 q2 n1 n2 ns f)) v e p = bubble_common_flux_x n1 n2 ns (in_memory n1 n2 (2 * ns) q1) empty v e p.
Proof. exact (cpp_python_x1 n1 n2 ns q1 q2 f empty v e p). Qed.
Print Assumptions C61_faces_x1.
Theorem C61_faces_x2 n1 n2 ns q1 q2 f empty v e p : (e < n1 * n2)%nat -> (p < 2 * ns)%nat -> (v < 4)%nat ->
  in_memory n1 n2 (2 * ns) (snd (riemann_eulercartesian_ausm_2d q1 q2 n1 n2 ns f)) v e p = bubble_common_flux_z n1 n2 ns (in_memory n1 n2 (2 * ns) q2) empty v e p.
Proof. exact (cpp_python_x2 n1 n2 ns q1 q2 f empty v e p). Qed.
Print Assumptions C61_faces_x2.
(** the array of a uniform state at rest: one element, one point per side *)
Example C61_example : let q := fun a : nat => match a with 0%nat | 1%nat => 1 | 6%nat | 7%nat => 300 | _ => 0 end in
  in_memory 1 1 2 (fst (riemann_eulercartesian_ausm_2d q q 1 1 1 (q, q))) 1 0%nat 0%nat = dry_pressure p0 Rd cpd cvd 300.
Proof. cbv zeta. rewrite (C61_faces_x1 1 1 1 _ _ _ (fun _ => zeros)) by lia. destruct (proj2 (C46_plane_x1 1 1 1 (in_memory 1 1 2 (fun a : nat => match a with 0%nat | 1%nat => 1 | 6%nat | 7%nat => 300 | _ => 0 end)) (fun _ => zeros) 1) 0%nat 0%nat) as [E _]; [lia..|]. exact E. Qed.

(** ** C64: forcing of the Euler equations on the cubed sphere *)
(** both versions compute 2 rho Gamma^a_0j u^j + Gamma^a_ij (rho u^i u^j + H^ij p); the symbols are stored in the order 01, 02, 03, 11, 12, 13, 22, 23, 33 *)
Theorem C64_formula q p h christoffel a (H : nat -> nat -> R) (G0 : nat -> R) (G : nat -> nat -> R) :
  (forall i j, H i j = H j i) -> (forall i j, G i j = G j i) ->
  (forall i j, (i <= j < 3)%nat -> h i j = H i j) ->
  (forall j, (j < 3)%nat -> christoffel a j = G0 j) ->
  christoffel a 3%nat = G 0%nat 0%nat -> christoffel a 4%nat = G 0%nat 1%nat -> christoffel a 5%nat = G 0%nat 2%nat ->
  christoffel a 6%nat = G 1%nat 1%nat -> christoffel a 7%nat = G 1%nat 2%nat -> christoffel a 8%nat = G 2%nat 2%nat ->
  forcing_py q p h christoffel a = christoffel_forcing (q 0%nat) p (fun j => q (S j) / q 0%nat) H G0 G.
Proof. exact (forcing_formula q p h christoffel a H G0 G). Qed.
Print Assumptions C64_formula.
Theorem C64_compiled q pressure h christoffel index stride a : (a < 3)%nat ->
  forcing_cpp q pressure h christoffel index stride a =
  forcing_py (fun c => q (c * stride + index)%nat) (pressure index) (fun i j => h (index + (i * 3 + j) * stride)%nat) (fun i k => christoffel (index + (i * 9 + k) * stride)%nat) a.
Proof. exact (forcing_same q pressure h christoffel index stride a). Qed.
Print Assumptions C64_compiled.
Example C64_example : forcing_py (fun c => match c with 0%nat => 2 | 1%nat => 6 | _ => 0 end) 5 (fun i j => if (i =? j)%nat then 1 else 0) (fun a k => match k with 3%nat => 1 | _ => 0 end) 0 = 2 * 3 * 3 + 5.
Proof. rewrite (C64_formula _ _ _ _ _ (fun i j => if (i =? j)%nat then 1 else 0) (fun _ => 0) (fun i j => match i, j with 0%nat, 0%nat => 1 | _, _ => 0 end)); try reflexivity.
  - unfold christoffel_forcing. cbn. field.
  - intros i j. rewrite Nat.eqb_sym. reflexivity.
  - intros [|i] [|j]; reflexivity.
  - intros [|[|[|j]]] H; try reflexivity; lia.
Qed.
