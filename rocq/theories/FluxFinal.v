(** Fluxes at interfaces: lemmas the theorems refer to. *)
From Coq Require Import Reals Arith List Bool Lia Lra Psatz.
From Verif Require Import FluxModel FluxSpec FluxProofs FluxFaces FluxLoops.
Import ListNotations.
Open Scope R_scope.

Lemma plane_python_x1 nx nz ns q empty v : single_valued_x1 nx nz ns (bubble_common_flux_x nx nz ns q empty v) /\
  at_walls_x1 nx nz ns (fun e p => bubble_common_flux_x nx nz ns q empty v e p = if (v =? 1)%nat then dry_pressure p0 Rd cpd cvd (q 3%nat e p) else 0).
Proof.
  split.
  - intros i j k Hi Hj Hk. destruct (bubble_x_inner nx nz ns q empty i j k v Hi Hj Hk) as [-> ->]. reflexivity.
  - intros i k Hi Hn Hk. rewrite bubble_x_west, bubble_x_east by assumption. split; reflexivity.
Qed.
Lemma plane_python_x2 nx nz ns q empty v : single_valued_x2 nx nz ns (bubble_common_flux_z nx nz ns q empty v) /\
  at_walls_x2 nx nz ns (fun e p => bubble_common_flux_z nx nz ns q empty v e p = if (v =? 2)%nat then dry_pressure p0 Rd cpd cvd (q 3%nat e p) else 0).
Proof.
  split.
  - intros i j k Hi Hj Hk. destruct (bubble_z_inner nx nz ns q empty i j k v Hi Hj Hk) as [-> ->]. reflexivity.
  - intros j k Hn Hj Hk. rewrite bubble_z_ground, bubble_z_lid by assumption. split; reflexivity.
Qed.
Lemma plane_cpp_x1 n1 n2 ns q1 q2 f v : (v < 4)%nat -> let F := in_memory n1 n2 (2 * ns) (fst (riemann_eulercartesian_ausm_2d q1 q2 n1 n2 ns f)) v in
  single_valued_x1 n1 n2 ns F /\ at_walls_x1 n1 n2 ns (fun e p => F e p = if (v =? 1)%nat then dry_pressure p0 Rd cpd cvd (in_memory n1 n2 (2 * ns) q1 3 e p) else 0).
Proof.
  intros Hv F. destruct (plane_python_x1 n1 n2 ns (in_memory n1 n2 (2 * ns) q1) (fun _ => zeros) v) as [A B]. split.
  - intros i j k Hi Hj Hk. unfold F. rewrite !(cpp_python_x1 n1 n2 ns q1 q2 f (fun _ => zeros) v) by nia. apply A; assumption.
  - intros i k Hi Hn Hk. unfold F. rewrite !(cpp_python_x1 n1 n2 ns q1 q2 f (fun _ => zeros) v) by nia. apply B; assumption.
Qed.
Lemma plane_cpp_x2 n1 n2 ns q1 q2 f v : (v < 4)%nat -> let F := in_memory n1 n2 (2 * ns) (snd (riemann_eulercartesian_ausm_2d q1 q2 n1 n2 ns f)) v in
  single_valued_x2 n1 n2 ns F /\ at_walls_x2 n1 n2 ns (fun e p => F e p = if (v =? 2)%nat then dry_pressure p0 Rd cpd cvd (in_memory n1 n2 (2 * ns) q2 3 e p) else 0).
Proof.
  intros Hv F. destruct (plane_python_x2 n1 n2 ns (in_memory n1 n2 (2 * ns) q2) (fun _ => zeros) v) as [A B]. split.
  - intros i j k Hi Hj Hk. unfold F. rewrite !(cpp_python_x2 n1 n2 ns q1 q2 f (fun _ => zeros) v) by nia. apply A; assumption.
  - intros j k Hn Hj Hk. unfold F. rewrite !(cpp_python_x2 n1 n2 ns q1 q2 f (fun _ => zeros) v) by nia. apply B; assumption.
Qed.
(** consistency of the shallow water fluxes *)
Lemma sw_physical n m q sqrtG (H : nat -> nat -> face) v e p : (S e < n)%nat -> (p < m)%nat -> (v < 3)%nat ->
  (forall c, (c < 3)%nat -> q c e (m + p)%nat = q c (S e) p) -> sqrtG e (m + p)%nat = sqrtG (S e) p -> (forall a b, (a < 2)%nat -> (b < 2)%nat -> H a b e (m + p)%nat = H a b (S e) p) ->
  0 < q 0%nat (S e) p -> 0 < H 0%nat 0%nat (S e) p -> 0 < H 1%nat 1%nat (S e) p ->
  let physical := fun d => shallow_water_flux gravity (sqrtG (S e) p) (fun a b => H a b (S e) p) d (q 0%nat (S e) p) (fun c => q (S c) (S e) p) v in
  sw_flux_x1_itf n m q sqrtG (H 0 0)%nat (H 1 0)%nat v (S e) p = physical 0%nat /\ sw_flux_x2_itf n m q sqrtG (H 0 1)%nat (H 1 1)%nat v (S e) p = physical 1%nat.
Proof.
  intros He Hp Hv Hq Hg HH Hh H0 H1. cbv zeta. destruct (sw_points (sqrtG (S e) p) (fun a b => H a b (S e) p) (q 0%nat (S e) p) (fun c => q (S c) (S e) p) v Hv) as [P1 P2].
  rewrite <- P1, <- P2, <- (sw_single_x1 n m q sqrtG (H 0 0)%nat (H 1 0)%nat v e p He Hp), <- (sw_single_x2 n m q sqrtG (H 0 1)%nat (H 1 1)%nat v e p He Hp).
  split; [apply sw_consistent_x1|apply sw_consistent_x2]; try assumption; unfold same_at; apply HH; lia.
Qed.
(** the compiled fluxes: at the points physical; at the faces all but the normal momentum *)
Definition axis (dir : bool) : nat := if dir then 1%nat else 0%nat.
Lemma plane_points_cpp q dir v : (v < 4)%nat -> q 0%nat <> 0 -> pointwise_kernel q dir v = euler_plane_flux (dry_pressure p0 Rd cpd cvd (q 3%nat)) (axis dir) q v.
Proof.
  intros Hv Hr. rewrite cpp_pointwise_kernel by assumption. destruct (plane_points (q 0%nat) (q 1%nat) (q 2%nat) (q 3%nat) v Hv Hr) as [A B].
  destruct dir; [rewrite B|rewrite A]; unfold euler_plane_flux, axis; destruct v as [|[|[|[|v]]]]; try lia; reflexivity.
Qed.
Lemma plane_faces_cpp q dir v : (v < 4)%nat -> 0 < q 0%nat ->
  riemann_kernel q q dir v = euler_plane_flux (dry_pressure p0 Rd cpd cvd (q 3%nat)) (axis dir) q v - (if (v =? S (axis dir))%nat then q v * (q v / q 0%nat) else 0).
Proof.
  intros Hv Hr. rewrite cpp_riemann by assumption. rewrite plane_consistent by assumption. unfold euler_plane_flux, axis. rewrite faces_dry.
  destruct dir; destruct v as [|[|[|[|v]]]]; try lia; cbn [Nat.eqb]; field; lra.
Qed.
Lemma plane_faces_python q d v : (v < 4)%nat -> (d < 2)%nat -> 0 < q 0%nat -> plane_ausm (S d) q q v = euler_plane_flux (dry_pressure p0 Rd cpd cvd (q 3%nat)) d q v - (if (v =? S d)%nat then q v * (q v / q 0%nat) else 0).
Proof.
  intros Hv Hd Hr. rewrite plane_consistent by assumption. unfold euler_plane_flux. rewrite faces_dry. destruct (Nat.eqb_spec v (S d)) as [->|]; field; lra.
Qed.
Definition moving_air : nat -> R := fun v => match v with 0%nat => 1 | 1%nat => 10 | 2%nat => 0 | _ => 300 end.
Lemma moving_wrong : riemann_kernel moving_air moving_air false 1 <> euler_plane_flux (dry_pressure p0 Rd cpd cvd (moving_air 3%nat)) 0 moving_air 1.
Proof. rewrite plane_faces_cpp by (cbn; (lia || lra)). unfold axis. cbn [Nat.eqb]. cbn [moving_air]. lra. Qed.
(** the faces of the Python version with the same state on both sides *)
Lemma python_faces_x1 nx nz ns q empty i j k v : (i < nz)%nat -> (j + 1 < nx)%nat -> (k < ns)%nat -> (v < 4)%nat ->
  (forall c, (c < 4)%nat -> q c (i * nx + j)%nat (ns + k)%nat = q c (i * nx + (j + 1))%nat k) -> let s := fun c => q c (i * nx + (j + 1))%nat k in 0 < s 0%nat ->
  bubble_common_flux_x nx nz ns q empty v (i * nx + (j + 1))%nat k = euler_plane_flux (dry_pressure p0 Rd cpd cvd (s 3%nat)) 0 s v - (if (v =? 1)%nat then s v * (s v / s 0%nat) else 0).
Proof.
  intros Hi Hj Hk Hv E s Hr. destruct (bubble_x_inner nx nz ns q empty i j k v Hi Hj Hk) as [_ ->].
  rewrite <- (plane_faces_python s 0 v Hv ltac:(lia) Hr). unfold plane_ausm, s. rewrite !E by lia. reflexivity.
Qed.
Lemma python_faces_x2 nx nz ns q empty i j k v : (i + 1 < nz)%nat -> (j < nx)%nat -> (k < ns)%nat -> (v < 4)%nat ->
  (forall c, (c < 4)%nat -> q c (i * nx + j)%nat (ns + k)%nat = q c ((i + 1) * nx + j)%nat k) -> let s := fun c => q c ((i + 1) * nx + j)%nat k in 0 < s 0%nat ->
  bubble_common_flux_z nx nz ns q empty v ((i + 1) * nx + j)%nat k = euler_plane_flux (dry_pressure p0 Rd cpd cvd (s 3%nat)) 1 s v - (if (v =? 2)%nat then s v * (s v / s 0%nat) else 0).
Proof.
  intros Hi Hj Hk Hv E s Hr. destruct (bubble_z_inner nx nz ns q empty i j k v Hi Hj Hk) as [_ ->].
  rewrite <- (plane_faces_python s 1 v Hv ltac:(lia) Hr). unfold plane_ausm, s. rewrite !E by lia. reflexivity.
Qed.
(** columns *)
Lemma no_flow_ground n m q old advection_only pres sqrtG h_contra flux wa wp v k : (3 <= n)%nat -> (k < m)%nat -> (v = 0 \/ 4 <= v)%nat -> sqrtG 0%nat (m + k)%nat = sqrtG 1%nat k ->
  let s := column_states n m q old in
  fst (fst (rusanov_3d_new n m 2 advection_only (column_velocity n m s) s pres sqrtG h_contra flux wa wp)) v 1%nat k = 0.
Proof. intros Hn Hk Hv Hg. cbv zeta. rewrite (ground_flux n m q old Hn advection_only pres sqrtG h_contra flux wa wp v k Hk Hg). destruct v as [|[|[|[|v]]]]; try lia; reflexivity. Qed.
Lemma no_flow_lid n m q old advection_only pres sqrtG h_contra flux wa wp v k : (3 <= n)%nat -> (k < m)%nat -> (v = 0 \/ 4 <= v)%nat -> sqrtG (n - 2)%nat (m + k)%nat = sqrtG (S (n - 2)) k ->
  let s := column_states n m q old in
  fst (fst (rusanov_3d_new n m 2 advection_only (column_velocity n m s) s pres sqrtG h_contra flux wa wp)) v (n - 2)%nat (m + k)%nat = 0.
Proof. intros Hn Hk Hv Hg. cbv zeta. rewrite (lid_flux n m q old Hn advection_only pres sqrtG h_contra flux wa wp v k Hk Hg). destruct v as [|[|[|[|v]]]]; try lia; reflexivity. Qed.
