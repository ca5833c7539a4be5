(** C62, the Euler equations on the cubed sphere: conservation of mass and of the density of potential temperature. *)
From Coq Require Import Reals ZArith Arith Lra Lia.
From Verif Require Import TopologyModel TopologySpec SwSpec EulModel EulSpec.
From mathcomp Require Import all_ssreflect all_algebra.
From Verif Require Import RField RhsModel SwRhs QuadModel EulRhs EulIntegral EulGlobal EulEdges.
Delimit Scope R_scope with re.
Delimit Scope Z_scope with zz.
Local Open Scope ring_scope.

(** On any number of processes and any grid, for any state, slopes of the layers, Christoffel symbols and damping of momentum: the total of the tendency of rho (variable 0) and of rho_theta (variable 4) is zero. The layers have positive thickness and radius; in a deep atmosphere the two sides of an edge between tiles see the same heights there *)
Theorem C62_euler_sphere : forall roots k N NZ ns pts ws earth_radius deta deep advection_only geo christoffel damping q v,
  (0 < k)%N -> (0 < N)%N -> (0 < NZ)%N -> (0 < ns <= 5)%N -> gauss_legendre roots ns = Some (pts, ws) -> v = 0%N \/ v = 4%N ->
  deta <> 0%re -> (forall r l row col p, dRdeta_pt geo r l row col p <> 0%re /\ radius0 earth_radius deep (z_pt geo r l row col p) <> 0%re) ->
  (deep = true -> one_height k N ns (fun i => nth R0 pts i) geo) ->
  global_integral_3d k N NZ ns pts ws earth_radius deta deep geo (fun r => euler_rhs k N NZ ns pts earth_radius deta deep advection_only geo christoffel damping q r v) = 0%re.
Proof. exact sphere_euler. Qed.
Print Assumptions C62_euler_sphere.
(** a deep atmosphere of flat layers 1000 m thick over an earth of 6371 km, 24 processes, any state *)
Definition flat_layers (ns : nat) : layers :=
  let pt _ l _ _ p := (1000 * INR l + INR (Nat.div p (Nat.mul ns ns)))%re in let side _ l _ _ p := (1000 * INR l + INR (Nat.div p ns))%re in
  let zero _ _ _ _ _ := 0%re in
  {| z_pt := pt; z_i := side; z_j := side; z_k := fun _ _ _ b _ => (1000 * INR b)%re; s1_pt := zero; s2_pt := zero; s1_i := zero; s2_i := zero; s1_j := zero; s2_j := zero; s1_k := zero; s2_k := zero; dRdeta_pt := fun _ _ _ _ _ => 500%re |}.
Example C62_flat_layers : one_height 2 3 4 (fun i => nth R0 (if gauss_legendre (fun _ => ([::], [::])) 4 is Some (p, _) then p else [::]) i) (flat_layers 4).
Proof.
  exists (fun l z _ => (1000 * INR l + INR z)%re). move=> t l x z _ _ Hz. cbn [flat_layers z_i z_j].
  have E : Nat.div (Nat.add (Nat.mul z 4) (Nat.modulo x 4)) 4 = z. { rewrite Nat.div_add_l // Nat.div_small; [lia|]. by apply: Nat.mod_upper_bound. }
  rewrite E. by [].
Qed.
Example C62_euler_case : forall christoffel damping q, exists pts ws, gauss_legendre (fun _ => ([::], [::])) 4 = Some (pts, ws) /\
  global_integral_3d 2 3 7 4 pts ws 6371000%re (2 / 7)%re true (flat_layers 4) (fun r => euler_rhs 2 3 7 4 pts 6371000%re (2 / 7)%re true false (flat_layers 4) christoffel damping q r 4) = 0%re.
Proof.
  intros christoffel damping q. eexists _, _. split; [reflexivity|]. apply: (@C62_euler_sphere (fun _ => ([::], [::])) 2 3 7 4); try reflexivity; [by right|lra| |by move=> _; exact: C62_flat_layers].
  move=> r l row col p. cbn [flat_layers z_pt dRdeta_pt radius0]. split; first lra. have := pos_INR l. have := pos_INR (Nat.div p (Nat.mul 4 4)). lra.
Qed.
