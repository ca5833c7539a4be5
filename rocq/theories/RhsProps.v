(** C62: conservation by the space discretisation. C65: source terms of the shallow water equations. C66: a fluid at rest. *)
From Coq Require Import Reals ZArith Arith.
From Verif Require Import TopologyModel TopologySpec GeoModel FluxModel FluxSpec SwModel SwSpec SwForcing.
From mathcomp Require Import all_ssreflect all_algebra.
From Verif Require Import RField RhsModel RhsSpec SwRhs RhsFinal QuadModel.
Import GRing.Theory.
Delimit Scope R_scope with re.
Delimit Scope Z_scope with zz.
Local Open Scope ring_scope.

(** Shallow water on the whole sphere, on any number of processes: the sum over all ranks of the integral of the tendency of h, computed as the code computes global integrals, is zero, whatever the state. With topography: when the values at the two sides of the edges of tiles are those of one surface *)
Theorem C62_shallow_water : forall roots k N ns pts ws radius Omega rot topo q,
  (0 < k)%N -> (0 < N)%N -> (0 < ns <= 5)%N -> gauss_legendre roots ns = Some (pts, ws) -> radius <> 0%re ->
  (if topo is Some t then one_surface k N ns (fun i => nth R0 pts i) (hsurf_itf_i t) (hsurf_itf_j t) else True) ->
  global_integral_2d k N ns pts ws radius (fun r => sw_rhs k N ns pts radius Omega rot topo q r 0) = 0%re.
Proof. exact sphere_mass. Qed.
Print Assumptions C62_shallow_water.
(** a surface of constant height is the same seen from every tile *)
Example C62_surface : one_surface 2 3 4 (fun i => nth R0 (if gauss_legendre (fun _ => ([::], [::])) 4 is Some (p, _) then p else [::]) i) (fun _ _ _ _ => 5%re) (fun _ _ _ _ => 5%re).
Proof. exists (fun _ => 5%re). repeat split. Qed.
Example C62_sphere_case : forall radius Omega rot q, radius <> 0%re ->
  exists pts ws, gauss_legendre (fun _ => ([::], [::])) 4 = Some (pts, ws) /\ global_integral_2d 2 3 4 pts ws radius (fun r => sw_rhs 2 3 4 pts radius Omega rot None q r 0) = 0%re.
Proof. intros radius Omega rot q H. eexists _, _. split; [reflexivity|]. by apply: (@C62_shallow_water (fun _ => ([::], [::])) 2 3 4). Qed.
(** Euler on a plane: mass (variable 0) and potential temperature (variable 3) *)
Theorem C62_plane : forall roots n1 n2 ns pts ws dx1 dx3 q f0 g0 v,
  (0 < n1)%N -> (0 < n2)%N -> (0 < ns <= 5)%N -> gauss_legendre roots ns = Some (pts, ws) -> dx1 <> 0%re -> dx3 <> 0%re -> v = 0%N \/ v = 3%N ->
  plane_integral n1 n2 ns (ws : seq R_fieldType) dx1 dx3 (plane_rhs n1 n2 ns pts dx1 dx3 q f0 g0 v) = 0.
Proof. exact plane_mass. Qed.
Print Assumptions C62_plane.
(** momentum changes only by the pressure on the walls and by gravity *)
Theorem C62_plane_momentum : forall roots n1 n2 ns pts ws dx1 dx3 q f0 g0,
  (0 < n1)%N -> (0 < n2)%N -> (0 < ns <= 5)%N -> gauss_legendre roots ns = Some (pts, ws) -> dx1 <> 0%re -> dx3 <> 0%re ->
  let p1 e k := dry_pressure p0 Rd cpd cvd (plane_q_itf_x1 ns pts q 3 e k) in
  let p3 e k := dry_pressure p0 Rd cpd cvd (plane_q_itf_x3 ns pts q 3 e k) in
  let integral f := plane_integral n1 n2 ns (ws : seq R_fieldType) dx1 dx3 f in
  let wall n d f := wall_integral n ns (ws : seq R_fieldType) d f in
  integral (plane_rhs n1 n2 ns pts dx1 dx3 q f0 g0 1) = wall n2 dx3 (fun r k => p1 (r * n1)%N k) - wall n2 dx3 (fun r k => p1 (r * n1 + n1.-1)%N (ns + k)%N) /\
  integral (plane_rhs n1 n2 ns pts dx1 dx3 q f0 g0 2) = wall n1 dx1 (fun c k => p3 c k) - wall n1 dx1 (fun c k => p3 (n2.-1 * n1 + c)%N (ns + k)%N) - gravity * integral (q 0%N).
Proof. exact plane_momentum. Qed.
Print Assumptions C62_plane_momentum.
Example C62_plane_case : forall q f0 g0, exists pts ws, gauss_legendre (fun _ => ([::], [::])) 3 = Some (pts, ws) /\
  plane_integral 5 7 3 (ws : seq R_fieldType) 2%re 3%re (plane_rhs 5 7 3 pts 2%re 3%re q f0 g0 0) = 0.
Proof. intros q f0 g0. eexists _, _. split; [reflexivity|]. apply: (@C62_plane (fun _ => ([::], [::])) 5 7 3); try reflexivity; [exact: not_eq_sym (Rlt_not_eq _ _ Rlt_0_2)|by apply: not_0_IZR|by left]. Qed.

(** The source of momentum, of which the code writes only some terms, is the full covariant one: the terms it leaves out are zero or cancel *)
Theorem C65_source : forall k N ns pts radius q Omega rot dz1 dz2 r a row col p, (1 <= k)%coq_nat -> (1 <= N)%coq_nat -> radius <> 0%re -> (a < 2)%coq_nat ->
  let X := X_pt k N ns pts r row col p in let Y := Y_pt k N ns pts r row col p in
  let G := fun i j => sym_at (if Nat.eqb a 0 then christoffel_1 (dx k N) (dx k N) X Y else christoffel_2 (dx k N) (dx k N) X Y) i j in
  let G0 := fun j => match a, j with 0%N, 0%N => christoffel_1_01 (rot r) Omega X Y | 0%N, _ => christoffel_1_02 (rot r) Omega X Y | _, 0%N => christoffel_2_01 (rot r) Omega X Y | _, _ => christoffel_2_02 (rot r) Omega X Y end in
  forcing k N ns pts radius q Omega rot dz1 dz2 r (S a) row col p =
  covariant_source gravity (q r 0%N row col p) (fun j => q r (S j) row col p) (fun j => match j with 0%N => dz1 r row col p | _ => dz2 r row col p end) (sym_at (H_contra radius (dx k N) (dx k N) X Y)) G0 G a.
Proof. exact forcing_source. Qed.
Print Assumptions C65_source.
(** and mass has no source *)
Theorem C65_mass : forall k N ns pts radius q Omega rot dz1 dz2 r row col p, forcing k N ns pts radius q Omega rot dz1 dz2 r 0 row col p = 0%re.
Proof. reflexivity. Qed.
Print Assumptions C65_mass.
(** and the points X, Y at which these are taken are those of the equiangular grid: point i of a row and j of a column *)
Theorem C65_points : forall k N ns pts t row col i j, (1 <= k)%coq_nat -> (1 <= N)%coq_nat -> tile_ok (Z.of_nat k) t -> (i < ns)%coq_nat ->
  X_pt k N ns pts (rank_of_tile (Z.of_nat k) t) row col (j * ns + i)%coq_nat = pt (sphere_grid k N ns pts) (TopologySpec.col t) (col * ns + i)%coq_nat /\
  Y_pt k N ns pts (rank_of_tile (Z.of_nat k) t) row col (j * ns + i)%coq_nat = pt (sphere_grid k N ns pts) (TopologySpec.row t) (row * ns + j)%coq_nat.
Proof. exact point_place. Qed.
Print Assumptions C65_points.
(** without wind only the slope of the ground is left *)
Example C65_case : forall Omega rot slope, let q := fun (_ : Z) (v : nat) (_ _ _ : nat) => if v is 0%N then 2%re else 0%re in
  let pts := fun _ : nat => 0%re in let X := X_pt 2 3 4 pts 7%zz 0 1 5 in let Y := Y_pt 2 3 4 pts 7%zz 0 1 5 in
  forcing 2 3 4 pts 6371000%re q Omega rot (fun _ _ _ _ => slope) (fun _ _ _ _ => 0%re) 7%zz 1 0 1 5 =
  (gravity * 2 * (sym_at (H_contra 6371000 (dx 2 3) (dx 2 3) X Y) 0 0 * slope))%re.
Proof.
  intros. unfold forcing, H_pt, q. cbn [sym_at]. fold X Y. unfold Rdiv. ring.
Qed.
Example C65_hyps : (1 <= 2)%coq_nat /\ (1 <= 3)%coq_nat /\ 6371000%re <> 0%re /\ (0 < 2)%coq_nat.
Proof. repeat split; try by apply/leP. by apply: not_0_IZR. Qed.

(** Without wind the depth does not change, at any point, whatever the depth and the topography *)
Theorem C66_rest : forall roots k N ns pts ws radius Omega rot topo q r row col p, (0 < k)%N -> (0 < N)%N -> (0 < ns <= 5)%N -> gauss_legendre roots ns = Some (pts, ws) ->
  (forall r row col p, q r 1%N row col p = 0%re /\ q r 2%N row col p = 0%re) -> (0 <= r < 6 * Z.of_nat k * Z.of_nat k)%zz -> (row < N)%N -> (col < N)%N ->
  sw_rhs k N ns pts radius Omega rot topo q r 0 row col p = 0%re.
Proof. exact sphere_rest. Qed.
Print Assumptions C66_rest.
Example C66_case : forall depth, exists pts ws, gauss_legendre (fun _ => ([::], [::])) 2 = Some (pts, ws) /\
  sw_rhs 2 3 2 pts 1%re 1%re (fun _ => {| lon_p := 0; lat_p := 0; angle_p := 0 |}%re) None (fun r v row col p => if v is 0%N then depth r row col p else 0%re) 17%zz 0 2 1 3 = 0%re.
Proof. intros depth. eexists _, _. split; [reflexivity|]. by apply: (@C66_rest (fun _ => ([::], [::])) 2 3 2). Qed.
