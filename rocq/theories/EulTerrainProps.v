(** C86: the layers over a terrain. C84 from the terrain on. *)
From Coq Require Import Reals ZArith Lia Lra Arith.
From Verif Require Import TopologyModel TopologySpec GeoModel SwModel SwSpec EulModel StepModel FieldSpace3 EulCutSpec EulRestSpec.
From mathcomp Require Import all_ssreflect all_algebra.
From Verif Require Import RField RNum OpModel RhsModel SwRhs SwCutSpec EulRhs EulSteps EulSymbols EulQuietCases EulSlopes EulSlopeSpec EulSlopePar EulTerrain EulTerrainSpec EulTerrainAll EulTerrainCases.
Delimit Scope R_scope with re.
Delimit Scope Z_scope with zz.

(** ** C86 *)
(** The lowest interface is the terrain and the highest is level; the points of a layer lie between its two interfaces, in order. Point z ns^2 + q of an element lies above point q of the floor *)
Theorem C86_levels : forall NZ pts ztop T r row col q, (0 < NZ)%coq_nat -> (q < size pts * size pts)%N -> let H := heights_of NZ (size pts) pts ztop T in
  hz_k H r row col 0%N q = zb_pt T r row col q /\ hz_k H r row col NZ q = ztop /\
  ((zb_pt T r row col q < ztop)%re -> inner pts -> increasing pts -> forall l,
   (forall z, (z < size pts)%N -> (hz_k H r row col l q < hz_pt H r l row col (z * (size pts * size pts) + q)%N)%re /\ (hz_pt H r l row col (z * (size pts * size pts) + q)%N < hz_k H r row col l.+1 q)%re) /\
   (forall z z', (z < z')%N -> (z' < size pts)%N -> (hz_pt H r l row col (z * (size pts * size pts) + q)%N < hz_pt H r l row col (z' * (size pts * size pts) + q)%N)%re)).
Proof. intros NZ pts ztop T r row col q HZ Hq H. exact (conj (bottom _ _ _ _ _ _ _ _) (conj (top _ _ _ _ _ _ HZ _) (fun Hb I1 I2 l => conj (fun z Hz => levels HZ Hq Hb l Hz I1) (fun z z' H1 H2 => level_order HZ Hq Hb l H1 H2 I2)))). Qed.
Print Assumptions C86_levels.
(** the derivative of the height along eta is the distance from the terrain to the top, exactly, whatever the terrain *)
Theorem C86_thickness : forall k N NZ (pts : seq R) ztop T, (0 < NZ)%coq_nat -> (0 < size pts)%N -> uniq (extension (pts : seq R_fieldType)) ->
  everywhere k N NZ (size pts) (fun r l row col p => dRdeta_pt (layers_of k N NZ (size pts) pts (delta_eta NZ) (heights_of NZ (size pts) pts ztop T)) r l row col p = (ztop - zb_pt T r row col (p %% (size pts * size pts)))%re).
Proof. intros k N NZ pts ztop T HZ Hn U. exact (thickness_all (k:=k) (N:=N) ztop T HZ Hn U). Qed.
Print Assumptions C86_thickness.
(** a terrain that is a polynomial of degree up to ns + 1 along a line of an element: its slope is that of the polynomial, and decreases to zero towards the top *)
Theorem C86_slopes : forall k N NZ pts ztop T r l row col z y x (P : {poly R_numFieldType}), (0 < NZ)%coq_nat -> uniq (extension (pts : seq R_fieldType)) -> (z < size pts)%N -> (y < size pts)%N -> (x < size pts)%N -> (size P <= (size pts).+2)%N ->
  let geo := layers_of k N NZ (size pts) pts (delta_eta NZ) (heights_of NZ (size pts) pts ztop T) in
  (polynomial_x1 (size pts) pts T r row col y P -> s1_pt geo r l row col ((z * size pts + y) * size pts + x)%N = ((1 - eta_level NZ pts l z) * (P^`()%R).[nth R0 pts x]%R * 2 / SwModel.dx k N)%re) /\
  (polynomial_x2 (size pts) pts T r row col x P -> s2_pt geo r l row col ((z * size pts + y) * size pts + x)%N = ((1 - eta_level NZ pts l z) * (P^`()%R).[nth R0 pts y]%R * 2 / SwModel.dx k N)%re).
Proof. intros k N NZ pts ztop T r l row col z y x P HZ U Hz Hy Hx SP geo. exact (conj (slopes_x1 k N ztop HZ U l Hz Hy Hx SP) (slopes_x2 k N ztop HZ U l Hz Hy Hx SP)). Qed.
Print Assumptions C86_slopes.
(** without mountains the layers are level, at the points and at all the interfaces, also those between tiles and panels *)
Theorem C86_level : forall k N NZ pts ztop c T, (0 < k)%coq_nat -> (0 < N)%coq_nat -> (0 < NZ)%coq_nat -> (0 < size pts)%N -> uniq (extension (pts : seq R_fieldType)) -> flat k N (size pts) c T -> let ns := size pts in
  let geo := layers_of k N NZ ns pts (delta_eta NZ) (heights_of NZ ns pts ztop T) in
  everywhere k N NZ ns (fun r l row col p => s1_pt geo r l row col p = 0%re /\ s2_pt geo r l row col p = 0%re /\ dRdeta_pt geo r l row col p = (ztop - c)%re) /\
  forall r, is_rank k r ->
  (forall l row b p, (l < NZ)%coq_nat -> (row < N)%coq_nat -> (b <= N)%coq_nat -> (p < (ns * ns)%coq_nat)%coq_nat -> s1_i geo r l row b p = 0%re /\ s2_i geo r l row b p = 0%re /\ dRdeta_itf_i k N ns (eta_itf_i ns pts geo) (eta_itf_j ns pts geo) r l row b p = (ztop - c)%re) /\
  (forall l col b p, (l < NZ)%coq_nat -> (col < N)%coq_nat -> (b <= N)%coq_nat -> (p < (ns * ns)%coq_nat)%coq_nat -> s1_j geo r l col b p = 0%re /\ s2_j geo r l col b p = 0%re /\ dRdeta_itf_j k N ns (eta_itf_i ns pts geo) (eta_itf_j ns pts geo) r l col b p = (ztop - c)%re) /\
  (forall row col b p, (row < N)%coq_nat -> (col < N)%coq_nat -> (b <= NZ)%coq_nat -> (p < (ns * ns)%coq_nat)%coq_nat -> s1_k geo r row col b p = 0%re /\ s2_k geo r row col b p = 0%re /\ dRdeta_itf_k NZ ns (eta_itf_k ns pts geo) r row col b p = (ztop - c)%re).
Proof. intros k N NZ pts ztop c T Hk HN HZ Hn U HT ns geo. exact (conj (level_points ztop Hk HN HZ Hn U HT) (fun r Hr => level_faces ztop Hk HN HZ Hn U HT Hr)). Qed.
Print Assumptions C86_level.
(** so horizontal and vertical directions are orthogonal there *)
Theorem C86_metric : forall k N NZ pts earth_radius ztop c deep T, (0 < k)%coq_nat -> (0 < N)%coq_nat -> (0 < NZ)%coq_nat -> (0 < size pts)%N -> uniq (extension (pts : seq R_fieldType)) -> inner pts -> (0 < earth_radius)%re -> (0 <= c < ztop)%re -> flat k N (size pts) c T ->
  let geo := layers_of k N NZ (size pts) pts (delta_eta NZ) (heights_of NZ (size pts) pts ztop T) in let h := hc k N (size pts) pts earth_radius (delta_eta NZ) deep geo in
  everywhere k N NZ (size pts) (fun r l row col p => h r l row col p 0%N 2%N = 0%re /\ h r l row col p 1%N 2%N = 0%re /\ h r l row col p 2%N 2%N = ((2 / (delta_eta NZ * (ztop - c))) ^ 2)%re).
Proof. exact flat_metric. Qed.
Print Assumptions C86_metric.
Example C86_case : uniq (extension (case_pts : seq R_fieldType)) /\ inner case_pts /\ increasing case_pts /\ below 2 3 (size case_pts) 30000%re case_terrain /\
  (forall r row col y, (y < 2)%N -> exists P : {poly R_numFieldType}, (size P <= 2)%N /\ polynomial_x1 2 case_pts case_terrain r row col y P) /\
  s1_pt (layers_of 2 3 5 2 case_pts (delta_eta 5) (heights_of 5 2 case_pts 30000%re case_terrain)) 3%zz 0%N 2%N 1%N 4%N <> 0%re.
Proof. exact case_terrain_holds. Qed.
Example C86_flat_case : flat 2 3 2 0%re {| zb_pt := fun _ _ _ _ => 0%re; zb_i := fun _ _ _ _ => 0%re; zb_j := fun _ _ _ _ => 0%re |}.
Proof. repeat split. Qed.

(** ** C84 *)
(** the slopes the program computes from the heights do not depend on the number of processes *)
Theorem C84_slopes : forall k N NZ ns pts deta H H', (0 < k)%coq_nat -> (0 < N)%coq_nat -> (0 < NZ)%coq_nat -> (0 < ns)%coq_nat -> same_heights k N NZ ns H H' ->
  same_layers k N NZ ns (layers_of k N NZ ns pts deta H) (layers_of 1 (k * N)%coq_nat NZ ns pts deta H').
Proof. intros k N NZ ns pts deta H H' Hk HN HZ Hns E. exact (layers_cut pts deta Hk HN HZ Hns E). Qed.
Print Assumptions C84_slopes.
(** a run that starts from a terrain, cut into tiles or not: heights, slopes and Christoffel symbols (those of the metric and those of the rotation) are those the program computes from it *)
Theorem C84_terrain : forall k N NZ pts earth_radius ztop Omega deep advection_only rot T T' christoffel christoffel' damping damping' q q', (0 < k)%coq_nat -> (0 < N)%coq_nat -> (0 < NZ)%coq_nat -> (0 < size pts)%N ->
  uniq (extension (pts : seq R_fieldType)) -> inner pts -> (0 < earth_radius)%re -> below k N (size pts) ztop T -> same_terrain k N (size pts) T T' -> let ns := size pts in let deta := delta_eta NZ in
  let geo := layers_of k N NZ ns pts deta (heights_of NZ ns pts ztop T) in let geo' := layers_of 1 (k * N)%coq_nat NZ ns pts deta (heights_of NZ ns pts ztop T') in
  numeric_symbols k N NZ ns pts earth_radius deta deep geo christoffel -> rotation_symbols k N NZ ns pts earth_radius deta Omega deep (cut_rotation k rot) geo christoffel ->
  numeric_symbols 1 (k * N)%coq_nat NZ ns pts earth_radius deta deep geo' christoffel' -> rotation_symbols 1 (k * N)%coq_nat NZ ns pts earth_radius deta Omega deep rot geo' christoffel' ->
  same_state3 k N NZ ns damping damping' -> same_state3 k N NZ ns q q' ->
  same_state3 k N NZ ns (euler_rhs k N NZ ns pts earth_radius deta deep advection_only geo christoffel damping q) (euler_rhs 1 (k * N)%coq_nat NZ ns pts earth_radius deta deep advection_only geo' christoffel' damping' q').
Proof. exact terrain_rhs. Qed.
Print Assumptions C84_terrain.
Theorem C84_terrain_steps : forall k N NZ pts earth_radius ztop Omega deep advection_only rot T T' christoffel christoffel' (damping damping' : states3 -> states3) dt n q q', (0 < k)%coq_nat -> (0 < N)%coq_nat -> (0 < NZ)%coq_nat -> (0 < size pts)%N ->
  uniq (extension (pts : seq R_fieldType)) -> inner pts -> (0 < earth_radius)%re -> below k N (size pts) ztop T -> same_terrain k N (size pts) T T' -> let ns := size pts in let deta := delta_eta NZ in
  let geo := layers_of k N NZ ns pts deta (heights_of NZ ns pts ztop T) in let geo' := layers_of 1 (k * N)%coq_nat NZ ns pts deta (heights_of NZ ns pts ztop T') in
  numeric_symbols k N NZ ns pts earth_radius deta deep geo christoffel -> rotation_symbols k N NZ ns pts earth_radius deta Omega deep (cut_rotation k rot) geo christoffel ->
  numeric_symbols 1 (k * N)%coq_nat NZ ns pts earth_radius deta deep geo' christoffel' -> rotation_symbols 1 (k * N)%coq_nat NZ ns pts earth_radius deta Omega deep rot geo' christoffel' ->
  (forall u w, same_state3 k N NZ ns u w -> same_state3 k N NZ ns (damping u) (damping' w)) -> same_state3 k N NZ ns q q' ->
  let f : states3 -> states3 := fun q => euler_rhs k N NZ ns pts earth_radius deta deep advection_only geo christoffel (damping q) q in
  let g : states3 -> states3 := fun q => euler_rhs 1 (k * N)%coq_nat NZ ns pts earth_radius deta deep advection_only geo' christoffel' (damping' q) q in
  same_state3 k N NZ ns (Nat.iter n (fun q => euler1 f q dt) q) (Nat.iter n (fun q => euler1 g q dt) q') /\
  same_state3 k N NZ ns (Nat.iter n (fun q => tvdrk3 f q dt) q) (Nat.iter n (fun q => tvdrk3 g q dt) q').
Proof. exact terrain_steps. Qed.
Print Assumptions C84_terrain_steps.
(** tiles of a terrain, and symbols over it, exist *)
Example C84_terrain_case : forall Omega rot, let T := cut_terrain 2 3 case_terrain in same_terrain 2 3 2 T case_terrain /\ below 2 3 (size case_pts) 30000%re case_terrain /\
  exists c, let geo := layers_of 2 3 5 2 case_pts (delta_eta 5) (heights_of 5 2 case_pts 30000%re case_terrain) in
  numeric_symbols 2 3 5 2 case_pts 6371220%re (delta_eta 5) true geo c /\ rotation_symbols 2 3 5 2 case_pts 6371220%re (delta_eta 5) Omega true rot geo c.
Proof. exact case_terrain_symbols. Qed.
