(** C86: slopes and thickness at the interfaces. C55: the averaging of the slopes, on the arrays of the program. *)
From Coq Require Import Reals ZArith Lia Lra Arith.
From Verif Require Import TopologyModel GeoModel SwModel SwSpec EulModel EulCutSpec.
From mathcomp Require Import all_ssreflect all_algebra.
From Verif Require Import RField RNum OpModel RhsModel SwRhs EulRhs EulQuietCases EulSlopes EulTerrain EulTerrainSpec EulTerrainCases EulItf EulItfCases.
Delimit Scope R_scope with re.
Delimit Scope Z_scope with zz.

(** between the layers, also at the ground and at the top, slope and thickness are exact *)
Theorem C86_between_layers : forall k N NZ pts ztop T r row col y x b, (0 < NZ)%coq_nat -> uniq (extension (pts : seq R_fieldType)) -> (y < size pts)%N -> (x < size pts)%N -> (b <= NZ)%coq_nat -> let ns := size pts in
  let geo := layers_of k N NZ ns pts (delta_eta NZ) (heights_of NZ ns pts ztop T) in
  dRdeta_itf_k NZ ns (eta_itf_k ns pts geo) r row col b (y * ns + x)%N = (ztop - zb_pt T r row col (y * ns + x)%N)%re /\
  forall P : {poly R_numFieldType}, (1 < ns)%N -> (size P <= ns.+2)%N ->
  (polynomial_x1 ns pts T r row col y P -> s1_k geo r row col b (y * ns + x)%N = ((1 - INR b / INR NZ) * (P^`()%R).[nth R0 pts x]%R * 2 / SwModel.dx k N)%re) /\
  (polynomial_x2 ns pts T r row col x P -> s2_k geo r row col b (y * ns + x)%N = ((1 - INR b / INR NZ) * (P^`()%R).[nth R0 pts y]%R * 2 / SwModel.dx k N)%re).
Proof. intros k N NZ pts ztop T r row col y x b HZ U Hy Hx Hb ns geo. exact (conj (layer_thickness k N ztop T U HZ r row col Hy Hx Hb) (fun P H2 SP => conj (fun HP => layer_slope_x1 k N ztop U HZ Hy Hx H2 SP HP Hb) (fun HP => layer_slope_x2 k N ztop U HZ Hy Hx H2 SP HP Hb))). Qed.
Print Assumptions C86_between_layers.
(** between two elements of a tile the thickness is the distance from the terrain to the top where the terrain is a polynomial of degree below ns in each of the two *)
Theorem C86_side_thickness : forall k N NZ pts ztop T r l b z (P P' : {poly R_numFieldType}), (0 < NZ)%coq_nat -> uniq (extension (pts : seq R_fieldType)) -> (0 < b)%coq_nat -> (b < N)%coq_nat -> (z < size pts)%N -> (size P <= size pts)%N -> (size P' <= size pts)%N -> let ns := size pts in
  let geo := layers_of k N NZ ns pts (delta_eta NZ) (heights_of NZ ns pts ztop T) in
  (forall row y, (y < ns)%N -> polynomial_x1 ns pts T r row b.-1 y P -> polynomial_x1 ns pts T r row b y P' -> dRdeta_itf_i k N ns (eta_itf_i ns pts geo) (eta_itf_j ns pts geo) r l row b (z * ns + y)%N = (ztop - zb_i T r row b y)%re) /\
  (forall col x, (x < ns)%N -> polynomial_x2 ns pts T r b.-1 col x P -> polynomial_x2 ns pts T r b col x P' -> dRdeta_itf_j k N ns (eta_itf_i ns pts geo) (eta_itf_j ns pts geo) r l col b (z * ns + x)%N = (ztop - zb_j T r col b x)%re).
Proof. intros k N NZ pts ztop T r l b z P P' HZ U Hb HbN Hz S1 S2 ns geo. exact (conj (fun row y Hy => @side_thickness_x1 k N NZ pts ztop T U HZ r l b z Hb HbN Hz P P' S1 S2 row y Hy) (fun col x Hx => @side_thickness_x2 k N NZ pts ztop T U HZ r l b z Hb HbN Hz P P' S1 S2 col x Hx)). Qed.
Print Assumptions C86_side_thickness.
(** the slopes between two elements, whatever the heights: those at the points of the two elements, continued to the interface, averaged as C55 describes *)
Theorem C55_interfaces : forall k N NZ pts deta H r l b z (Q1 Q2 Q1' Q2' : {poly R_numFieldType}), uniq (extension (pts : seq R_fieldType)) -> (0 < b)%coq_nat -> (b < N)%coq_nat -> (z < size pts)%N ->
  (size Q1 <= size pts)%N -> (size Q2 <= size pts)%N -> (size Q1' <= size pts)%N -> (size Q2' <= size pts)%N -> let ns := size pts in let geo := layers_of k N NZ ns pts deta H in
  (forall row y, (y < ns)%N -> along_x1 ns pts (s1_pt geo) r l row b.-1 z y Q1 -> along_x1 ns pts (s2_pt geo) r l row b.-1 z y Q2 -> along_x1 ns pts (s1_pt geo) r l row b z y Q1' -> along_x1 ns pts (s2_pt geo) r l row b z y Q2' ->
   (s1_i geo r l row b (z * ns + y)%N, s2_i geo r l row b (z * ns + y)%N) = itf_average (X_i k N r b (z * ns + y)%N) (Y_i k N ns (point pts) r row (z * ns + y)%N) Q1.[1]%R Q2.[1]%R Q1'.[-1]%R Q2'.[-1]%R) /\
  (forall col x, (x < ns)%N -> along_x2 ns pts (s1_pt geo) r l b.-1 col z x Q1 -> along_x2 ns pts (s2_pt geo) r l b.-1 col z x Q2 -> along_x2 ns pts (s1_pt geo) r l b col z x Q1' -> along_x2 ns pts (s2_pt geo) r l b col z x Q2' ->
   (s1_j geo r l col b (z * ns + x)%N, s2_j geo r l col b (z * ns + x)%N) = itf_average (X_j k N ns (point pts) r col (z * ns + x)%N) (Y_j k N r b (z * ns + x)%N) Q1.[1]%R Q2.[1]%R Q1'.[-1]%R Q2'.[-1]%R).
Proof. intros k N NZ pts deta H r l b z Q1 Q2 Q1' Q2' U Hb HbN Hz S1 S2 S1' S2' ns geo. exact (conj (@interface_x1 k N NZ pts deta H U r l b z Hb HbN Hz Q1 Q2 Q1' Q2' S1 S2 S1' S2') (@interface_x2 k N NZ pts deta H U r l b z Hb HbN Hz Q1 Q2 Q1' Q2' S1 S2 S1' S2')). Qed.
Print Assumptions C55_interfaces.
(** so slopes that are the same on both sides are kept where one of the coordinates is 0 *)
Theorem C55_interfaces_kept : forall k N NZ pts deta H r l b z (Q1 Q2 Q1' Q2' : {poly R_numFieldType}) d1 d2, uniq (extension (pts : seq R_fieldType)) -> (0 < b)%coq_nat -> (b < N)%coq_nat -> (z < size pts)%N ->
  (size Q1 <= size pts)%N -> (size Q2 <= size pts)%N -> (size Q1' <= size pts)%N -> (size Q2' <= size pts)%N -> Q1.[1]%R = d1 -> Q2.[1]%R = d2 -> Q1'.[-1]%R = d1 -> Q2'.[-1]%R = d2 -> let ns := size pts in let geo := layers_of k N NZ ns pts deta H in
  (forall row y, (y < ns)%N -> along_x1 ns pts (s1_pt geo) r l row b.-1 z y Q1 -> along_x1 ns pts (s2_pt geo) r l row b.-1 z y Q2 -> along_x1 ns pts (s1_pt geo) r l row b z y Q1' -> along_x1 ns pts (s2_pt geo) r l row b z y Q2' ->
   (X_i k N r b (z * ns + y)%N * Y_i k N ns (point pts) r row (z * ns + y)%N)%re = 0%re -> s1_i geo r l row b (z * ns + y)%N = d1 /\ s2_i geo r l row b (z * ns + y)%N = d2) /\
  (forall col x, (x < ns)%N -> along_x2 ns pts (s1_pt geo) r l b.-1 col z x Q1 -> along_x2 ns pts (s2_pt geo) r l b.-1 col z x Q2 -> along_x2 ns pts (s1_pt geo) r l b col z x Q1' -> along_x2 ns pts (s2_pt geo) r l b col z x Q2' ->
   (X_j k N ns (point pts) r col (z * ns + x)%N * Y_j k N r b (z * ns + x)%N)%re = 0%re -> s1_j geo r l col b (z * ns + x)%N = d1 /\ s2_j geo r l col b (z * ns + x)%N = d2).
Proof.
  intros k N NZ pts deta H r l b z Q1 Q2 Q1' Q2' d1 d2 U Hb HbN Hz S1 S2 S1' S2' E1 E2 E3 E4 ns geo.
  exact (conj (fun row y Hy A1 A2 A3 A4 => @agree_x1 k N NZ pts deta H U r l row b z y Q1 Q2 Q1' Q2' d1 d2 Hb HbN Hz Hy S1 S2 S1' S2' A1 A2 A3 A4 E1 E2 E3 E4) (fun col x Hx A1 A2 A3 A4 => @agree_x2 k N NZ pts deta H U r l col b z x Q1 Q2 Q1' Q2' d1 d2 Hb HbN Hz Hx S1 S2 S1' S2' A1 A2 A3 A4 E1 E2 E3 E4)).
Qed.
Print Assumptions C55_interfaces_kept.
(** over the terrain of C86_case both slopes are the same number in all elements of a level *)
Example C55_interfaces_case : forall r l row col z y, (z < 2)%N -> (y < 2)%N -> let geo := layers_of 2 3 5 2 case_pts (delta_eta 5) (heights_of 5 2 case_pts 30000%re case_terrain) in
  along_x1 2 case_pts (s1_pt geo) r l row col z y (case_slope l z 10)%:P%R /\ along_x1 2 case_pts (s2_pt geo) r l row col z y (case_slope l z 20)%:P%R.
Proof. exact case_along. Qed.
