(** Interfaces over the terrain of EulTerrainCases. *)
From Coq Require Import Reals ZArith Lia Lra Arith.
From Verif Require Import TopologyModel GeoModel GeoMetric3 SwModel SwSpec EulModel EulCutSpec.
From mathcomp Require Import all_ssreflect all_algebra.
From Verif Require Import RField RNum OpModel RhsModel SwRhs EulRhs EulQuietCases EulSlopes EulTerrain EulTerrainSpec EulTerrainProofs EulTerrainAll EulTerrainCases EulItf.
Set Implicit Arguments.
Unset Strict Implicit.
Unset Printing Implicit Defensive.
Import GRing.Theory.
Delimit Scope R_scope with re.
Delimit Scope Z_scope with zz.

Lemma case_poly2 r row col x : (x < 2)%N -> polynomial_x2 2 case_pts case_terrain r row col x (affine (40 * INR row + 20 + (20 * INR col + 10 + 10 * nth R0 case_pts x))%re 20%re).
Proof.
  move=> Hx. split; [|split].
  - move=> y Hy. rewrite affine_at. cbn [zb_pt case_terrain]. rewrite divnMDl // modnMDl divn_small // modn_small // addn0. change (nth (GRing.zero R_numFieldType) case_pts y) with (nth R0 case_pts y). ring.
  - rewrite affine_at. cbn [zb_j case_terrain]. change (GRing.opp (GRing.one R_numFieldType)) with (Ropp R1). ring.
  - rewrite affine_at. cbn [zb_j case_terrain]. rewrite S_INR. change (GRing.one R_numFieldType) with R1. ring.
Qed.
Notation case_geo := (layers_of 2 3 5 2 case_pts (delta_eta 5) (heights_of 5 2 case_pts 30000%re case_terrain)).
Definition case_slope (l z : nat) (d : R) : R := ((1 - eta_level 5 case_pts l z) * d * 2 / SwModel.dx 2 3)%re.
Lemma case_along r l row col z y : (z < 2)%N -> (y < 2)%N ->
  along_x1 2 case_pts (s1_pt case_geo) r l row col z y (case_slope l z 10)%:P /\ along_x1 2 case_pts (s2_pt case_geo) r l row col z y (case_slope l z 20)%:P.
Proof.
  move=> Hz Hy. have HZ : (0 < 5)%coq_nat by exact/ltP. split=> x Hx; rewrite hornerC /case_slope.
  - rewrite (@slopes_x1 2 3 5 case_pts 30000%re case_terrain HZ case_uniq r l row col z y x _ Hz Hy Hx (affine_size _ _ _) (case_poly1 _ _ _ Hy)) affine_slope //.
  - rewrite (@slopes_x2 2 3 5 case_pts 30000%re case_terrain HZ case_uniq r l row col z y x _ Hz Hy Hx (affine_size _ _ _) (case_poly2 _ _ _ Hx)) affine_slope //.
Qed.
(** both sides agree *)
Lemma agree_x1 k N NZ pts deta H : uniq (extension (pts : seq R_fieldType)) -> let ns := size pts in let geo := layers_of k N NZ ns pts deta H in
  forall r l row b z y (Q1 Q2 Q1' Q2' : {poly R_numFieldType}) d1 d2, (0 < b)%coq_nat -> (b < N)%coq_nat -> (z < ns)%N -> (y < ns)%N -> (size Q1 <= ns)%N -> (size Q2 <= ns)%N -> (size Q1' <= ns)%N -> (size Q2' <= ns)%N ->
  along_x1 ns pts (s1_pt geo) r l row b.-1 z y Q1 -> along_x1 ns pts (s2_pt geo) r l row b.-1 z y Q2 -> along_x1 ns pts (s1_pt geo) r l row b z y Q1' -> along_x1 ns pts (s2_pt geo) r l row b z y Q2' ->
  Q1.[1]%R = d1 -> Q2.[1]%R = d2 -> Q1'.[-1]%R = d1 -> Q2'.[-1]%R = d2 -> (X_i k N r b (z * ns + y)%N * Y_i k N ns (point pts) r row (z * ns + y)%N)%re = 0%re ->
  s1_i geo r l row b (z * ns + y)%N = d1 /\ s2_i geo r l row b (z * ns + y)%N = d2.
Proof.
  move=> U ns geo r l row b z y Q1 Q2 Q1' Q2' d1 d2 Hb HbN Hz Hy S1 S2 S1' S2' A1 A2 A3 A4 E1 E2 E3 E4 XY.
  have := @interface_x1 k N NZ pts deta H U r l b z Hb HbN Hz Q1 Q2 Q1' Q2' S1 S2 S1' S2' row y Hy A1 A2 A3 A4. rewrite E1 E2 E3 E4 itf_average_diag //. by case.
Qed.
Lemma agree_x2 k N NZ pts deta H : uniq (extension (pts : seq R_fieldType)) -> let ns := size pts in let geo := layers_of k N NZ ns pts deta H in
  forall r l col b z x (Q1 Q2 Q1' Q2' : {poly R_numFieldType}) d1 d2, (0 < b)%coq_nat -> (b < N)%coq_nat -> (z < ns)%N -> (x < ns)%N -> (size Q1 <= ns)%N -> (size Q2 <= ns)%N -> (size Q1' <= ns)%N -> (size Q2' <= ns)%N ->
  along_x2 ns pts (s1_pt geo) r l b.-1 col z x Q1 -> along_x2 ns pts (s2_pt geo) r l b.-1 col z x Q2 -> along_x2 ns pts (s1_pt geo) r l b col z x Q1' -> along_x2 ns pts (s2_pt geo) r l b col z x Q2' ->
  Q1.[1]%R = d1 -> Q2.[1]%R = d2 -> Q1'.[-1]%R = d1 -> Q2'.[-1]%R = d2 -> (X_j k N ns (point pts) r col (z * ns + x)%N * Y_j k N r b (z * ns + x)%N)%re = 0%re ->
  s1_j geo r l col b (z * ns + x)%N = d1 /\ s2_j geo r l col b (z * ns + x)%N = d2.
Proof.
  move=> U ns geo r l col b z x Q1 Q2 Q1' Q2' d1 d2 Hb HbN Hz Hx S1 S2 S1' S2' A1 A2 A3 A4 E1 E2 E3 E4 XY.
  have := @interface_x2 k N NZ pts deta H U r l b z Hb HbN Hz Q1 Q2 Q1' Q2' S1 S2 S1' S2' col x Hx A1 A2 A3 A4. rewrite E1 E2 E3 E4 itf_average_diag //. by case.
Qed.
