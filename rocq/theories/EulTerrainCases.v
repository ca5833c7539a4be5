(** A terrain that rises to the north and to the east; the statements that start from the terrain put together. *)
From Coq Require Import Reals ZArith Lia Lra Arith.
From Verif Require Import TopologyModel TopologySpec GeoModel SwModel SwSpec SwParallel SwTotal EulModel StepModel FieldSpace3 EulCutSpec EulRestSpec.
From mathcomp Require Import all_ssreflect all_algebra.
From Verif Require Import RField RNum OpModel RhsModel SwRhs SwCutSpec EulRhs EulParRhs EulSteps EulSymbols EulQuiet EulQuietCases EulSlopes EulSlopeSpec EulSlopePar EulSymPar EulTerrain EulTerrainSpec EulTerrainProofs EulTerrainAll.
Set Implicit Arguments.
Unset Strict Implicit.
Unset Printing Implicit Defensive.
Import GRing.Theory.
Delimit Scope R_scope with re.
Delimit Scope Z_scope with zz.

Definition case_terrain : terrain :=
  {| zb_pt := fun _ row col p => (40 * INR row + 20 + 20 * nth R0 case_pts (p %/ 2) + (20 * INR col + 10 + 10 * nth R0 case_pts (p %% 2)))%re;
     zb_i := fun _ row b y => (40 * INR row + 20 + 20 * nth R0 case_pts y + 20 * INR b)%re; zb_j := fun _ col b x => (40 * INR b + (20 * INR col + 10 + 10 * nth R0 case_pts x))%re |}.
Lemma case_node i : (-1 < nth R0 case_pts i < 1)%re.
Proof. case: i => [|[|[|i]]]; rewrite /case_pts /=; lra. Qed.
Lemma case_inner : inner case_pts. Proof. move=> i _. exact: case_node. Qed.
Lemma case_increasing : increasing case_pts.
Proof. move=> [|[|i]] [|[|j]] //= _ _. lra. Qed.
Lemma INR_below n m : (n < m)%coq_nat -> (INR n <= INR m - 1)%re.
Proof. move=> H. have := le_INR (S n) m H. rewrite S_INR. lra. Qed.
Lemma case_below : below 2 3 (size case_pts) 30000%re case_terrain.
Proof.
  move=> r row col p _ Hr Hc _. cbn [zb_pt case_terrain]. have [N1 N1'] := case_node (p %/ 2). have [N2 N2'] := case_node (p %% 2). have R1 := pos_INR row. have C1 := pos_INR col. have R2 := INR_below Hr. have C2 := INR_below Hc.
  have E : INR 3 = 3%re by rewrite !S_INR /=; lra. rewrite E in R2 C2. split; lra.
Qed.
Lemma case_poly1 r row col y : (y < 2)%N -> polynomial_x1 2 case_pts case_terrain r row col y (affine (40 * INR row + 20 + 20 * nth R0 case_pts y + (20 * INR col + 10))%re 10%re).
Proof.
  move=> Hy. split; [|split].
  - move=> x Hx. rewrite affine_at. cbn [zb_pt case_terrain]. rewrite divnMDl // modnMDl divn_small // modn_small // addn0. change (nth (GRing.zero R_numFieldType) case_pts x) with (nth R0 case_pts x). ring.
  - rewrite affine_at. cbn [zb_i case_terrain]. change (GRing.opp (GRing.one R_numFieldType)) with (Ropp R1). ring.
  - rewrite affine_at. cbn [zb_i case_terrain]. rewrite S_INR. change (GRing.one R_numFieldType) with R1. ring.
Qed.
Lemma case_slope_value : s1_pt (layers_of 2 3 5 2 case_pts (delta_eta 5) (heights_of 5 2 case_pts 30000%re case_terrain)) 3%zz 0%N 2%N 1%N 4%N <> 0%re.
Proof.
  have -> : 4%N = ((1 * 2 + 0) * 2 + 0)%N by []. have -> := @slopes_x1 2 3 5 case_pts 30000%re case_terrain (ltP (erefl : (0 < 5)%N)) case_uniq 3%zz 0 2 1 1 0 0 _ (erefl) (erefl) (erefl) (affine_size _ _ _) (case_poly1 _ _ _ (erefl : (0 < 2)%N)).
  rewrite affine_slope. have D := dx_pos 2 3 (ltP (erefl : (0 < 2)%N)) (ltP (erefl : (0 < 3)%N)). move: (SwModel.dx 2 3) D => d D.
  have -> : eta_level 5 case_pts 0 1 = (3 / 20)%re by rewrite /eta_level /eta_boundary /delta_eta /point /case_pts /=; field. move=> E. have P := Rinv_0_lt_compat _ D. rewrite /Rdiv in E. nra.
Qed.
Definition cut_terrain (k N : nat) (B : terrain) : terrain := {| zb_pt := cut k N (zb_pt B); zb_i := cut_i k N (zb_i B); zb_j := cut_j k N (zb_j B) |}.
Lemma cut_same k N ns B : same_terrain k N ns (cut_terrain k N B) B. Proof. by []. Qed.

Lemma terrain_geo k N NZ pts earth ztop Omega deep rot T T' chr chr' : (0 < k)%coq_nat -> (0 < N)%coq_nat -> (0 < NZ)%coq_nat -> (0 < size pts)%N -> uniq (extension (pts : seq R_fieldType)) -> inner pts -> (0 < earth)%re ->
  below k N (size pts) ztop T -> same_terrain k N (size pts) T T' ->
  let geo := layers_of k N NZ (size pts) pts (delta_eta NZ) (heights_of NZ (size pts) pts ztop T) in let geo' := layers_of 1 (k * N)%coq_nat NZ (size pts) pts (delta_eta NZ) (heights_of NZ (size pts) pts ztop T') in
  numeric_symbols k N NZ (size pts) pts earth (delta_eta NZ) deep geo chr -> rotation_symbols k N NZ (size pts) pts earth (delta_eta NZ) Omega deep (cut_rotation k rot) geo chr ->
  numeric_symbols 1 (k * N)%coq_nat NZ (size pts) pts earth (delta_eta NZ) deep geo' chr' -> rotation_symbols 1 (k * N)%coq_nat NZ (size pts) pts earth (delta_eta NZ) Omega deep rot geo' chr' ->
  same_layers k N NZ (size pts) geo geo' /\ same_symbols k N NZ (size pts) chr chr'.
Proof.
  move=> Hk HN HZ Hn U I He B ET geo geo' S1 R1 S2 R2. have Hns : (0 < size pts)%coq_nat by exact/ltP.
  have EL : same_layers k N NZ (size pts) geo geo' := layers_cut pts (delta_eta NZ) Hk HN HZ Hns (heights_cut NZ pts ztop Hns ET). split; first exact: EL.
  exact: (symbols_cut Hk HN HZ Hns (deta_neq HZ) EL (heights_regular deep HZ Hn U He I B) S1 S2 R1 R2).
Qed.
Lemma terrain_rhs k N NZ pts earth ztop Omega deep adv rot T T' chr chr' damp damp' q q' : (0 < k)%coq_nat -> (0 < N)%coq_nat -> (0 < NZ)%coq_nat -> (0 < size pts)%N ->
  uniq (extension (pts : seq R_fieldType)) -> inner pts -> (0 < earth)%re -> below k N (size pts) ztop T -> same_terrain k N (size pts) T T' -> let ns := size pts in let deta := delta_eta NZ in
  let geo := layers_of k N NZ ns pts deta (heights_of NZ ns pts ztop T) in let geo' := layers_of 1 (k * N)%coq_nat NZ ns pts deta (heights_of NZ ns pts ztop T') in
  numeric_symbols k N NZ ns pts earth deta deep geo chr -> rotation_symbols k N NZ ns pts earth deta Omega deep (cut_rotation k rot) geo chr ->
  numeric_symbols 1 (k * N)%coq_nat NZ ns pts earth deta deep geo' chr' -> rotation_symbols 1 (k * N)%coq_nat NZ ns pts earth deta Omega deep rot geo' chr' ->
  same_state3 k N NZ ns damp damp' -> same_state3 k N NZ ns q q' ->
  same_state3 k N NZ ns (euler_rhs k N NZ ns pts earth deta deep adv geo chr damp q) (euler_rhs 1 (k * N)%coq_nat NZ ns pts earth deta deep adv geo' chr' damp' q').
Proof.
  move=> Hk HN HZ Hn U I He B ET ns deta geo geo' S1 R1 S2 R2 ED EQ. have [EL EC] := terrain_geo Hk HN HZ Hn U I He B ET S1 R1 S2 R2. have Hns : (0 < size pts)%coq_nat by exact/ltP.
  exact (rhs3_cut (k := k) (N := N) (NZ := NZ) (ns := ns) pts earth deta deep adv (geo := geo) (geo' := geo') (chr := chr) (chr' := chr') (damp := damp) (damp' := damp') (q := q) (q' := q') Hk HN HZ Hns EL EC ED EQ).
Qed.
Lemma terrain_steps k N NZ pts earth ztop Omega deep adv rot T T' chr chr' (damp damp' : states3 -> states3) dt n q q' : (0 < k)%coq_nat -> (0 < N)%coq_nat -> (0 < NZ)%coq_nat -> (0 < size pts)%N ->
  uniq (extension (pts : seq R_fieldType)) -> inner pts -> (0 < earth)%re -> below k N (size pts) ztop T -> same_terrain k N (size pts) T T' -> let ns := size pts in let deta := delta_eta NZ in
  let geo := layers_of k N NZ ns pts deta (heights_of NZ ns pts ztop T) in let geo' := layers_of 1 (k * N)%coq_nat NZ ns pts deta (heights_of NZ ns pts ztop T') in
  numeric_symbols k N NZ ns pts earth deta deep geo chr -> rotation_symbols k N NZ ns pts earth deta Omega deep (cut_rotation k rot) geo chr ->
  numeric_symbols 1 (k * N)%coq_nat NZ ns pts earth deta deep geo' chr' -> rotation_symbols 1 (k * N)%coq_nat NZ ns pts earth deta Omega deep rot geo' chr' ->
  (forall u w, same_state3 k N NZ ns u w -> same_state3 k N NZ ns (damp u) (damp' w)) -> same_state3 k N NZ ns q q' ->
  let f : states3 -> states3 := fun q => euler_rhs k N NZ ns pts earth deta deep adv geo chr (damp q) q in
  let g : states3 -> states3 := fun q => euler_rhs 1 (k * N)%coq_nat NZ ns pts earth deta deep adv geo' chr' (damp' q) q in
  same_state3 k N NZ ns (Nat.iter n (fun q => euler1 f q dt) q) (Nat.iter n (fun q => euler1 g q dt) q') /\
  same_state3 k N NZ ns (Nat.iter n (fun q => tvdrk3 f q dt) q) (Nat.iter n (fun q => tvdrk3 g q dt) q').
Proof.
  move=> Hk HN HZ Hn U I He B ET ns deta geo geo' S1 R1 S2 R2 ED EQ f g. have [EL EC] := terrain_geo Hk HN HZ Hn U I He B ET S1 R1 S2 R2. have Hns : (0 < size pts)%coq_nat by exact/ltP.
  exact (conj (euler1_cut3 (k := k) (N := N) (NZ := NZ) (ns := ns) pts earth deta deep adv (geo := geo) (geo' := geo') (chr := chr) (chr' := chr') (damp := damp) (damp' := damp') Hk HN HZ Hns EL EC ED dt n EQ) (tvdrk3_cut3 (k := k) (N := N) (NZ := NZ) (ns := ns) pts earth deta deep adv (geo := geo) (geo' := geo') (chr := chr) (chr' := chr') (damp := damp) (damp' := damp') Hk HN HZ Hns EL EC ED dt n EQ)).
Qed.
Lemma flat_metric k N NZ pts earth ztop c deep T : (0 < k)%coq_nat -> (0 < N)%coq_nat -> (0 < NZ)%coq_nat -> (0 < size pts)%N -> uniq (extension (pts : seq R_fieldType)) -> inner pts -> (0 < earth)%re -> (0 <= c < ztop)%re -> flat k N (size pts) c T ->
  let geo := layers_of k N NZ (size pts) pts (delta_eta NZ) (heights_of NZ (size pts) pts ztop T) in let h := hc k N (size pts) pts earth (delta_eta NZ) deep geo in
  everywhere k N NZ (size pts) (fun r l row col p => h r l row col p 0%N 2%N = 0%re /\ h r l row col p 1%N 2%N = 0%re /\ h r l row col p 2%N 2%N = ((2 / (delta_eta NZ * (ztop - c))) ^ 2)%re).
Proof.
  move=> Hk HN HZ Hn U I He [C1 C2] HT geo h r l row col p Hr Hl Hrow Hcol Hp.
  have B : below k N (size pts) ztop T by move=> r' i' j' p' Hr' Hi' Hj' Hp'; case: HT => [-> // _]; split.
  have [G1 G2] := @heights_regular k N NZ pts earth ztop deep T HZ Hn U He I B r l row col p Hr Hl Hrow Hcol Hp. have [E1 [E2 E3]] := @level_points k N NZ pts ztop c T Hk HN HZ Hn U HT r l row col p Hr Hl Hrow Hcol Hp.
  rewrite /h /hc /h_pt3 E1 E2 E3. rewrite E3 in G2. have D := Rgt_not_eq _ _ (dx_pos k N Hk HN). exact: (level_metric _ _ D D (deta_neq HZ) G1 G2).
Qed.
Lemma case_terrain_holds : uniq (extension (case_pts : seq R_fieldType)) /\ inner case_pts /\ increasing case_pts /\ below 2 3 (size case_pts) 30000%re case_terrain /\
  (forall r row col y, (y < 2)%N -> exists P : {poly R_numFieldType}, (size P <= 2)%N /\ polynomial_x1 2 case_pts case_terrain r row col y P) /\
  s1_pt (layers_of 2 3 5 2 case_pts (delta_eta 5) (heights_of 5 2 case_pts 30000%re case_terrain)) 3%zz 0%N 2%N 1%N 4%N <> 0%re.
Proof.
  split; first exact: case_uniq. split; first exact: case_inner. split; first exact: case_increasing. split; first exact: case_below. split; last exact: case_slope_value.
  move=> r row col y Hy. eexists; split; last exact: case_poly1. exact: affine_size.
Qed.
Lemma case_terrain_symbols : forall Omega rot, let T := cut_terrain 2 3 case_terrain in same_terrain 2 3 2 T case_terrain /\ below 2 3 (size case_pts) 30000%re case_terrain /\
  exists c, let geo := layers_of 2 3 5 2 case_pts (delta_eta 5) (heights_of 5 2 case_pts 30000%re case_terrain) in
  numeric_symbols 2 3 5 2 case_pts 6371220%re (delta_eta 5) true geo c /\ rotation_symbols 2 3 5 2 case_pts 6371220%re (delta_eta 5) Omega true rot geo c.
Proof.
  move=> Omega rot T. split; first exact: cut_same. split; first exact: case_below.
  apply: (@both_symbols 2 3 5 case_pts 6371220%re (delta_eta 5) Omega true rot); [exact/ltP|exact/ltP|exact: deta_neq (ltP (erefl : (0 < 5)%N))|].
  apply: (heights_regular (earth := 6371220%re) (ztop := 30000%re) (T := case_terrain) true); [exact/ltP|by []|exact: case_uniq|lra|exact: case_inner|exact: case_below].
Qed.
