(** Slopes and thickness at the interfaces inside a tile. *)
From Coq Require Import Reals ZArith Lia Lra Arith.
From Verif Require Import TopologyModel GeoModel SwModel SwSpec EulModel EulCutSpec.
From mathcomp Require Import all_ssreflect all_algebra.
From Verif Require Import RField RNum OpModel OpTensor OpFinal FluxModel RhsModel SwRhs EulRhs EulSlopes EulTerrain EulTerrainSpec EulTerrainProofs EulTerrainAll.
Set Implicit Arguments.
Unset Strict Implicit.
Unset Printing Implicit Defensive.
Import GRing.Theory.
Delimit Scope R_scope with re.
Delimit Scope Z_scope with zz.
Local Open Scope ring_scope.

(** ** Extrapolation of what is a polynomial along a line *)
Section Extrapolation.
Variable pts : seq R.
Hypothesis U : uniq (extension (pts : seq R_fieldType)).
Notation ns := (size pts).
Notation node i := (nth (0 : R_numFieldType) pts i).
Variables (f : nat -> R) (Q : {poly R_numFieldType}).
Hypothesis SQ : (size Q <= ns)%N.
Lemma ends (a : nat -> R) : (forall x, (x < ns)%N -> a x = Q.[node x]) -> \sum_(i < ns) (a i : R_fieldType) * neg pts i = Q.[-1] /\ \sum_(i < ns) (a i : R_fieldType) * pos pts i = Q.[1].
Proof.
  move=> Ha. have Us := @uniq_ext R_numFieldType pts U. split.
  - rewrite -(@extrap_neg_ok R_numFieldType pts Q Us SQ). apply: eq_bigr => i _. by rewrite Ha.
  - rewrite -(@extrap_pos_ok R_numFieldType pts Q Us SQ). apply: eq_bigr => i _. by rewrite Ha.
Qed.
Lemma ext_x z y : (z < ns)%N -> (y < ns)%N -> (forall x, (x < ns)%N -> f ((z * ns + y) * ns + x)%N = Q.[node x]) ->
  apply_op (F := R_fieldType) (ns ^ 3) f (extrap_x_3d ns (neg pts) (pos pts)) (z * ns + y)%N = Q.[-1] /\ apply_op (F := R_fieldType) (ns ^ 3) f (extrap_x_3d ns (neg pts) (pos pts)) (ns ^ 2 + (z * ns + y))%N = Q.[1].
Proof. move=> Hz Hy Hf. have [-> ->] := extrap_x_3d_ok (neg pts) (pos pts) f Hz Hy. exact: (@ends (fun x => f ((z * ns + y) * ns + x)%N)). Qed.
Lemma ext_y z x : (z < ns)%N -> (x < ns)%N -> (forall y, (y < ns)%N -> f ((z * ns + y) * ns + x)%N = Q.[node y]) ->
  apply_op (F := R_fieldType) (ns ^ 3) f (extrap_y_3d ns (neg pts) (pos pts)) (z * ns + x)%N = Q.[-1] /\ apply_op (F := R_fieldType) (ns ^ 3) f (extrap_y_3d ns (neg pts) (pos pts)) (ns ^ 2 + (z * ns + x))%N = Q.[1].
Proof. move=> Hz Hx Hf. have [-> ->] := extrap_y_3d_ok (neg pts) (pos pts) f Hz Hx. exact: (@ends (fun y => f ((z * ns + y) * ns + x)%N)). Qed.
Lemma ext_z y x : (y < ns)%N -> (x < ns)%N -> (forall z, (z < ns)%N -> f ((z * ns + y) * ns + x)%N = Q.[node z]) ->
  apply_op (F := R_fieldType) (ns ^ 3) f (extrap_z_3d ns (neg pts) (pos pts)) (y * ns + x)%N = Q.[-1] /\ apply_op (F := R_fieldType) (ns ^ 3) f (extrap_z_3d ns (neg pts) (pos pts)) (ns ^ 2 + (y * ns + x))%N = Q.[1].
Proof. move=> Hy Hx Hf. have [-> ->] := extrap_z_3d_ok (neg pts) (pos pts) f Hy Hx. exact: (@ends (fun z => f ((z * ns + y) * ns + x)%N)). Qed.
End Extrapolation.

Lemma fill_inside N ns fill lo hi inside l x e p : (1 <= e)%coq_nat -> (e <= N)%coq_nat -> fill_halo N ns fill lo hi inside l x e p = inside l x e p.
Proof. move=> H1 H2. rewrite /fill_halo. by have [-> ->] : Nat.leb 1 e = true /\ Nat.leb e N = true by split; apply/Nat.leb_le. Qed.
Lemma half_re (a b : R) : (1 : R) / (2 : R) * a + (1 : R) / (2 : R) * b = (1 / 2 * a + 1 / 2 * b)%re :> R.
Proof. change (Rplus (Rmult (Rmult R1 (Rinv (Rplus R1 R1))) a) (Rmult (Rmult R1 (Rinv (Rplus R1 R1))) b) = (1 / 2 * a + 1 / 2 * b)%re). field. Qed.

Lemma minus_one (a c : R) : (a + -1 * c = a - c)%re. Proof. ring. Qed.

(** ** Interfaces across x1 and x2 *)
Section Interfaces.
Variables (k N NZ : nat) (pts : seq R) (deta : R) (H : heights).
Notation ns := (size pts).
Notation m := (itf_size ns).
Notation geo := (layers_of k N NZ ns pts deta H).
Hypothesis U : uniq (extension (pts : seq R_fieldType)).
Lemma m_sq : m = (ns ^ 2)%N. Proof. by rewrite /itf_size -mulnn multE. Qed.
Lemma hi_low p : Nat.ltb (m + p)%N m = false. Proof. apply/Nat.ltb_ge. rewrite -plusE. lia. Qed.
Lemma hi_sub p : Nat.sub (m + p)%N m = p. Proof. rewrite -plusE. lia. Qed.

Variables (r : Z) (l b z : nat).
Hypothesis Hb : (0 < b)%coq_nat.
Hypothesis HbN : (b < N)%coq_nat.
Hypothesis Hz : (z < ns)%N.
Variables Q1 Q2 Q1' Q2' : {poly R_numFieldType}.
Hypothesis S1 : (size Q1 <= ns)%N.
Hypothesis S2 : (size Q2 <= ns)%N.
Hypothesis S1' : (size Q1' <= ns)%N.
Hypothesis S2' : (size Q2' <= ns)%N.

Lemma interface_x1 row y : (y < ns)%N -> along_x1 ns pts (s1_pt geo) r l row b.-1 z y Q1 -> along_x1 ns pts (s2_pt geo) r l row b.-1 z y Q2 -> along_x1 ns pts (s1_pt geo) r l row b z y Q1' -> along_x1 ns pts (s2_pt geo) r l row b z y Q2' ->
  (s1_i geo r l row b (z * ns + y)%N, s2_i geo r l row b (z * ns + y)%N) = itf_average (X_i k N r b (z * ns + y)%N) (Y_i k N ns (point pts) r row (z * ns + y)%N) Q1.[1] Q2.[1] Q1'.[-1] Q2'.[-1].
Proof.
  move=> Hy A1 A2 A1' A2'. have Pm : Nat.ltb (z * ns + y)%N m = true by apply/Nat.ltb_lt; rewrite m_sq; apply/ltP; exact: face_lt.
  have [_ E1] := @ext_x pts U (slope k N ns pts deta H 0 r l row b.-1) Q1 S1 z y Hz Hy A1. have [_ E2] := @ext_x pts U (slope k N ns pts deta H 1 r l row b.-1) Q2 S2 z y Hz Hy A2.
  have [E1' _] := @ext_x pts U (slope k N ns pts deta H 0 r l row b) Q1' S1' z y Hz Hy A1'. have [E2' _] := @ext_x pts U (slope k N ns pts deta H 1 r l row b) Q2' S2' z y Hz Hy A2'.
  have L : half_i k N ns pts deta H r 1 l row b (z * ns + y)%N = (1 / 2 * (s11 (itf_contra (X_i k N r b (z * ns + y)%N) (Y_i k N ns (point pts) r row (z * ns + y)%N)) * Q1.[1] + s12 (itf_contra (X_i k N r b (z * ns + y)%N) (Y_i k N ns (point pts) r row (z * ns + y)%N)) * Q2.[1]) + 1 / 2 * (s11 (itf_contra (X_i k N r b (z * ns + y)%N) (Y_i k N ns (point pts) r row (z * ns + y)%N)) * Q1'.[-1] + s12 (itf_contra (X_i k N r b (z * ns + y)%N) (Y_i k N ns (point pts) r row (z * ns + y)%N)) * Q2'.[-1]))%re.
    apply: (eq_trans (half_re _ _)). rewrite /full_slope_i !fill_inside; [|lia..]. rewrite /exch_i /beside hi_low hi_sub Pm /slope_ex_i. cbn [Nat.pred predn]. rewrite E1' E2' m_sq E1 E2. reflexivity.
  have L2 : half_i k N ns pts deta H r 2 l row b (z * ns + y)%N = (1 / 2 * (s12 (itf_contra (X_i k N r b (z * ns + y)%N) (Y_i k N ns (point pts) r row (z * ns + y)%N)) * Q1.[1] + s22 (itf_contra (X_i k N r b (z * ns + y)%N) (Y_i k N ns (point pts) r row (z * ns + y)%N)) * Q2.[1]) + 1 / 2 * (s12 (itf_contra (X_i k N r b (z * ns + y)%N) (Y_i k N ns (point pts) r row (z * ns + y)%N)) * Q1'.[-1] + s22 (itf_contra (X_i k N r b (z * ns + y)%N) (Y_i k N ns (point pts) r row (z * ns + y)%N)) * Q2'.[-1]))%re.
    apply: (eq_trans (half_re _ _)). rewrite /full_slope_i !fill_inside; [|lia..]. rewrite /exch_i /beside hi_low hi_sub Pm /slope_ex_i. cbn [Nat.pred predn]. rewrite E1' E2' m_sq E1 E2. reflexivity.
  cbn [layers_of s1_i s2_i]. rewrite /slope_itf_i L L2. reflexivity.
Qed.
Lemma interface_x2 col x : (x < ns)%N -> along_x2 ns pts (s1_pt geo) r l b.-1 col z x Q1 -> along_x2 ns pts (s2_pt geo) r l b.-1 col z x Q2 -> along_x2 ns pts (s1_pt geo) r l b col z x Q1' -> along_x2 ns pts (s2_pt geo) r l b col z x Q2' ->
  (s1_j geo r l col b (z * ns + x)%N, s2_j geo r l col b (z * ns + x)%N) = itf_average (X_j k N ns (point pts) r col (z * ns + x)%N) (Y_j k N r b (z * ns + x)%N) Q1.[1] Q2.[1] Q1'.[-1] Q2'.[-1].
Proof.
  move=> Hx A1 A2 A1' A2'. have Pm : Nat.ltb (z * ns + x)%N m = true by apply/Nat.ltb_lt; rewrite m_sq; apply/ltP; exact: face_lt.
  have [_ E1] := @ext_y pts U (slope k N ns pts deta H 0 r l b.-1 col) Q1 S1 z x Hz Hx A1. have [_ E2] := @ext_y pts U (slope k N ns pts deta H 1 r l b.-1 col) Q2 S2 z x Hz Hx A2.
  have [E1' _] := @ext_y pts U (slope k N ns pts deta H 0 r l b col) Q1' S1' z x Hz Hx A1'. have [E2' _] := @ext_y pts U (slope k N ns pts deta H 1 r l b col) Q2' S2' z x Hz Hx A2'.
  set h := itf_contra (X_j k N ns (point pts) r col (z * ns + x)%N) (Y_j k N r b (z * ns + x)%N).
  have L : half_j k N ns pts deta H r 1 l col b (z * ns + x)%N = (1 / 2 * (s11 h * Q1.[1] + s12 h * Q2.[1]) + 1 / 2 * (s11 h * Q1'.[-1] + s12 h * Q2'.[-1]))%re.
    apply: (eq_trans (half_re _ _)). rewrite /full_slope_j !fill_inside; [|lia..]. rewrite /exch_j /beside hi_low hi_sub Pm /slope_ex_j. cbn [Nat.pred predn]. rewrite E1' E2' m_sq E1 E2. reflexivity.
  have L2 : half_j k N ns pts deta H r 2 l col b (z * ns + x)%N = (1 / 2 * (s12 h * Q1.[1] + s22 h * Q2.[1]) + 1 / 2 * (s12 h * Q1'.[-1] + s22 h * Q2'.[-1]))%re.
    apply: (eq_trans (half_re _ _)). rewrite /full_slope_j !fill_inside; [|lia..]. rewrite /exch_j /beside hi_low hi_sub Pm /slope_ex_j. cbn [Nat.pred predn]. rewrite E1' E2' m_sq E1 E2. reflexivity.
  cbn [layers_of s1_j s2_j]. rewrite /slope_itf_j L L2. reflexivity.
Qed.
End Interfaces.

(** ** Interfaces of the layers over a terrain *)
Section Terrain.
Variables (k N NZ : nat) (pts : seq R) (ztop : R) (T : terrain).
Notation ns := (size pts).
Notation m := (itf_size ns).
Notation node i := (nth (0 : R_numFieldType) pts i).
Notation H := (heights_of NZ ns pts ztop T).
Notation geo := (layers_of k N NZ ns pts (delta_eta NZ) H).
Hypothesis U : uniq (extension (pts : seq R_fieldType)).
Hypothesis HZ : (0 < NZ)%coq_nat.

(** between the layers *)
Section Floor.
Variables (r : Z) (row col y x : nat).
Hypothesis Hy : (y < ns)%N.
Hypothesis Hx : (x < ns)%N.
Lemma between_layers (c : nat) (A B : R) : (1 < ns)%N \/ B = R0 -> (forall l z, (z < ns)%N -> slope k N ns pts (delta_eta NZ) H c r l row col ((z * ns + y) * ns + x)%N = (A + B * eta_level NZ pts l z)%re) ->
  forall b, (b <= NZ)%coq_nat -> slope_itf_k k N NZ ns pts (delta_eta NZ) H c r row col b (y * ns + x)%N = (A + B * eta_boundary NZ b)%re.
Proof.
  move=> H2 Hs b Hb. have NP := NZ_pos HZ.
  have E l : slope_ex_k k N ns pts (delta_eta NZ) H c r row col l.+1 (y * ns + x)%N = (A + B * eta_boundary NZ l)%re /\ slope_ex_k k N ns pts (delta_eta NZ) H c r row col l.+1 (m + (y * ns + x))%N = (A + B * eta_boundary NZ l.+1)%re.
    set a := (A + B * (eta_boundary NZ l + delta_eta NZ / 2))%re. set d := (B * (delta_eta NZ / 2))%re. have SA : (size (affine a d) <= ns)%N.
      case: H2 => [|B0]; first by case: (ns) => [|[|n]] // _; exact: affine_size.
      have -> : affine a d = a%:P by rewrite /affine /d B0 (_ : (R0 * _)%re = (0 : R_numFieldType)) ?scale0r ?addr0 //; exact: Rmult_0_l. apply: leq_trans (size_polyC_leq1 _) _. exact: leq_ltn_trans Hy.
    have F z : (z < ns)%N -> slope k N ns pts (delta_eta NZ) H c r l row col ((z * ns + y) * ns + x)%N = (affine a d).[node z].
      move=> Hz. rewrite Hs // affine_at /a /d /eta_level /point. change (nth (0 : R_numFieldType) pts z) with (nth R0 pts z). ring.
    rewrite /slope_ex_k m_sq. cbn [predn]. have [-> ->] := ext_z U SA Hy Hx F. rewrite !affine_at /a /d. split.
    + rewrite /GRing.opp /GRing.one /=. ring.
    + rewrite /eta_boundary S_INR /delta_eta /GRing.one /=. field. lra.
  rewrite /slope_itf_k /dRdeta_itf_k. case: Nat.eqb_spec => [->|N0]; first by have [-> _] := E 0%N. case: Nat.eqb_spec => [->|N1].
  - case: (NZ) HZ E => [|n] HZ' E; first by exfalso; lia. by have [_ ->] := E n.
  - have -> : b = b.-1.+1 by lia. have [-> _] := E b.-1.+1. have [_ ->] := E b.-1. lra.
Qed.
(** a terrain that is a polynomial along a line *)
Lemma layer_slope_x1 (P : {poly R_numFieldType}) b : (1 < ns)%N -> (size P <= ns.+2)%N -> polynomial_x1 ns pts T r row col y P -> (b <= NZ)%coq_nat ->
  s1_k geo r row col b (y * ns + x)%N = ((1 - INR b / INR NZ) * (P^`()).[node x] * 2 / dx k N)%re.
Proof.
  move=> H2 SP HP Hb. set g := ((P^`()).[node x] * 2 / dx k N)%re. cbn [layers_of s1_k]. rewrite (@between_layers 0 g (- g)%re) //; first (rewrite /g /eta_boundary /Rdiv; ring); first by left.
  move=> l z Hz. rewrite (slope_x1 k N ztop U HZ l Hz Hy Hx SP HP) /g /Rdiv. ring.
Qed.
Lemma layer_slope_x2 (P : {poly R_numFieldType}) b : (1 < ns)%N -> (size P <= ns.+2)%N -> polynomial_x2 ns pts T r row col x P -> (b <= NZ)%coq_nat ->
  s2_k geo r row col b (y * ns + x)%N = ((1 - INR b / INR NZ) * (P^`()).[node y] * 2 / dx k N)%re.
Proof.
  move=> H2 SP HP Hb. set g := ((P^`()).[node y] * 2 / dx k N)%re. cbn [layers_of s2_k]. rewrite (@between_layers 1 g (- g)%re) //; first (rewrite /g /eta_boundary /Rdiv; ring); first by left.
  move=> l z Hz. rewrite (slope_x2 k N ztop U HZ l Hz Hy Hx SP HP) /g /Rdiv. ring.
Qed.
Lemma layer_thickness b : (b <= NZ)%coq_nat -> dRdeta_itf_k NZ ns (eta_itf_k ns pts geo) r row col b (y * ns + x)%N = (ztop - zb_pt T r row col (y * ns + x)%N)%re.
Proof.
  move=> Hb. have E := @between_layers 2 (ztop - zb_pt T r row col (y * ns + x)%N)%re R0 (or_intror erefl). apply: (eq_trans (E _ b Hb)); last ring.
  move=> l z Hz. rewrite (thickness k N ztop T U HZ r l row col Hz Hy Hx). ring.
Qed.
End Floor.
(** inside a tile, across x1 and x2 *)
Section Sides.
Variables (r : Z) (l b z : nat).
Hypothesis Hb : (0 < b)%coq_nat.
Hypothesis HbN : (b < N)%coq_nat.
Hypothesis Hz : (z < ns)%N.
Variables P P' : {poly R_numFieldType}.
Hypothesis S1 : (size P <= ns)%N.
Hypothesis S2 : (size P' <= ns)%N.
Lemma beyond_size (Q : {poly R_numFieldType}) : (size Q <= ns)%N -> (size (above ztop (-1)%re Q) <= ns)%N.
Proof. move=> SQ. rewrite /above. apply: leq_trans (size_add _ _) _. rewrite geq_max. apply/andP; split; first by apply: leq_trans (size_polyC_leq1 _) _; exact: leq_ltn_trans Hz. exact: leq_trans (size_scale_leq _ _) SQ. Qed.
Lemma mean_re (a : R) : (1 / 2 * (ztop + -1 * a) + 1 / 2 * (ztop + -1 * a) = ztop - a)%re. Proof. field. Qed.
Lemma side_thickness_x1 row y : (y < ns)%N -> polynomial_x1 ns pts T r row b.-1 y P -> polynomial_x1 ns pts T r row b y P' ->
  dRdeta_itf_i k N ns (eta_itf_i ns pts geo) (eta_itf_j ns pts geo) r l row b (z * ns + y)%N = (ztop - zb_i T r row b y)%re.
Proof.
  move=> Hy [A1 [_ A3]] [B1 [B2 _]].
  have [_ E1] := @ext_x pts U (slope k N ns pts (delta_eta NZ) H 2 r l row b.-1) _ (beyond_size S1) z y Hz Hy (fun x Hx => etrans (thickness k N ztop T U HZ r l row b.-1 Hz Hy Hx) (etrans (congr1 (Rminus ztop) (A1 x Hx)) (etrans (esym (minus_one _ _)) (esym (above_at _ _ _ _))))).
  have [E2 _] := @ext_x pts U (slope k N ns pts (delta_eta NZ) H 2 r l row b) _ (beyond_size S2) z y Hz Hy (fun x Hx => etrans (thickness k N ztop T U HZ r l row b Hz Hy Hx) (etrans (congr1 (Rminus ztop) (B1 x Hx)) (etrans (esym (minus_one _ _)) (esym (above_at _ _ _ _))))).
  rewrite /dRdeta_itf_i /full_dR_i !fill_inside; [|lia..]. rewrite /eta_itf_i m_sq -plusE. cbn [Nat.pred predn]. cbn [layers_of dRdeta_pt]. rewrite E1 E2 !above_at -A3 -B2 (_ : b.-1.+1 = b); last by lia. exact: mean_re.
Qed.
Lemma side_thickness_x2 col x : (x < ns)%N -> polynomial_x2 ns pts T r b.-1 col x P -> polynomial_x2 ns pts T r b col x P' ->
  dRdeta_itf_j k N ns (eta_itf_i ns pts geo) (eta_itf_j ns pts geo) r l col b (z * ns + x)%N = (ztop - zb_j T r col b x)%re.
Proof.
  move=> Hx [A1 [_ A3]] [B1 [B2 _]].
  have [_ E1] := @ext_y pts U (slope k N ns pts (delta_eta NZ) H 2 r l b.-1 col) _ (beyond_size S1) z x Hz Hx (fun y Hy => etrans (thickness k N ztop T U HZ r l b.-1 col Hz Hy Hx) (etrans (congr1 (Rminus ztop) (A1 y Hy)) (etrans (esym (minus_one _ _)) (esym (above_at _ _ _ _))))).
  have [E2 _] := @ext_y pts U (slope k N ns pts (delta_eta NZ) H 2 r l b col) _ (beyond_size S2) z x Hz Hx (fun y Hy => etrans (thickness k N ztop T U HZ r l b col Hz Hy Hx) (etrans (congr1 (Rminus ztop) (B1 y Hy)) (etrans (esym (minus_one _ _)) (esym (above_at _ _ _ _))))).
  rewrite /dRdeta_itf_j /full_dR_j !fill_inside; [|lia..]. rewrite /eta_itf_j m_sq -plusE. cbn [Nat.pred predn]. cbn [layers_of dRdeta_pt]. rewrite E1 E2 !above_at -A3 -B2 (_ : b.-1.+1 = b); last by lia. exact: mean_re.
Qed.
End Sides.
End Terrain.
