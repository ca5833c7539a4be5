(** Layers over a terrain. *)
From Coq Require Import Reals ZArith Lia Lra Arith.
From Verif Require Import TopologyModel TopologySpec TopologyProofs SwModel SwSpec EulModel EulCutSpec.
From mathcomp Require Import all_ssreflect all_algebra.
From Verif Require Import RField RNum OpModel OpTensor OpFinal FluxModel RhsModel SwRhs EulRhs EulSlopes EulSlopeSpec EulTerrain EulTerrainSpec.
Set Implicit Arguments.
Unset Strict Implicit.
Unset Printing Implicit Defensive.
Import GRing.Theory.
Delimit Scope R_scope with re.
Delimit Scope Z_scope with zz.
Local Open Scope ring_scope.

(** ** Derivatives along the lines of an element *)
Section Lines.
Variable pts : seq R.
Hypothesis U : uniq (extension (pts : seq R_fieldType)).
Notation ns := (size pts).
Notation node i := (nth (0 : R_numFieldType) pts i).
Variables (f : nat -> nat -> nat -> nat -> R) (F : nat -> nat -> face) (P : {poly R_numFieldType}).
Hypothesis SP : (size P <= ns.+2)%N.
Variables (l i j z y x : nat).
Hypothesis Hz : (z < ns)%N.
Hypothesis Hy : (y < ns)%N.
Hypothesis Hx : (x < ns)%N.
Lemma line_x : (forall a, (a < ns)%N -> f l i j ((z * ns + y) * ns + a)%N = P.[node a]) -> F l i j.+1 (z * ns + y)%N = P.[-1] -> F l i j.+1 (ns ^ 2 + (z * ns + y))%N = P.[1] ->
  sphere_df1 ns pts f F l i j ((z * ns + y) * ns + x)%N = (P^`()).[node x].
Proof.
  move=> Hf Hlo Hhi. rewrite /sphere_df1 derivative_x_3d_ok // correction_WE_3d_ok // Hlo Hhi.
  exact: (@dfr_line R_numFieldType pts P x (fun a => f l i j ((z * ns + y) * ns + a)%N) U SP Hx Hf).
Qed.
Lemma line_y : (forall a, (a < ns)%N -> f l i j ((z * ns + a) * ns + x)%N = P.[node a]) -> F l j i.+1 (z * ns + x)%N = P.[-1] -> F l j i.+1 (ns ^ 2 + (z * ns + x))%N = P.[1] ->
  sphere_df2 ns pts f F l i j ((z * ns + y) * ns + x)%N = (P^`()).[node y].
Proof.
  move=> Hf Hlo Hhi. rewrite /sphere_df2 derivative_y_3d_ok // correction_SN_3d_ok // Hlo Hhi.
  exact: (@dfr_line R_numFieldType pts P y (fun a => f l i j ((z * ns + a) * ns + x)%N) U SP Hy Hf).
Qed.
Lemma line_z : (forall a, (a < ns)%N -> f l i j ((a * ns + y) * ns + x)%N = P.[node a]) -> F i j l.+1 (y * ns + x)%N = P.[-1] -> F i j l.+1 (ns ^ 2 + (y * ns + x))%N = P.[1] ->
  sphere_df3 ns pts f F l i j ((z * ns + y) * ns + x)%N = (P^`()).[node z].
Proof.
  move=> Hf Hlo Hhi. rewrite /sphere_df3 derivative_z_3d_ok // correction_DU_3d_ok // Hlo Hhi.
  exact: (@dfr_line R_numFieldType pts P z (fun a => f l i j ((a * ns + y) * ns + x)%N) U SP Hz Hf).
Qed.
End Lines.

(** ** Polynomials of first degree, and multiples *)
Section Affine.
Variables a b : R.
Definition affine : {poly R_numFieldType} := a%:P + b *: 'X.
Lemma affine_at s : affine.[s] = Rplus a (Rmult b s). Proof. by rewrite /affine hornerD hornerC hornerZ hornerX. Qed.
Lemma affine_size n : (size affine <= n.+2)%N.
Proof. rewrite /affine. apply: leq_trans (size_add _ _) _. rewrite geq_max. apply/andP; split; first exact: leq_trans (size_polyC_leq1 _) _. apply: leq_trans (size_scale_leq _ _) _. by rewrite size_polyX. Qed.
Lemma affine_slope s : (affine^`()).[s] = b. Proof. by rewrite /affine derivD derivC add0r derivZ derivX hornerZ hornerC mulr1. Qed.
Variable P : {poly R_numFieldType}.
Definition above : {poly R_numFieldType} := a%:P + b *: P.
Lemma above_at s : above.[s] = Rplus a (Rmult b P.[s]). Proof. by rewrite /above hornerD hornerC hornerZ. Qed.
Lemma above_size n : (size P <= n.+2)%N -> (size above <= n.+2)%N.
Proof. move=> H. rewrite /above. apply: leq_trans (size_add _ _) _. rewrite geq_max. apply/andP; split; first exact: leq_trans (size_polyC_leq1 _) _. exact: leq_trans (size_scale_leq _ _) H. Qed.
Lemma above_slope s : (above^`()).[s] = Rmult b (P^`()).[s]. Proof. by rewrite /above derivD derivC add0r derivZ hornerZ. Qed.
End Affine.

Lemma scaled (a d : R) : a * (2 : R) / d = Rdiv (Rmult a 2) d. Proof. change (Rmult (Rmult a (Rplus R1 R1)) (Rinv d) = Rdiv (Rmult a 2) d). rewrite /Rdiv. ring. Qed.
Section Layers.
Variables (k N NZ : nat) (pts : seq R) (ztop : R) (T : terrain).
Notation ns := (size pts).
Notation node i := (nth (0 : R_numFieldType) pts i).
Hypothesis U : uniq (extension (pts : seq R_fieldType)).
Hypothesis HZ : (0 < NZ)%coq_nat.
Notation H := (heights_of NZ ns pts ztop T).
Notation level := (eta_level NZ pts).
Lemma NZ_pos : (0 < INR NZ)%re. Proof. exact: lt_0_INR. Qed.
Lemma ns_pos x : (x < ns)%N -> (0 < ns)%N. Proof. exact: leq_ltn_trans. Qed.
Lemma pt_split z y x : (y < ns)%N -> (x < ns)%N -> (((z * ns + y) * ns + x) %/ (ns * ns) = z)%N /\ (((z * ns + y) * ns + x) %% (ns * ns) = y * ns + x)%N.
Proof.
  move=> Hy Hx. have L : (y * ns + x < ns * ns)%N by rewrite -[X in (_ < X)%N]/(ns * ns)%N; apply: leq_trans (_ : (y.+1 * ns <= _)%N); [by rewrite mulSn addnC ltn_add2r|rewrite leq_mul2r Hy orbT].
  have -> : ((z * ns + y) * ns + x = z * (ns * ns) + (y * ns + x))%N by rewrite mulnDl mulnA addnA.
  by rewrite divnMDl ?modnMDl ?divn_small ?modn_small ?addn0 // muln_gt0 (ns_pos Hx).
Qed.
Lemma itf_split z y : (y < ns)%N -> ((z * ns + y) %/ ns = z)%N /\ ((z * ns + y) %% ns = y)%N.
Proof. move=> Hy. by rewrite divnMDl ?modnMDl ?divn_small ?modn_small ?addn0 // (ns_pos Hy). Qed.
Lemma sides_lo (f : nat -> nat -> R) e p : (p < ns ^ 2)%N -> sides ns f e.+1 p = f e p.
Proof. rewrite /sides /itf_size => /ltP. rewrite -mulnn -multE. by case: Nat.ltb_spec => // ? ?; exfalso; lia. Qed.
Lemma sides_hi (f : nat -> nat -> R) e p : sides ns f e.+1 (ns ^ 2 + p)%N = f e.+1 p.
Proof. rewrite /sides /itf_size -mulnn -multE -plusE. case: Nat.ltb_spec => [|_]; first lia. congr f. lia. Qed.
Lemma face_lt a b : (a < ns)%N -> (b < ns)%N -> (a * ns + b < ns ^ 2)%N.
Proof. move=> Ha Hb. rewrite -mulnn. apply: leq_trans (_ : (a.+1 * ns <= _)%N); [by rewrite mulSn addnC ltn_add2r|rewrite leq_mul2r Ha orbT //]. Qed.
Lemma at_pt r l row col z y x : (y < ns)%N -> (x < ns)%N -> hz_pt H r l row col ((z * ns + y) * ns + x)%N = over ztop (zb_pt T r row col (y * ns + x)%N) (level l z).
Proof. move=> Hy Hx. rewrite /heights_of. cbn [hz_pt]. by have [-> ->] := pt_split z Hy Hx. Qed.
Lemma at_i r l row b z y : (y < ns)%N -> hz_i H r l row b (z * ns + y)%N = over ztop (zb_i T r row b y) (level l z).
Proof. move=> Hy. rewrite /heights_of. cbn [hz_i]. by have [-> ->] := itf_split z Hy. Qed.
Lemma at_j r l col b z x : (x < ns)%N -> hz_j H r l col b (z * ns + x)%N = over ztop (zb_j T r col b x) (level l z).
Proof. move=> Hx. rewrite /heights_of. cbn [hz_j]. by have [-> ->] := itf_split z Hx. Qed.
(** the vertical derivative *)
Lemma thickness r l row col z y x : (z < ns)%N -> (y < ns)%N -> (x < ns)%N ->
  slope k N ns pts (delta_eta NZ) H 2 r l row col ((z * ns + y) * ns + x)%N = (ztop - zb_pt T r row col (y * ns + x)%N)%re.
Proof.
  move=> Hz Hy Hx. set zb := zb_pt T r row col (y * ns + x)%N. have NP := NZ_pos.
  set c1 := ((ztop - zb) * (delta_eta NZ / 2))%re. set c0 := (zb + (ztop - zb) * eta_boundary NZ l + c1)%re.
  rewrite /slope (@line_z pts U _ _ (affine c0 c1) (affine_size c0 c1 ns) l row col z y x) //.
  - rewrite affine_slope. suff E : (c1 * 2 / delta_eta NZ = ztop - zb)%re by exact: (eq_trans (scaled _ _) E). rewrite /c1 /delta_eta. field. lra.
  - move=> a Ha. rewrite at_pt // affine_at -/zb /over /eta_level /c0 /c1 /point. change (nth (0 : R_numFieldType) pts a) with (nth R0 pts a). ring.
  - rewrite sides_lo ?face_lt // /= affine_at -/zb /over /c0 /c1 /eta_boundary /delta_eta /GRing.opp /GRing.one /=. field. lra.
  - rewrite sides_hi /heights_of. cbn [hz_k]. rewrite affine_at -/zb /over /c0 /c1 /eta_boundary /delta_eta S_INR /GRing.one /=. field. lra.
Qed.
(** the horizontal derivatives of a terrain that is a polynomial along a line *)
Lemma over_split zb eta : over ztop zb eta = Rplus (Rmult ztop eta) (Rmult (1 - eta)%re zb). Proof. rewrite /over. ring. Qed.
Lemma slope_x1 r l row col z y x (P : {poly R_numFieldType}) : (z < ns)%N -> (y < ns)%N -> (x < ns)%N -> (size P <= ns.+2)%N -> polynomial_x1 ns pts T r row col y P ->
  slope k N ns pts (delta_eta NZ) H 0 r l row col ((z * ns + y) * ns + x)%N = ((1 - level l z) * (P^`()).[node x] * 2 / dx k N)%re.
Proof.
  move=> Hz Hy Hx SP [Hp [Hlo Hhi]]. rewrite /slope (@line_x pts U _ _ (above (Rmult ztop (level l z)) (1 - level l z)%re P) (above_size _ _ SP) l row col z y x) //.
  - rewrite above_slope. exact: scaled.
  - move=> a Ha. by rewrite at_pt // over_split above_at Hp.
  - by rewrite sides_lo ?face_lt // at_i // over_split above_at Hlo.
  - by rewrite sides_hi at_i // over_split above_at Hhi.
Qed.
Lemma slope_x2 r l row col z y x (P : {poly R_numFieldType}) : (z < ns)%N -> (y < ns)%N -> (x < ns)%N -> (size P <= ns.+2)%N -> polynomial_x2 ns pts T r row col x P ->
  slope k N ns pts (delta_eta NZ) H 1 r l row col ((z * ns + y) * ns + x)%N = ((1 - level l z) * (P^`()).[node y] * 2 / dx k N)%re.
Proof.
  move=> Hz Hy Hx SP [Hp [Hlo Hhi]]. rewrite /slope (@line_y pts U _ _ (above (Rmult ztop (level l z)) (1 - level l z)%re P) (above_size _ _ SP) l row col z y x) //.
  - rewrite above_slope. exact: scaled.
  - move=> a Ha. by rewrite at_pt // over_split above_at Hp.
  - by rewrite sides_lo ?face_lt // at_j // over_split above_at Hlo.
  - by rewrite sides_hi at_j // over_split above_at Hhi.
Qed.
End Layers.

(** ** Terrain cut into tiles *)
Lemma heights_cut k N NZ ns pts ztop T T' : (0 < ns)%coq_nat -> same_terrain k N ns T T' -> same_heights k N NZ ns (heights_of NZ ns pts ztop T) (heights_of NZ ns pts ztop T').
Proof.
  move=> Hns [Ep [Ei Ej]]. have L p : (p %% ns < ns)%coq_nat by apply/ltP; rewrite ltn_mod; exact/ltP.
  have L2 p : (p %% (ns * ns)%N < (ns * ns)%coq_nat)%coq_nat by apply/ltP; rewrite ltn_mod muln_gt0; apply/andP; split; exact/ltP.
  split; [|split; [|split]].
  - move=> r l row col p Hr _ Hrow Hcol Hp. rewrite /heights_of. cbn [hz_pt]. rewrite Ep //.
  - move=> r l row b p Hr _ Hrow Hb Hp. rewrite /heights_of. cbn [hz_i]. rewrite Ei //.
  - move=> r l col b p Hr _ Hcol Hb Hp. rewrite /heights_of. cbn [hz_j]. rewrite Ej //.
  - move=> r row col b p Hr Hrow Hcol Hb Hp. rewrite /heights_of. cbn [hz_k]. rewrite Ep //.
Qed.
