(** Layers over a terrain: the statements of C86, and what C84 and C85 need. *)
From Coq Require Import Reals ZArith Lia Lra Arith.
From Verif Require Import TopologyModel TopologySpec TopologyProofs GeoModel SwModel SwSpec EulModel EulSpec EulCutSpec EulRestSpec.
From mathcomp Require Import all_ssreflect all_algebra.
From Verif Require Import RField RNum OpModel OpFinal FluxModel RhsModel SwRhs SwCutSpec SwParRhs EulRhs EulParRhs EulSymbols EulStill EulQuiet EulSlopes EulSlopeSpec EulSlopePar EulSymPar EulTerrain EulTerrainSpec EulTerrainProofs EulFlat.
Set Implicit Arguments.
Unset Strict Implicit.
Unset Printing Implicit Defensive.
Import GRing.Theory.
Delimit Scope R_scope with re.
Delimit Scope Z_scope with zz.
Local Open Scope ring_scope.

(** ** Order of the levels *)
Section Order.
Variables (NZ : nat) (pts : seq R) (ztop : R) (T : terrain) (r : Z) (row col : nat).
Notation ns := (size pts).
Notation H := (heights_of NZ ns pts ztop T).
Hypothesis HZ : (0 < NZ)%coq_nat.
Lemma bottom q : hz_k H r row col 0%N q = zb_pt T r row col q.
Proof. rewrite /heights_of. cbn [hz_k]. rewrite /over /eta_boundary. cbn [INR]. ring. Qed.
Lemma top q : hz_k H r row col NZ q = ztop.
Proof. rewrite /heights_of. cbn [hz_k]. rewrite /over /eta_boundary. have := NZ_pos HZ. move=> L. field. lra. Qed.
Lemma at_level l z q : (q < ns * ns)%N -> hz_pt H r l row col (z * (ns * ns) + q)%N = over ztop (zb_pt T r row col q) (eta_level NZ pts l z).
Proof. move=> Hq. rewrite /heights_of. cbn [hz_pt]. by rewrite divnMDl ?modnMDl ?divn_small ?modn_small ?addn0 // (leq_ltn_trans _ Hq). Qed.
Variable q : nat.
Hypothesis Hq : (q < ns * ns)%N.
Hypothesis Hb : (zb_pt T r row col q < ztop)%re.
Lemma over_lt a b : (a < b)%re -> (over ztop (zb_pt T r row col q) a < over ztop (zb_pt T r row col q) b)%re.
Proof. rewrite /over. nra. Qed.
Lemma level_bounds l z : (z < ns)%N -> inner pts -> (eta_boundary NZ l < eta_level NZ pts l z)%re /\ (eta_level NZ pts l z < eta_boundary NZ l.+1)%re.
Proof.
  move=> Hz I. have [L1 L2] := I z Hz. have P := Rinv_0_lt_compat _ (NZ_pos HZ). rewrite /eta_level /eta_boundary /delta_eta S_INR /point /Rdiv. move: (/ INR NZ)%re P => d P. split; nra.
Qed.
Lemma levels l z : (z < ns)%N -> inner pts -> (hz_k H r row col l q < hz_pt H r l row col (z * (ns * ns) + q)%N)%re /\ (hz_pt H r l row col (z * (ns * ns) + q)%N < hz_k H r row col l.+1 q)%re.
Proof. move=> Hz I. rewrite at_level //. have [L1 L2] := level_bounds l Hz I. split; exact: over_lt. Qed.
Lemma level_order l z z' : (z < z')%N -> (z' < ns)%N -> increasing pts -> (hz_pt H r l row col (z * (ns * ns) + q)%N < hz_pt H r l row col (z' * (ns * ns) + q)%N)%re.
Proof.
  move=> Hz Hz' I. rewrite !at_level //. apply: over_lt. have L := I _ _ Hz Hz'. have P := Rinv_0_lt_compat _ (NZ_pos HZ). rewrite /eta_level /delta_eta /point /Rdiv. move: (/ INR NZ)%re P => d P. nra.
Qed.
End Order.

(** ** Layers over any terrain *)
Section Any.
Variables (k N NZ : nat) (pts : seq R) (earth ztop : R) (deep : bool) (T : terrain).
Notation ns := (size pts).
Notation G := (layers_of k N NZ ns pts (delta_eta NZ) (heights_of NZ ns pts ztop T)).
Hypothesis Hk : (0 < k)%coq_nat.
Hypothesis HN : (0 < N)%coq_nat.
Hypothesis HZ : (0 < NZ)%coq_nat.
Hypothesis Hn : (0 < ns)%N.
Hypothesis U : uniq (extension (pts : seq R_fieldType)).
Lemma deta_neq : delta_eta NZ <> R0.
Proof. have P := Rinv_0_lt_compat _ (NZ_pos HZ). rewrite /delta_eta /Rdiv. nra. Qed.
Lemma floor_mod p : (p %% (ns * ns)%N < (ns * ns)%coq_nat)%coq_nat.
Proof. apply/ltP. by rewrite ltn_mod muln_gt0 Hn. Qed.
Lemma thickness_all : everywhere k N NZ ns (fun r l row col p => dRdeta_pt G r l row col p = (ztop - zb_pt T r row col (p %% (ns * ns)))%re).
Proof.
  move=> r l row col p _ _ _ _ Hp. have /(solid_point Hn)[z [y [x [Hz [Hy [Hx ->]]]]]] : (p < ns ^ 3)%N by apply/ltP; rewrite pow_pow.
  rewrite (proj2 (pt_split z Hy Hx)). exact: (thickness k N ztop T U HZ r l row col Hz Hy Hx).
Qed.
Lemma heights_regular : (0 < earth)%re -> inner pts -> below k N ns ztop T -> regular_layers k N NZ ns earth deep G.
Proof.
  move=> He I B r l row col p Hr Hl Hrow Hcol Hp. have Hq := floor_mod p. have [B1 B2] := B _ _ _ _ Hr Hrow Hcol Hq. split; last by rewrite thickness_all //; lra.
  have Hz : (p %/ (ns * ns) < ns)%N by rewrite ltn_divLR ?muln_gt0 ?Hn // -[(ns * (ns * ns))%N]/((ns * (ns * ns))%N) mulnn -expnS; apply/ltP; rewrite pow_pow.
  have [L _] := level_bounds HZ l Hz I. have L0 : (0 <= eta_boundary NZ l)%re by rewrite /eta_boundary; apply: Rmult_le_pos; [exact: pos_INR|have P := Rinv_0_lt_compat _ (NZ_pos HZ); rewrite /Rdiv; lra].
  rewrite /radius0. case: deep; last lra. cbn [z_pt layers_of hz_pt heights_of]. rewrite /over. move: (zb_pt T r row col (p %% (ns * ns))) B1 B2 (eta_level NZ pts l (p %/ (ns * ns))) L => zb B1 B2 eta L. nra.
Qed.
Lemma slopes_x1 r l row col z y x (P : {poly R_numFieldType}) : (z < ns)%N -> (y < ns)%N -> (x < ns)%N -> (size P <= ns.+2)%N -> polynomial_x1 ns pts T r row col y P ->
  s1_pt G r l row col ((z * ns + y) * ns + x)%N = ((1 - eta_level NZ pts l z) * (P^`()).[nth (0 : R_numFieldType) pts x] * 2 / dx k N)%re.
Proof. exact: slope_x1. Qed.
Lemma slopes_x2 r l row col z y x (P : {poly R_numFieldType}) : (z < ns)%N -> (y < ns)%N -> (x < ns)%N -> (size P <= ns.+2)%N -> polynomial_x2 ns pts T r row col x P ->
  s2_pt G r l row col ((z * ns + y) * ns + x)%N = ((1 - eta_level NZ pts l z) * (P^`()).[nth (0 : R_numFieldType) pts y] * 2 / dx k N)%re.
Proof. exact: slope_x2. Qed.
End Any.

(** ** Symbols of both kinds *)
Lemma both_symbols k N NZ pts earth deta Omega deep rot geo : (0 < k)%coq_nat -> (0 < N)%coq_nat -> deta <> 0%re -> regular_layers k N NZ (size pts) earth deep geo ->
  exists c, numeric_symbols k N NZ (size pts) pts earth deta deep geo c /\ rotation_symbols k N NZ (size pts) pts earth deta Omega deep rot geo c.
Proof.
  move=> Hk HN Hd Hg. have [c Hc] := symbols_exist Hk HN Hd Hg.
  exists (fun r l row col p a b => if Nat.ltb b 3 then christoffel3_0 (rot r) Omega (dx k N) (dx k N) deta (radius0 earth deep (z_pt geo r l row col p)) (X_pt3 k N (size pts) (point pts) r col p) (Y_pt3 k N (size pts) (point pts) r row p)
    (s1_pt geo r l row col p) (s2_pt geo r l row col p) (dRdeta_pt geo r l row col p) a.+1 b.+1 else c r l row col p a b). split; first by move=> r l row col p Hr Hl Hi Hj Hp; exact: (Hc r l row col p).
  move=> r l row col p _ _ _ _ _ a b _ Hb. by have -> : Nat.ltb b 3 = true by exact/Nat.ltb_lt.
Qed.

(** ** Layers without mountains *)
Section Level.
Variables (k N NZ : nat) (pts : seq R) (earth ztop c : R) (deep : bool) (T : terrain).
Notation ns := (size pts).
Notation G := (layers_of k N NZ ns pts (delta_eta NZ) (heights_of NZ ns pts ztop T)).
Hypothesis Hk : (0 < k)%coq_nat.
Hypothesis HN : (0 < N)%coq_nat.
Hypothesis HZ : (0 < NZ)%coq_nat.
Hypothesis Hn : (0 < ns)%N.
Hypothesis U : uniq (extension (pts : seq R_fieldType)).
Hypothesis HT : flat k N ns c T.
Lemma level_points : everywhere k N NZ ns (fun r l row col p => s1_pt G r l row col p = R0 /\ s2_pt G r l row col p = R0 /\ dRdeta_pt G r l row col p = (ztop - c)%re).
Proof. move=> r l row col p Hr Hl Hrow Hcol Hp. split; [|split]; [apply: (flat_pt ztop Hk HN HZ Hn U HT (a := 0%N))|apply: (flat_pt ztop Hk HN HZ Hn U HT (a := 1%N))|apply: (flat_pt ztop Hk HN HZ Hn U HT (a := 2%N))] => //; lia. Qed.
Lemma level_faces r : is_rank k r ->
  (forall l row b p, (l < NZ)%coq_nat -> (row < N)%coq_nat -> (b <= N)%coq_nat -> (p < (ns * ns)%coq_nat)%coq_nat -> s1_i G r l row b p = R0 /\ s2_i G r l row b p = R0 /\ dRdeta_itf_i k N ns (eta_itf_i ns pts G) (eta_itf_j ns pts G) r l row b p = (ztop - c)%re) /\
  (forall l col b p, (l < NZ)%coq_nat -> (col < N)%coq_nat -> (b <= N)%coq_nat -> (p < (ns * ns)%coq_nat)%coq_nat -> s1_j G r l col b p = R0 /\ s2_j G r l col b p = R0 /\ dRdeta_itf_j k N ns (eta_itf_i ns pts G) (eta_itf_j ns pts G) r l col b p = (ztop - c)%re) /\
  (forall row col b p, (row < N)%coq_nat -> (col < N)%coq_nat -> (b <= NZ)%coq_nat -> (p < (ns * ns)%coq_nat)%coq_nat -> s1_k G r row col b p = R0 /\ s2_k G r row col b p = R0 /\ dRdeta_itf_k NZ ns (eta_itf_k ns pts G) r row col b p = (ztop - c)%re).
Proof.
  move=> Hr. split; [|split] => l row b p Hl Hrow Hb Hp.
  - split; [|split]; [exact: (itf_i_zero ztop Hk HN HZ Hn U HT)|exact: (itf_i_zero ztop Hk HN HZ Hn U HT)|exact: (dR_i_flat ztop Hk HN HZ Hn U HT)].
  - split; [|split]; [exact: (itf_j_zero ztop Hk HN HZ Hn U HT)|exact: (itf_j_zero ztop Hk HN HZ Hn U HT)|exact: (dR_j_flat ztop Hk HN HZ Hn U HT)].
  - split; [|split]; [apply: (itf_k_flat ztop Hk HN HZ Hn U HT (a := 0%N))|apply: (itf_k_flat ztop Hk HN HZ Hn U HT (a := 1%N))|apply: (dR_k_flat ztop Hk HN HZ Hn U HT)] => //; lia.
Qed.
End Level.
Lemma level_metric dx dy deta r X Y h3 : dx <> 0%re -> dy <> 0%re -> deta <> 0%re -> r <> 0%re -> h3 <> 0%re ->
  let h := metric3_contra dx dy deta r X Y R0 R0 h3 in t13 h = 0%re /\ t23 h = 0%re /\ t33 h = ((2 / (deta * h3)) ^ 2)%re.
Proof.
  move=> H1 H2 H3 H4 H5. cbv zeta. unfold metric3_contra; cbn [t13 t23 t33]. have : (1 + X ^ 2 <> 0)%re by nra. have : (1 + Y ^ 2 <> 0)%re by nra. move=> H6 H7. change R0 with 0%re. split; [|split]; field; repeat split; auto.
Qed.
