(** Conservation of mass and potential temperature by the Euler equations on the whole sphere. *)
From Coq Require Import Reals ZArith Lia Lra Arith.
From Verif Require Import TopologyModel TopologySpec GeoModel GeoTiles SwModel SwSpec SwTotal EulModel EulSpec EulEdges.
From mathcomp Require Import all_ssreflect all_algebra.
From Verif Require Import RField OpModel OpSpec OpTensor OpDiverge FluxModel FluxProofs FluxFaces FluxSpec RhsModel RhsSpec RhsFlat RhsProofs RhsGauss SwRhs SwGlobal RhsFinal QuadModel EulRhs EulIntegral.
Set Implicit Arguments.
Unset Strict Implicit.
Unset Printing Implicit Defensive.
Import GRing.Theory.
Delimit Scope R_scope with re.
Local Open Scope ring_scope.

Lemma root3_nonzero d deta h X Y R3 : (0 < d)%re -> deta <> 0%re -> h <> 0%re -> R3 <> 0%re -> metric3_rootG d d deta h X Y R3 <> 0%re.
Proof.
  move=> Hd He Hh H3. rewrite /metric3_rootG.
  have P : (0 < 1 + X ^ 2 + Y ^ 2)%re by have := pow2_ge_0 X; have := pow2_ge_0 Y; lra.
  have Q : (0 < sqrt (1 + X ^ 2 + Y ^ 2))%re by apply: sqrt_lt_R0.
  have A : (1 + X ^ 2 <> 0)%re by have := pow2_ge_0 X; lra.
  have B : (1 + Y ^ 2 <> 0)%re by have := pow2_ge_0 Y; lra.
  have C := Rabs_no_R0 _ H3.
  rewrite /Rdiv. repeat apply: Rmult_integral_contrapositive_currified; try assumption; try lra; try (apply: Rinv_neq_0_compat; try lra; apply: Rmult_integral_contrapositive_currified; lra).
Qed.

Section Global.
Variables (k N NZ : nat) (pts ws : seq R) (A deta : R) (deep : bool) (geo : layers).
Variables (christoffel : Z -> nat -> nat -> nat -> nat -> nat -> nat -> R) (damping : Z -> nat -> nat -> nat -> nat -> nat -> R).
Variables (q : Z -> nat -> nat -> nat -> nat -> nat -> R) (v : nat).
Let ns := size pts.
Hypothesis Hk : (0 < k)%N.
Hypothesis HN : (0 < N)%N.
Hypothesis HZ : (0 < NZ)%N.
Hypothesis Hns : (0 < ns)%N.
Hypothesis U : uniq (extension (pts : seq R_fieldType)).
Hypothesis I : integrates (pts : seq R_fieldType) ws.
Hypothesis Hv : v = 0%N \/ v = 4%N.
Let ext_i := q_itf_i ns pts q.
Let ext_j := q_itf_j ns pts q.
Let dR_i := eta_itf_i ns pts geo.
Let dR_j := eta_itf_j ns pts geo.
Let fi r l row := (fluxes_i k N ns pts A deta deep false geo q r l row).1.1 v.
Let fj r l col := (fluxes_j k N ns pts A deta deep false geo q r l col).1.1 v.
Let fk r row col := (fluxes_k k N NZ ns pts A deta deep false geo q r row col).1.1 v.
Let m := (ns ^ 2)%N.
Lemma m_itf : m = itf_size ns.
Proof. rewrite /m /itf_size expnS expn1. by []. Qed.
Lemma in_m a b : (a < ns)%N -> (b < ns)%N -> (a * ns + b < itf_size ns)%coq_nat.
Proof. move=> /ltP Ha /ltP Hb. rewrite /itf_size. change ((Nat.add (Nat.mul a ns) b < Nat.mul ns ns)%coq_nat). nia. Qed.
Lemma lt2 c M : (c.+1 < M)%N -> (S (S c) < Nat.add M 2)%coq_nat.
Proof. move/ltP. lia. Qed.
Lemma fi_next r l row c p : (c.+1 < N)%N -> (p < itf_size ns)%coq_nat -> fi r l row c.+1 (m + p)%N = fi r l row c.+2 p.
Proof. move=> Hc Hp. rewrite m_itf. apply: (sphere_single (N + 2)%coq_nat (itf_size ns)); [exact: lt2|exact: Hp]. Qed.
Lemma fj_next r l col c p : (c.+1 < N)%N -> (p < itf_size ns)%coq_nat -> fj r l col c.+1 (m + p)%N = fj r l col c.+2 p.
Proof. move=> Hc Hp. rewrite m_itf. apply: (sphere_single (N + 2)%coq_nat (itf_size ns)); [exact: lt2|exact: Hp]. Qed.
Lemma fk_next r row col c p : (c.+1 < NZ)%N -> (p < itf_size ns)%coq_nat -> fk r row col c.+1 (m + p)%N = fk r row col c.+2 p.
Proof. move=> Hc Hp. rewrite m_itf. apply: (sphere_single (NZ + 2)%coq_nat (itf_size ns)); [exact: lt2|exact: Hp]. Qed.
Lemma same_k f e p : (p < itf_size ns)%coq_nat -> (e <= NZ)%coq_nat -> same_at (itf_size ns) e p (to_new_itf ns NZ f).
Proof. move=> Hp He. rewrite /same_at. by rewrite new_high // new_low. Qed.
Lemma fk_ground r row col p : (p < itf_size ns)%coq_nat -> fk r row col 1%N p = 0.
Proof.
  move=> Hp. have H3 : (3 <= Nat.add NZ 2)%coq_nat by have := elimT ltP HZ; lia.
  rewrite /fk /fluxes_k /itf_k /full_k ground_flux //; last by apply: same_k => //; lia. by case: Hv => ->.
Qed.
Lemma fk_lid r row col p : (p < itf_size ns)%coq_nat -> fk r row col NZ (m + p)%N = 0.
Proof.
  move=> Hp. have H3 : (3 <= Nat.add NZ 2)%coq_nat by have := elimT ltP HZ; lia.
  rewrite m_itf. have E : NZ = Nat.sub (Nat.add NZ 2) 2 by lia. 
  have L := @lid_flux (Nat.add NZ 2) (itf_size ns) (fun v => q_itf_k ns pts q r v row col) (fun _ _ _ => 1%re) H3. move: (L false) => {}L.
  rewrite /fk /fluxes_k /itf_k /full_k. rewrite [X in _ v X _]E. rewrite L //; first by case: Hv => ->. apply: same_k => //. lia.
Qed.
Let d1 r := df1 k N ns pts A deta deep false geo q r v.
Let d2 r := df2 k N ns pts A deta deep false geo q r v.
Let d3 r := df3 k N NZ ns pts A deta deep false geo q r v.
Notation vol g := (\sum_(row < N) \sum_(col < N) \sum_(z < ns) \sum_(j < ns) \sum_(i < ns) ws`_z * ws`_j * ws`_i * g row col ((z * ns + j) * ns + i)%N).
Lemma layer_df1 r l : vol (d1 r l) = \sum_(z < ns) ws`_z * \sum_(row < N) \sum_(j < ns) ws`_j * (fi r l row N (m + (z * ns + j))%N - fi r l row 1%N (z * ns + j)%N).
Proof.
  under [RHS]eq_bigr => z _ do rewrite mulr_sumr. rewrite [RHS]exchange_big /=. apply: eq_bigr => row _.
  under eq_bigr => c _ do rewrite /d1 /df1 /sphere_df1 (space_x U I). rewrite exchange_big /=. apply: eq_bigr => z _. rewrite mulr_sumr exchange_big /=. apply: eq_bigr => j _. rewrite -mulr_sumr mulrA. congr (_ * _).
  rewrite (telescope_pos (a := fun c => fi r l row c.+1 (m + (z * ns + j))%N) (b := fun c => fi r l row c.+1 (z * ns + j)%N)) // ?prednK // => c Hc. apply: fi_next => //. exact: in_m.
Qed.
Lemma layer_df2 r l : vol (d2 r l) = \sum_(z < ns) ws`_z * \sum_(col < N) \sum_(i < ns) ws`_i * (fj r l col N (m + (z * ns + i))%N - fj r l col 1%N (z * ns + i)%N).
Proof.
  under [RHS]eq_bigr => z _ do rewrite mulr_sumr. rewrite [RHS]exchange_big [LHS]exchange_big /=. apply: eq_bigr => col _.
  under eq_bigr => c _ do rewrite /d2 /df2 /sphere_df2 (space_y U I). rewrite exchange_big /=. apply: eq_bigr => z _. rewrite mulr_sumr exchange_big /=. apply: eq_bigr => i _. rewrite -mulr_sumr mulrA. congr (_ * _).
  rewrite (telescope_pos (a := fun c => fj r l col c.+1 (m + (z * ns + i))%N) (b := fun c => fj r l col c.+1 (z * ns + i)%N)) // ?prednK // => c Hc. apply: fj_next => //. exact: in_m.
Qed.
Lemma tile_df3 r : \sum_(l < NZ) vol (d3 r l) = 0.
Proof.
  rewrite exchange_big /= big1 // => row _. rewrite exchange_big /= big1 // => col _.
  under eq_bigr => c _ do rewrite /d3 /df3 /sphere_df3 (space_z U I). rewrite exchange_big /= big1 // => j _. rewrite exchange_big /= big1 // => i _. rewrite -mulr_sumr.
  rewrite (telescope_pos (a := fun c => fk r row col c.+1 (m + (j * ns + i))%N) (b := fun c => fk r row col c.+1 (j * ns + i)%N)) //.
  - rewrite prednK // fk_lid ?fk_ground ?subr0 ?mulr0 //; exact: in_m.
  - move=> c Hc. apply: fk_next => //. exact: in_m.
Qed.
Let lv l z r d x := out k N ns (point pts) A deta deep geo dR_i dR_j false ext_i ext_j r v d l x z.
Lemma side_sums r l z : \sum_(row < N) \sum_(j < ns) ws`_j * (fi r l row N (m + (z * ns + j))%N - fi r l row 1%N (z * ns + j)%N) + \sum_(col < N) \sum_(i < ns) ws`_i * (fj r l col N (m + (z * ns + i))%N - fj r l col 1%N (z * ns + i)%N)
  = SwTotal.total (fun d => SwTotal.total (fun x => ((ws`_(Nat.modulo x ns) : R) * lv l z r d x)%re) (List.seq 0 (N * ns)%coq_nat)) all_sides.
Proof.
  have -> : SwTotal.total (fun d => SwTotal.total (fun x => ((ws`_(Nat.modulo x ns) : R) * lv l z r d x)%re) (List.seq 0 (N * ns)%coq_nat)) all_sides =
    \sum_(col < N) \sum_(i < ns) ws`_i * (- fj r l col 1%N (z * ns + i)%N) + (\sum_(col < N) \sum_(i < ns) ws`_i * fj r l col N (m + (z * ns + i))%N + (\sum_(row < N) \sum_(j < ns) ws`_j * (- fi r l row 1%N (z * ns + j)%N) + (\sum_(row < N) \sum_(j < ns) ws`_j * fi r l row N (m + (z * ns + j))%N + 0))).
  { rewrite m_itf.
    rewrite -(@side_sum N pts ws (fun x => ((ws`_(Nat.modulo x ns) : R) * lv l z r South x)%re) (fun x j => - fj r l x 1%N (z * ns + j)%N)) //.
    rewrite -(@side_sum N pts ws (fun x => ((ws`_(Nat.modulo x ns) : R) * lv l z r North x)%re) (fun x j => fj r l x N (itf_size ns + (z * ns + j))%N)) //.
    rewrite -(@side_sum N pts ws (fun x => ((ws`_(Nat.modulo x ns) : R) * lv l z r West x)%re) (fun x j => - fi r l x 1%N (z * ns + j)%N)) //.
    rewrite -(@side_sum N pts ws (fun x => ((ws`_(Nat.modulo x ns) : R) * lv l z r East x)%re) (fun x j => fi r l x N (itf_size ns + (z * ns + j))%N)) //. }
  have split (a b : nat -> nat -> R) : \sum_(row < N) \sum_(j < ns) ws`_j * (a row j - b row j) = \sum_(row < N) \sum_(j < ns) ws`_j * (- b row j) + \sum_(row < N) \sum_(j < ns) ws`_j * a row j.
  { rewrite -big_split. apply: eq_bigr => row _. rewrite -big_split. apply: eq_bigr => j _. by rewrite /= -mulrDr addrC. }
  rewrite (split (fun row j => fi r l row N (m + (z * ns + j))%N) (fun row j => fi r l row 1%N (z * ns + j)%N)) (split (fun row j => fj r l row N (m + (z * ns + j))%N) (fun row j => fj r l row 1%N (z * ns + j)%N)).
  by rewrite addr0 addrC -addrA.
Qed.
Hypothesis sG_neq : forall r l row col p, sqrtG_pt3 k N ns (point pts) A deta deep geo r l row col p != 0.
Let sg := sqrtG_pt3 k N ns (point pts) A deta deep geo.
Lemma tile_total r : \sum_(l < NZ) \sum_(row < N) \sum_(col < N) \sum_(z < ns) \sum_(j < ns) \sum_(i < ns)
    euler_rhs k N NZ ns pts A deta deep false geo christoffel damping q r v l row col ((z * ns + j) * ns + i)%N * sg r l row col ((z * ns + j) * ns + i)%N * (ws`_z * ws`_j * ws`_i)
  = - \sum_(l < NZ) \sum_(z < ns) ws`_z * SwTotal.total (fun d => SwTotal.total (fun x => ((ws`_(Nat.modulo x ns) : R) * lv l z r d x)%re) (List.seq 0 (N * ns)%coq_nat)) all_sides.
Proof.
  transitivity (- (\sum_(l < NZ) vol (d1 r l) + \sum_(l < NZ) vol (d2 r l) + \sum_(l < NZ) vol (d3 r l))).
  - do 2 rewrite -big_split. rewrite -sumrN. apply: eq_bigr => l _. do 2 rewrite -big_split. rewrite -sumrN. apply: eq_bigr => row _. do 2 rewrite -big_split. rewrite -sumrN. apply: eq_bigr => col _.
    do 2 rewrite -big_split. rewrite -sumrN. apply: eq_bigr => z _. do 2 rewrite -big_split. rewrite -sumrN. apply: eq_bigr => j _. do 2 rewrite -big_split. rewrite -sumrN. apply: eq_bigr => i _.
    rewrite /euler_rhs. have -> : (v == 3%N) = false by case: Hv => ->.
    have -> : euler_forcing k N ns pts A deta deep geo christoffel damping q r v l row col ((z * ns + j) * ns + i)%N = 0 by case: Hv => ->.
    rewrite -/(d1 r) -/(d2 r) -/(d3 r). rewrite -/(sg r l row col _).
    move: (d1 r l row col _) (d2 r l row col _) (d3 r l row col _) (sG_neq r l row col ((z * ns + j) * ns + i)%N) => a b c. rewrite -/(sg r l row col _).
    rewrite /sG -/(sg r l row col _). move: (sg r l row col _) => g Hg. change ((- (1 / g) * (a + b + c) - 0) * g * (ws`_z * ws`_j * ws`_i) = - (ws`_z * ws`_j * ws`_i * a + ws`_z * ws`_j * ws`_i * b + ws`_z * ws`_j * ws`_i * c) :> R_ringType).
    rewrite -!mulrDr -[RHS]mulrN [LHS]mulrC. congr (_ * _). by rewrite subr0 mulNr mulNr mul1r mulrC mulrA mulfV // mul1r.
  - congr (- _). rewrite tile_df3 addr0 -big_split. apply: eq_bigr => l _. rewrite layer_df1 layer_df2 -big_split. apply: eq_bigr => z _. by rewrite /= -mulrDr side_sums.
Qed.
Hypothesis sym : forall i, (i < ns)%N -> point pts (ns - 1 - i)%N = (- point pts i)%re.
Hypothesis symw : forall i, (i < ns)%N -> (ws`_(ns - 1 - i) = ws`_i :> R).
Hypothesis heights : deep = true -> one_height k N ns (point pts) geo.
Lemma euler_keeps : global_integral_3d k N NZ ns pts ws A deta deep geo (fun r => euler_rhs k N NZ ns pts A deta deep false geo christoffel damping q r v) = 0.
Proof.
  rewrite /global_integral_3d. under eq_bigr => r _ do rewrite tile_total. rewrite sumrN. apply/eqP. rewrite oppr_eq0. apply/eqP.
  rewrite exchange_big big1 //= => l _. rewrite exchange_big big1 //= => z _. rewrite -mulr_sumr.
  have C := @all_sides_cancel k N ns (point pts) (fun i => ws`_i : R) (elimT ltP Hk) (elimT ltP HN) (elimT ltP Hns)
    (fun i Hi => sym (introT ltP Hi)) (fun i Hi => symw (introT ltP Hi)) (lv l z)
    (fun t d x Ht Hx => @out_cancels k N ns (point pts) A deta deep geo dR_i dR_j false ext_i ext_j (elimT ltP Hk) (elimT ltP HN) (elimT ltP Hns) (fun i Hi => sym (introT ltP Hi)) t v d l x z Hv heights Ht Hx (elimT ltP (ltn_ord z))).
  rewrite [X in _ * X](_ : _ = 0) ?mulr0 //. rewrite -[RHS]C /ranks total_map total_sum. by [].
Qed.
End Global.
Lemma sphere_euler roots k N NZ ns pts ws earth_radius deta deep advection_only geo christoffel damping q v :
  (0 < k)%N -> (0 < N)%N -> (0 < NZ)%N -> (0 < ns <= 5)%N -> gauss_legendre roots ns = Some (pts, ws) -> v = 0%N \/ v = 4%N ->
  deta <> 0%re -> (forall r l row col p, dRdeta_pt geo r l row col p <> 0%re /\ radius0 earth_radius deep (z_pt geo r l row col p) <> 0%re) ->
  (deep = true -> one_height k N ns (fun i => nth R0 pts i) geo) ->
  global_integral_3d k N NZ ns pts ws earth_radius deta deep geo (fun r => euler_rhs k N NZ ns pts earth_radius deta deep advection_only geo christoffel damping q r v) = 0%re.
Proof.
  move=> Hk HN HZ Hns E Hv He Hg Hh. have [I S] := gauss_integrates Hns E. have U := gauss_uniq Hns E. have [S1 S2] := gauss_sym Hns E. subst ns.
  case: advection_only.
  - rewrite /global_integral_3d. do 7 (rewrite big1 // => ? _). by rewrite /euler_rhs !mul0r.
  - have Hs : (0 < size pts)%N by case/andP: Hns. apply: (euler_keeps christoffel damping q Hk HN HZ Hs U I Hv _ S1 S2 Hh).
    move=> r l row col p. apply/eqP. have [H1 H2] := Hg r l row col p. apply: root3_nonzero => //. apply: dx_pos; exact/ltP.
Qed.
