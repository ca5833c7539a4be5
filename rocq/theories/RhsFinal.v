(** Conservation, with the points of the code. *)
From Coq Require Import Reals ZArith Lia Lra Arith List.
From Verif Require Import TopologyModel TopologySpec TopologyProofs GeoModel SwModel SwSpec SwRest.
From mathcomp Require Import all_ssreflect all_algebra.
From Verif Require Import RField OpModel FluxModel FluxSpec RhsModel RhsSpec RhsProofs RhsGauss SwRhs SwGlobal QuadModel QuadProofs.
Set Implicit Arguments.
Unset Strict Implicit.
Unset Printing Implicit Defensive.
Import GRing.Theory.
Delimit Scope R_scope with re.
Delimit Scope Z_scope with zz.
Local Open Scope ring_scope.

Lemma nth_List (l : seq R) i (d : R) : List.nth i l d = nth d l i.
Proof. elim: l i => [|x l IH] [|i] //=. Qed.
Lemma size_List (l : seq R) : List.length l = size l.
Proof. by elim: l => //= x l ->. Qed.
Lemma rev_sym (l m : seq R) i : (i < size l)%N -> List.rev l = m -> nth R0 l (size l - 1 - i) = nth R0 m i.
Proof.
  move=> Hi <-. rewrite -!nth_List List.rev_nth; last by rewrite size_List; exact/ltP. rewrite size_List. congr (List.nth _ _ _).
  rewrite -subnDA add1n. by [].
Qed.
Lemma gauss_sym roots n pts ws : (0 < n <= 5)%N -> gauss_legendre roots n = Some (pts, ws) ->
  (forall i, (i < n)%N -> point pts (n - 1 - i)%N = (- point pts i)%re) /\ (forall i, (i < n)%N -> nth R0 ws (n - 1 - i) = nth R0 ws i).
Proof.
  move=> Hn' E. have Hn : (1 <= n)%coq_nat /\ (n <= 5)%coq_nat by case/andP: Hn' => /leP ? /leP ?.
  have [L1 [L2 [_ [_ [S [_ W]]]]]] := gauss_points roots n pts ws Hn E. rewrite size_List in L1. rewrite size_List in L2. split=> i Hi.
  - rewrite /point -{1}L1. rewrite (rev_sym (m := List.map Ropp pts)) //; last by rewrite L1. rewrite -!nth_List. rewrite (List.nth_indep _ R0 (- R0)%re) ?List.map_nth //. rewrite List.map_length size_List L1. exact/ltP.
  - rewrite -{1}L2. rewrite (rev_sym (m := ws)) //. by rewrite L2.
Qed.
Lemma sphere_mass roots k N ns pts ws radius Omega rot topo q : (0 < k)%N -> (0 < N)%N -> (0 < ns <= 5)%N -> gauss_legendre roots ns = Some (pts, ws) -> radius <> 0%re ->
  (if topo is Some t then one_surface k N ns (fun i => nth R0 pts i) (hsurf_itf_i t) (hsurf_itf_j t) else True) ->
  global_integral_2d k N ns pts ws radius (fun r => sw_rhs k N ns pts radius Omega rot topo q r 0) = 0%re.
Proof.
  move=> Hk HN Hns E Hr Ht. have [I S] := gauss_integrates Hns E. have U := gauss_uniq Hns E. have [S1 S2] := gauss_sym Hns E. subst ns.
  have Hs : (0 < size pts)%N by case/andP: Hns. apply: (sw_mass Omega rot q Hk HN Hs U I Hr S1 S2). case: topo Ht => //= _. exists (fun _ => R0). by [].
Qed.
Lemma plane_mass roots n1 n2 ns pts ws dx1 dx3 q f0 g0 v : (0 < n1)%N -> (0 < n2)%N -> (0 < ns <= 5)%N -> gauss_legendre roots ns = Some (pts, ws) -> dx1 <> 0%re -> dx3 <> 0%re -> v = 0%N \/ v = 3%N ->
  plane_integral n1 n2 ns (ws : seq R_fieldType) dx1 dx3 (plane_rhs n1 n2 ns pts dx1 dx3 q f0 g0 v) = 0.
Proof.
  move=> H1 H2 Hns E X1 X3 Hv. have [I S] := gauss_integrates Hns E. have U := gauss_uniq Hns E. subst ns. apply: plane_keeps => //; exact/eqP.
Qed.
Lemma plane_momentum roots n1 n2 ns pts ws dx1 dx3 q f0 g0 : (0 < n1)%N -> (0 < n2)%N -> (0 < ns <= 5)%N -> gauss_legendre roots ns = Some (pts, ws) -> dx1 <> 0%re -> dx3 <> 0%re ->
  let p1 e k := dry_pressure p0 Rd cpd cvd (plane_q_itf_x1 ns pts q 3 e k) in
  let p3 e k := dry_pressure p0 Rd cpd cvd (plane_q_itf_x3 ns pts q 3 e k) in
  let integral f := plane_integral n1 n2 ns (ws : seq R_fieldType) dx1 dx3 f in
  let wall n d f := wall_integral n ns (ws : seq R_fieldType) d f in
  integral (plane_rhs n1 n2 ns pts dx1 dx3 q f0 g0 1) = wall n2 dx3 (fun r k => p1 (r * n1)%N k) - wall n2 dx3 (fun r k => p1 (r * n1 + n1.-1)%N (ns + k)%N) /\
  integral (plane_rhs n1 n2 ns pts dx1 dx3 q f0 g0 2) = wall n1 dx1 (fun c k => p3 c k) - wall n1 dx1 (fun c k => p3 (n2.-1 * n1 + c)%N (ns + k)%N) - gravity * integral (q 0%N).
Proof.
  move=> H1 H2 Hns E X1 X3. cbv zeta. have [I S] := gauss_integrates Hns E. have U := gauss_uniq Hns E. subst ns.
  split; (rewrite (plane_balance U I) //; [|exact/eqP|exact/eqP]); rewrite /= ?addr0 ?add0r; by [].
Qed.

Lemma apply_zero m (f : nat -> R) (M : nat -> nat -> R) p : (forall k, (k < m)%N -> f k = 0) -> apply_op (F := R_fieldType) m f M p = 0.
Proof. move=> H. rewrite /apply_op big1 // => i _. by rewrite H // mul0r. Qed.
Lemma sphere_rest roots k N ns pts ws radius Omega rot topo q r row col p : (0 < k)%N -> (0 < N)%N -> (0 < ns <= 5)%N -> gauss_legendre roots ns = Some (pts, ws) ->
  (forall r row col p, q r 1%N row col p = 0%re /\ q r 2%N row col p = 0%re) -> (0 <= r < 6 * Z.of_nat k * Z.of_nat k)%zz -> (row < N)%N -> (col < N)%N ->
  sw_rhs k N ns pts radius Omega rot topo q r 0 row col p = 0%re.
Proof.
  move=> Hk HN Hns E Hq Hr Hrow Hcol. have [S1 _] := gauss_sym Hns E. have Hs : (0 < ns)%N by case/andP: Hns.
  have HK : (1 <= Z.of_nat k)%zz by move/ltP: Hk; lia.
  have Ht := @tile_of_rank_ok (Z.of_nat k) r HK Hr. have Er := @rank_of_tile_of_rank (Z.of_nat k) r HK.
  have R v x e z : v = 1%N \/ v = 2%N -> forall r, ext_i ns pts topo q r v x e z = 0%re /\ ext_j ns pts topo q r v x e z = 0%re.
  { move=> Hv r'. split; apply: apply_zero => i _; rewrite /Q_unpacked; case: Hv => -> /=; first [exact: (proj1 (Hq _ _ _ _))|exact: (proj2 (Hq _ _ _ _))]. }
  have Fi e z : (e < N)%N -> (z < ns + ns)%N -> itf_flux_i k N ns pts radius topo q r 0 row e.+1 z = 0%re.
  { move=> He Hz. rewrite -{1}Er /itf_flux_i.
    have Hz' : (z < 2 * ns)%coq_nat by apply/ltP; rewrite addnn -mul2n in Hz.
    have He' : (1 <= e.+1)%coq_nat /\ (e.+1 <= N)%coq_nat by split; [lia|exact/ltP].
    exact: (@mass_i k N ns (point pts) radius (ext_i ns pts topo q) (ext_j ns pts topo q) (hsurf_itf_i (ground topo)) (hsurf_itf_j (ground topo)) (elimT ltP Hk) (elimT ltP HN) (elimT ltP Hs)
      (fun i Hi => S1 i (introT ltP Hi)) (fun r' v x e' z' Hv => R v x e' z' Hv r') _ Ht row e.+1 z (elimT ltP Hrow) He' Hz'). }
  have Fj e z : (e < N)%N -> (z < ns + ns)%N -> itf_flux_j k N ns pts radius topo q r 0 col e.+1 z = 0%re.
  { move=> He Hz. rewrite -{1}Er /itf_flux_j.
    have Hz' : (z < 2 * ns)%coq_nat by apply/ltP; rewrite addnn -mul2n in Hz.
    have He' : (1 <= e.+1)%coq_nat /\ (e.+1 <= N)%coq_nat by split; [lia|exact/ltP].
    exact: (@mass_j k N ns (point pts) radius (ext_i ns pts topo q) (ext_j ns pts topo q) (hsurf_itf_i (ground topo)) (hsurf_itf_j (ground topo)) (elimT ltP Hk) (elimT ltP HN) (elimT ltP Hs)
      (fun i Hi => S1 i (introT ltP Hi)) (fun r' v x e' z' Hv => R v x e' z' Hv r') _ Ht col e.+1 z (elimT ltP Hcol) He' Hz'). }
  rewrite /sw_rhs /sw_df1 /sw_df2.
  rewrite (apply_zero (f := flux_x1 _ _ _ _ _ _ _ _ _ _)); last by move=> i _; rewrite /flux_x1 /sw_flux_x1 (proj1 (Hq _ _ _ _)) Rmult_0_r.
  rewrite (apply_zero (f := flux_x2 _ _ _ _ _ _ _ _ _ _)); last by move=> i _; rewrite /flux_x2 /sw_flux_x2 (proj2 (Hq _ _ _ _)) Rmult_0_r.
  rewrite (apply_zero (f := itf_flux_i _ _ _ _ _ _ _ _ _ _ _)); last by move=> i Hi; apply: Fi.
  rewrite (apply_zero (f := itf_flux_j _ _ _ _ _ _ _ _ _ _ _)); last by move=> i Hi; apply: Fj.
  rewrite /forcing. rewrite /GRing.mul /GRing.inv /GRing.opp /GRing.add /GRing.zero /=. ring.
Qed.
