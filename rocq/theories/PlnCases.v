(** A flow along x1 that spreads out: rho = 1, rho_u = x, in elements of two points. *)
From Coq Require Import Reals Lra Lia.
From Verif Require Import FluxModel.
From mathcomp Require Import all_ssreflect all_algebra.
From Verif Require Import RField RNum OpModel OpSpec OpFinal RhsModel RhsSpec RhsGauss QuadModel SwSplitModel SwSplitProofs PlnModel PlnSpec PlnFaces PlnFinal PlnExact.
Set Implicit Arguments.
Unset Strict Implicit.
Unset Printing Implicit Defensive.
Import GRing.Theory.
Delimit Scope R_scope with re.
Local Open Scope ring_scope.

Lemma gauss_sizes roots n pts ws : (0 < n <= 5)%N -> gauss_legendre roots n = Some (pts, ws) -> seq.size pts = n /\ seq.size ws = n.
Proof.
  move=> Hn' E. have Hn : (1 <= n)%coq_nat /\ (n <= 5)%coq_nat by case/andP: Hn' => /leP ? /leP ?.
  have [L1 [L2 _]] := QuadProofs.gauss_points roots n pts ws Hn E.
  split; [rewrite -[RHS]L1; elim: (pts) => //= ? ? -> //|rewrite -[RHS]L2; elim: (ws) => //= ? ? -> //].
Qed.
Lemma face_poly pts (q : nat -> nat -> R) v e (p : {poly R_numFieldType}) : let ns := seq.size pts in uniq (extension (pts : seq R_numFieldType)) -> (seq.size p <= ns)%N -> (forall l, (l < ns)%N -> q v (e * ns + l)%N = p.[pts`_l]) ->
  face_var ns pts q v e 0 = p.[-1] /\ face_var ns pts q v e 1 = p.[1].
Proof.
  move=> ns U S H. have U' := uniq_ext U. split; rewrite /face_var.
  - rewrite -(@extrap_neg_ok R_numFieldType pts p U' S). apply: eq_bigr => l _. by rewrite H.
  - rewrite -(@extrap_pos_ok R_numFieldType pts p U' S). apply: eq_bigr => l _. by rewrite H.
Qed.
Definition spreading (pts : seq R) (v z x : nat) : R := if v == 1%N then (2 * INR (x %/ 2) + nth R0 pts (x %% 2)%N)%re else if v == 2%N then 0%re else 1%re.
Section Spreading.
Variables (roots : nat -> seq R * seq R) (pts ws : seq R).
Hypothesis E : gauss_legendre roots 2 = Some (pts, ws).
Let Hs : seq.size pts = 2%N. Proof. by case: (@gauss_sizes roots 2 pts ws erefl E). Qed.
Let U : uniq (extension (pts : seq R_numFieldType)). Proof. exact: (@gauss_uniq roots 2 pts ws erefl E). Qed.
Let Q := spreading pts.
Let px (e : nat) : {poly R_numFieldType} := ((2 * INR e)%re : R_numFieldType)%:P + 'X.
Lemma px_size e : (seq.size (px e) <= 2)%N.
Proof. apply: (leq_trans (size_add _ _)). rewrite geq_max size_polyX andbT. exact: leq_trans (size_polyC_leq1 _) _. Qed.
Lemma const_size (a : R) k : (0 < k)%N -> (seq.size ((a : R_numFieldType)%:P) <= k)%N.
Proof. move=> H. exact: leq_trans (size_polyC_leq1 _) H. Qed.
Lemma face_x1 z e : [/\ face_var 2 pts (line_x1 Q z) 0 e 0 = 1%re, face_var 2 pts (line_x1 Q z) 0 e 1 = 1%re, face_var 2 pts (line_x1 Q z) 1 e 0 = (2 * INR e - 1)%re & face_var 2 pts (line_x1 Q z) 1 e 1 = (2 * INR e + 1)%re] /\
  [/\ face_var 2 pts (line_x1 Q z) 2 e 0 = 0%re, face_var 2 pts (line_x1 Q z) 2 e 1 = 0%re, face_var 2 pts (line_x1 Q z) 3 e 0 = 1%re & face_var 2 pts (line_x1 Q z) 3 e 1 = 1%re].
Proof.
  have C v (a : R) : (forall x, line_x1 Q z v x = a) -> face_var 2 pts (line_x1 Q z) v e 0 = a /\ face_var 2 pts (line_x1 Q z) v e 1 = a.
  { move=> H. have := @face_poly pts (line_x1 Q z) v e ((a : R_numFieldType)%:P) U. rewrite Hs !hornerC. apply; [exact: const_size|by move=> l _; rewrite hornerC]. }
  have [A0 A1] := C 0%N 1%re (fun _ => erefl). have [B0 B1] := C 2%N 0%re (fun _ => erefl). have [D0 D1] := C 3%N 1%re (fun _ => erefl).
  have := @face_poly pts (line_x1 Q z) 1 e (px e) U. rewrite Hs !hornerE => /(_ (px_size e)) [l Hl| M0 M1]; last by split.
  rewrite /line_x1 /Q /spreading /=. have [-> ->] := divmod_small e Hl. by rewrite !hornerE.
Qed.
Lemma face_x3 x e v s : (s < 2)%N -> (v < 4)%N -> face_var 2 pts (line_x3 Q x) v e s = Q v 0%N x.
Proof.
  move=> Hs2 Hv. have := @face_poly pts (line_x3 Q x) v e ((Q v 0%N x : R_numFieldType)%:P) U. rewrite Hs !hornerC => H. case: H => [|l _|A B]; [exact: const_size|by rewrite hornerC|]. case: s Hs2 => [|[|]] //.
Qed.
Lemma spreading_continuous z x e : (0 < e)%N -> forall w, (w < 4)%N ->
  (face_var 2 pts (line_x1 Q z) w e.-1 1 = face_var 2 pts (line_x1 Q z) w e 0 /\ face_var 2 pts (line_x1 Q z) w e 1 = face_var 2 pts (line_x1 Q z) w e.+1 0) /\
  (forall e, face_var 2 pts (line_x3 Q x) w e.-1 1 = face_var 2 pts (line_x3 Q x) w e 0 /\ face_var 2 pts (line_x3 Q x) w e 1 = face_var 2 pts (line_x3 Q x) w e.+1 0).
Proof.
  move=> He w Hw. split; last by move=> e'; rewrite !face_x3.
  have [[A0 A1 B0 B1] [C0 C1 D0 D1]] := face_x1 z e. have [[A0' A1' B0' B1'] [C0' C1' D0' D1']] := face_x1 z e.-1. have [[A0'' A1'' B0'' B1''] [C0'' C1'' D0'' D1'']] := face_x1 z e.+1.
  case: w Hw => [|[|[|[|]]]] // _; rewrite ?A0 ?A1 ?B0 ?B1 ?C0 ?C1 ?D0 ?D1 ?A1' ?B1' ?C1' ?D1' ?A0'' ?B0'' ?C0'' ?D0'' //. split.
  - case: e He {A0 A1 B0 B1 C0 C1 D0 D1 A0' A1' B0' B1' C0' C1' D0' D1' A0'' A1'' B0'' B1'' C0'' C1'' D0'' D1''} => // e _. rewrite S_INR /=. lra.
  - rewrite S_INR. lra.
Qed.
Lemma spreading_implicit dx1 dx3 z x : (2 <= z < 4)%N -> (2 <= x < 4)%N -> rhs_bubble_implicit 3 3 2 pts dx1 dx3 Q 0 z x = (- (2 / dx1))%re.
Proof.
  move=> Hz Hx. have [j -> Hj] : exists2 j, z = (1 * 2 + j)%N & (j < 2)%N by exists (z - 2)%N; rewrite ?mul1n ?subnKC //; [case/andP: Hz|rewrite ltn_subLR; case/andP: Hz].
  have [i -> Hi] : exists2 i, x = (1 * 2 + i)%N & (i < 2)%N by exists (x - 2)%N; rewrite ?mul1n ?subnKC //; [case/andP: Hx|rewrite ltn_subLR; case/andP: Hx].
  have := @implicit_exact 3 3 pts dx1 dx3 Q 1 1 j i 0 (px 1) 0 U. rewrite Hs => /(_ Hj Hi) H.
  have Sz : (seq.size (0%R : {poly R_numFieldType}) <= 4)%N by rewrite size_poly0.
  have Cn := @spreading_continuous (1 * 2 + j)%N (1 * 2 + i)%N 1 erefl. have [[A0 A1 B0 B1] [C0 C1 D0 D1]] := face_x1 (1 * 2 + j)%N 1.
  have K : (0 < 1)%N /\ (2 < 3)%N by []. have Sx : (seq.size (px 1) <= 4)%N by exact: leq_trans (px_size 1) _.
  rewrite (H K K Sx Sz) //.
  - rewrite deriv0 horner0 /px derivD derivC derivX add0r hornerC.
    change ((- (1 * 2 / dx1 + 0 * 2 / dx3) - 0 = - (2 / dx1))%re). rewrite /Rdiv. ring.
  - by move=> w /Cn [].
  - by move=> w /Cn [].
  - move=> w s Hw Hs'. rewrite face_x3 //; last by case: w Hw => [|[|[|[|]]]]. case/orP: Hw => /eqP -> /=; case: s Hs' => [|[|]] // _; rewrite ?A0 ?A1 ?D0 ?D1 /Q /spreading /=; split; lra.
  - move=> l Hl. rewrite /acoustic_flux /Q /spreading /=. have [-> ->] := divmod_small 1 Hl. by rewrite /px !hornerE.
  - rewrite /acoustic_flux /= B0 /px !hornerE. by [].
  - rewrite /acoustic_flux /= B1 /px !hornerE. by [].
  - move=> l Hl. by rewrite horner0.
  - rewrite horner0 /acoustic_flux /= face_x3 //.
  - rewrite horner0 /acoustic_flux /= face_x3 //.
Qed.
Lemma spreading_convective dx1 dx3 z x old1 old3 : (2 <= z < 4)%N -> (2 <= x < 4)%N -> rhs_bubble_convective 3 3 2 pts dx1 dx3 Q false old1 old3 3 z x = (- (2 / dx1))%re.
Proof.
  move=> Hz Hx. have [j -> Hj] : exists2 j, z = (1 * 2 + j)%N & (j < 2)%N by exists (z - 2)%N; rewrite ?mul1n ?subnKC //; [case/andP: Hz|rewrite ltn_subLR; case/andP: Hz].
  have [i -> Hi] : exists2 i, x = (1 * 2 + i)%N & (i < 2)%N by exists (x - 2)%N; rewrite ?mul1n ?subnKC //; [case/andP: Hx|rewrite ltn_subLR; case/andP: Hx].
  have := @convective_exact 3 3 pts dx1 dx3 Q 1 1 j i 3 (px 1) 0 U. rewrite Hs => /(_ Hj Hi) H.
  have Sz : (seq.size (0%R : {poly R_numFieldType}) <= 4)%N by rewrite size_poly0.
  have Cn := @spreading_continuous (1 * 2 + j)%N (1 * 2 + i)%N 1 erefl. have [[A0 A1 B0 B1] [C0 C1 D0 D1]] := face_x1 (1 * 2 + j)%N 1.
  have Eu (a : R) : (1 * (a / 1) + 0 = a)%re by field.
  have K : (0 < 1)%N /\ (2 < 3)%N by []. have Sx : (seq.size (px 1) <= 4)%N by exact: leq_trans (px_size 1) _.
  rewrite (H K K Sx Sz) //.
  - rewrite deriv0 horner0 /px derivD derivC derivX add0r hornerC.
    change ((- (1 * 2 / dx1 + 0 * 2 / dx3) - 0 = - (2 / dx1))%re). rewrite /Rdiv. ring.
  - by move=> w /Cn [].
  - by move=> w /Cn [].
  - move=> l _. rewrite /Q /spreading /=. split; lra.
  - move=> l Hl. rewrite /euler_flux /Q /spreading /= Eu. have [-> ->] := divmod_small 1 Hl. by rewrite /px !hornerE.
  - rewrite /euler_flux /= B0 A0 D0 Eu /px !hornerE. by [].
  - rewrite /euler_flux /= B1 A1 D1 Eu /px !hornerE. by [].
  - move=> l Hl. by rewrite horner0 /euler_flux /Q /spreading /= Eu.
  - by rewrite horner0 /euler_flux /= !face_x3 // /Q /spreading /= Eu.
  - by rewrite horner0 /euler_flux /= !face_x3 // /Q /spreading /= Eu.
Qed.
End Spreading.
Lemma implicit_balance roots nx nz ns pts ws dx1 dx3 Q : (0 < nx)%N -> (0 < nz)%N -> (0 < ns <= 5)%N -> gauss_legendre roots ns = Some (pts, ws) -> dx1 <> 0%re -> dx3 <> 0%re ->
  let rhs := rhs_bubble_implicit nx nz ns pts dx1 dx3 Q in let total := region_integral 0 nx nz ws dx1 dx3 in
  total (rhs 0%N) = 0%re /\
  total (rhs 1%N) = line_integral 0 nz ws dx3 (fun z => eos (face_var ns pts (line_x1 Q z) 3 0 0) - eos (face_var ns pts (line_x1 Q z) 3 nx.-1 1))%re /\
  total (rhs 2%N) = (line_integral 0 nx ws dx1 (fun x => eos (face_var ns pts (line_x3 Q x) 3 0 0) - eos (face_var ns pts (line_x3 Q x) 3 nz.-1 1)) - gravity * total (Q 0%N))%re.
Proof.
  move=> Hx Hz Hns E H1 H3. have [I S] := gauss_integrates Hns E. have U := gauss_uniq Hns E. have [S1 S2] := gauss_sizes Hns E. subst ns.
  split; [exact: implicit_mass|split; [exact: implicit_x1|exact: implicit_x3]].
Qed.
Lemma convective_balance roots nx nz ns pts ws dx1 dx3 Q old1 old3 v : (0 < nx)%N -> (0 < nz)%N -> (0 < ns <= 5)%N -> gauss_legendre roots ns = Some (pts, ws) -> dx1 <> 0%re -> dx3 <> 0%re ->
  let total := region_integral 0 nx nz ws dx1 dx3 in
  total (rhs_bubble_convective nx nz ns pts dx1 dx3 Q false old1 old3 v)
  = ((if v == 1%N then line_integral 0 nz ws dx3 (fun z => eos (face_var ns pts (line_x1 Q z) 3 0 0) - eos (face_var ns pts (line_x1 Q z) 3 nx.-1 1)) else 0)
     + (if v == 2%N then line_integral 0 nx ws dx1 (fun x => eos (face_var ns pts (line_x3 Q x) 3 0 0) - eos (face_var ns pts (line_x3 Q x) 3 nz.-1 1)) - gravity * total (Q 0%N) else 0))%re.
Proof.
  move=> Hx Hz Hns E H1 H3. have [I S] := gauss_integrates Hns E. have U := gauss_uniq Hns E. have [S1 S2] := gauss_sizes Hns E. subst ns. exact: convective_closed.
Qed.
Lemma periodic_balance roots nx nz ns pts ws dx1 dx3 Q old1 old3 : (1 < nx)%N -> (0 < nz)%N -> (0 < ns <= 5)%N -> gauss_legendre roots ns = Some (pts, ws) -> dx1 <> 0%re -> dx3 <> 0%re ->
  let rhs := rhs_bubble_convective nx nz ns pts dx1 dx3 Q true old1 old3 in let total := region_integral 1 nx.-1 nz ws dx1 dx3 in
  (forall v, total (rhs v) = (if v == 2%N then line_integral 1 nx.-1 ws dx1 (fun x => eos (face_var ns pts (line_x3 Q x) 3 0 0) - eos (face_var ns pts (line_x3 Q x) 3 nz.-1 1)) - gravity * total (Q 0%N) else 0)%re) /\
  ((forall v z i, (i < ns)%N -> Q v z i = Q v z (nx.-1 * ns + i)%N) -> forall v z i, (i < ns)%N -> (z < nz * ns)%N -> rhs v z i = rhs v z (nx.-1 * ns + i)%N).
Proof.
  move=> Hx Hz Hns E H1 H3. have [I S] := gauss_integrates Hns E. have U := gauss_uniq Hns E. have [S1 S2] := gauss_sizes Hns E. subst ns.
  split; [move=> v; apply: convective_ring => //; exact: ltnW|move=> H v z i Hi Hzz; exact: convective_copy].
Qed.
