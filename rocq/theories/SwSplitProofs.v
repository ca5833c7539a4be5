(** The stiff and the other part of the shallow water equations sum to the whole. *)
From Coq Require Import Reals ZArith Lia Lra Arith FunctionalExtensionality.
From Verif Require Import TopologyModel TopologySpec GeoModel SwModel SwSpec SwEdges SwTotal.
From mathcomp Require Import all_ssreflect all_algebra.
From Verif Require Import RField OpModel OpSpec OpTensor FluxModel FluxProofs RhsModel RhsSpec RhsFlat SwRhs SwSplitModel SwSplitSpec.
Set Implicit Arguments.
Unset Strict Implicit.
Unset Printing Implicit Defensive.
Import GRing.Theory.
Delimit Scope R_scope with re.
Local Open Scope ring_scope.

Lemma divmod_small ns j i : (i < ns)%N -> ((j * ns + i) %/ ns)%N = j /\ ((j * ns + i) %% ns)%N = i.
Proof. move=> Hi. have Hns : (0 < ns)%N by case: ns Hi. by rewrite divnMDl // divn_small // addn0 modnMDl modn_small. Qed.
Lemma metric_positive radius d1 d2 X Y : radius <> 0%re -> d1 <> 0%re -> d2 <> 0%re -> (0 < s11 (H_contra radius d1 d2 X Y) /\ 0 < s22 (H_contra radius d1 d2 X Y))%re.
Proof.
  move=> Hr H1 H2. rewrite /H_contra /=. rewrite /delta2.
  have sq (x : R) : x <> 0%re -> (0 < x ^ 2)%re by move=> H; rewrite -Rsqr_pow2; exact: Rsqr_pos_lt.
  have P : (0 < 1 + X ^ 2 + Y ^ 2)%re by have := pow2_ge_0 X; have := pow2_ge_0 Y; lra.
  have PX : (0 < 1 + X ^ 2)%re by have := pow2_ge_0 X; lra.
  have PY : (0 < 1 + Y ^ 2)%re by have := pow2_ge_0 Y; lra.
  have Q1 := sq _ H1. have Q2 := sq _ H2. have Q := sq _ Hr.
  rewrite /= in P PX PY Q1 Q2 Q.
  split; apply: Rmult_lt_0_compat; apply: Rdiv_lt_0_compat => //; try lra; exact: Rmult_lt_0_compat.
Qed.
Lemma mach_same h a hu : (h * a)%re <> 0%re -> mach_of h a hu = mach_at h hu a.
Proof. rewrite /mach_of /mach_at. by case: Req_EM_T. Qed.
Lemma wave_nonzero h H : (0 < h)%re -> (0 < H)%re -> (h * wave h H)%re <> 0%re.
Proof.
  move=> Hh HH. apply: Rmult_integral_contrapositive_currified; first lra. apply: Rgt_not_eq. apply: sqrt_lt_R0. apply: Rmult_lt_0_compat => //. apply: Rmult_lt_0_compat => //. exact: gravity_pos.
Qed.

Section Split.
Variables (k N : nat) (pts : seq R) (radius Omega : R) (rot : Z -> rotation) (topo : option topo_block) (Q : Z -> nat -> nat -> nat -> R).
Let ns := seq.size pts.
Hypothesis Hk : (0 < k)%N.
Hypothesis HN : (0 < N)%N.
Hypothesis Hns : (0 < ns)%N.
Hypothesis Hr : radius <> 0%re.
Let q := same_field ns Q.
Let T := same_ground ns topo.
Lemma hsurf_same r row col j i : (i < ns)%N -> hsurf (ground T) r row col (j * ns + i)%N = b_hsurf (b_ground topo) r (row * ns + j)%N (col * ns + i)%N.
Proof. move=> Hi. rewrite /T /ground /b_ground /same_ground. case: topo => //= t. rewrite /by_element. by have [-> ->] := divmod_small j Hi. Qed.
Lemma slopes_same r row col j i : (i < ns)%N -> dzdx1 (ground T) r row col (j * ns + i)%N = b_dzdx1 (b_ground topo) r (row * ns + j)%N (col * ns + i)%N /\ dzdx2 (ground T) r row col (j * ns + i)%N = b_dzdx2 (b_ground topo) r (row * ns + j)%N (col * ns + i)%N.
Proof. move=> Hi. rewrite /T /ground /b_ground /same_ground. case: topo => //= t. rewrite /by_element. by have [-> ->] := divmod_small j Hi. Qed.
Lemma sides_same r x e s j : (j < ns)%N ->
  hsurf_itf_i (ground T) r x e (s * ns + j)%N = b_itf_i (b_ground topo) r e s (x * ns + j)%N /\ hsurf_itf_j (ground T) r x e (s * ns + j)%N = b_itf_j (b_ground topo) r e s (x * ns + j)%N.
Proof. move=> Hi. rewrite /T /ground /b_ground /same_ground. case: topo => //= t. rewrite /by_side. by have [-> ->] := divmod_small s Hi. Qed.
Lemma q_same r v row col j i : (i < ns)%N -> q r v row col (j * ns + i)%N = Q r v (row * ns + j)%N (col * ns + i)%N.
Proof. move=> Hi. rewrite /q /same_field /by_element. by have [-> ->] := divmod_small j Hi. Qed.
Lemma HH_same r v row col j i : (i < ns)%N -> Q_unpacked T q r v row col (j * ns + i)%N = HH topo Q r v (row * ns + j)%N (col * ns + i)%N.
Proof. move=> Hi. by rewrite /Q_unpacked /HH q_same // hsurf_same. Qed.
Lemma ext_i_same r v row e s j : (j < ns)%N -> (s < 2)%N -> ext_i ns pts T q r v row e (s * ns + j)%N = b_ext_i ns pts topo Q r v (row * ns + j)%N e s.
Proof.
  move=> Hj. rewrite /ext_i /b_ext_i /weights. have [E0 E1] := extrap_x_2d_ok (neg pts) (pos pts) (Q_unpacked T q r v row e.-1) Hj.
  case: s => [|[|//]] _; [rewrite mul0n add0n|rewrite mul1n]; rewrite ?E0 ?E1; apply: eq_bigr => l _; by rewrite HH_same.
Qed.
Lemma ext_j_same r v col e s i : (i < ns)%N -> (s < 2)%N -> ext_j ns pts T q r v col e (s * ns + i)%N = b_ext_j ns pts topo Q r v (col * ns + i)%N e s.
Proof.
  move=> Hi. rewrite /ext_j /b_ext_j /weights. have [E0 E1] := extrap_y_2d_ok (neg pts) (pos pts) (Q_unpacked T q r v e.-1 col) Hi.
  case: s => [|[|//]] _; [rewrite mul0n add0n|rewrite mul1n]; rewrite ?E0 ?E1; apply: eq_bigr => l _; by rewrite HH_same.
Qed.
Lemma sent_same r v d : sent N ns (ext_i ns pts T q r v) (ext_j ns pts T q r v) d = b_sent N ns pts topo Q r v d.
Proof.
  rewrite /sent /b_sent. apply: List.map_ext => x.
  have Hm : (Nat.modulo x ns < ns)%N by apply/ltP; apply: Nat.mod_upper_bound; move/ltP: Hns; lia.
  have E : x = (Nat.div x ns * ns + Nat.modulo x ns)%N by rewrite {1}(Nat.div_mod x ns); [rewrite -multE -plusE; lia|move/ltP: Hns; lia].
  have L f : f (Nat.modulo x ns) = f (0 * ns + Nat.modulo x ns)%N :> R by rewrite mul0n add0n.
  have U f : f (Nat.add ns (Nat.modulo x ns)) = f (1 * ns + Nat.modulo x ns)%N :> R by rewrite mul1n.
  case: d.
  - rewrite (L (ext_j ns pts T q r v _ 1%N)) ext_j_same // -E //.
  - rewrite (U (ext_j ns pts T q r v _ N)) ext_j_same // -E //.
  - rewrite (L (ext_i ns pts T q r v _ 1%N)) ext_i_same // -E //.
  - rewrite (U (ext_i ns pts T q r v _ N)) ext_i_same // -E //.
Qed.
Lemma halo_same r v d x : halo k N ns (point pts) (ext_i ns pts T q) (ext_j ns pts T q) r v d x = b_halo k N ns pts topo Q r v d x.
Proof.
  rewrite /halo /b_halo /halo_h /halo_u /b_halo_h /b_halo_u.
  have -> : sent_h N ns (ext_i ns pts T q) (ext_j ns pts T q) = (fun r d => b_sent N ns pts topo Q r 0 d).
    by apply: functional_extensionality => r'; apply: functional_extensionality => d'; rewrite /sent_h sent_same.
  have -> // : sent_u N ns (ext_i ns pts T q) (ext_j ns pts T q) = b_sent_u N ns pts topo Q.
    by apply: functional_extensionality => r'; apply: functional_extensionality => d'; rewrite /sent_u /b_sent_u !sent_same.
Qed.
Lemma var_i_same r v row e s j : (j < ns)%N -> (s < 2)%N -> var_itf_i k N ns (point pts) (ext_i ns pts T q) (ext_j ns pts T q) (hsurf_itf_i (ground T)) r v row e (s * ns + j)%N = b_var_i k N ns pts topo Q r v e s (row * ns + j)%N.
Proof.
  move=> Hj Hs. have [E1 _] := sides_same r row e s Hj. rewrite /var_itf_i /b_var_i E1. congr (_ - _).
  rewrite /with_halo ext_i_same //. have -> : (Nat.leb 1 e && Nat.leb e N) = (0 < e <= N)%N by congr andb; [apply/idP/idP => [/Nat.leb_le/leP|/leP/Nat.leb_le]|apply/idP/idP => [/Nat.leb_le/leP|/leP/Nat.leb_le]].
  case: ifP => // _. have -> : Nat.eqb e 0 = (e == 0)%N by case: e {E1}.
  case: s Hs {E1} => [|[|//]] _; rewrite ?mul0n ?add0n ?mul1n /=.
  - have -> : Nat.leb ns j = false by apply/Nat.leb_gt; exact/ltP.
    have -> : Nat.ltb j ns = true by apply/Nat.ltb_lt; exact/ltP.
    case: ifP => // _. exact: halo_same.
  - have -> : Nat.leb ns (ns + j)%N = true by apply/Nat.leb_le; rewrite -plusE; lia.
    have -> : Nat.ltb (ns + j)%N ns = false by apply/Nat.ltb_ge; rewrite -plusE; lia.
    have -> : Nat.sub (ns + j)%N ns = j by rewrite -plusE; lia.
    case: ifP => // _. exact: halo_same.
Qed.
Lemma var_j_same r v col e s i : (i < ns)%N -> (s < 2)%N -> var_itf_j k N ns (point pts) (ext_i ns pts T q) (ext_j ns pts T q) (hsurf_itf_j (ground T)) r v col e (s * ns + i)%N = b_var_j k N ns pts topo Q r v e s (col * ns + i)%N.
Proof.
  move=> Hj Hs. have [_ E1] := sides_same r col e s Hj. rewrite /var_itf_j /b_var_j E1. congr (_ - _).
  rewrite /with_halo ext_j_same //. have -> : (Nat.leb 1 e && Nat.leb e N) = (0 < e <= N)%N by congr andb; [apply/idP/idP => [/Nat.leb_le/leP|/leP/Nat.leb_le]|apply/idP/idP => [/Nat.leb_le/leP|/leP/Nat.leb_le]].
  case: ifP => // _. have -> : Nat.eqb e 0 = (e == 0)%N by case: e {E1}.
  case: s Hs {E1} => [|[|//]] _; rewrite ?mul0n ?add0n ?mul1n /=.
  - have -> : Nat.leb ns i = false by apply/Nat.leb_gt; exact/ltP.
    have -> : Nat.ltb i ns = true by apply/Nat.ltb_lt; exact/ltP.
    case: ifP => // _. exact: halo_same.
  - have -> : Nat.leb ns (ns + i)%N = true by apply/Nat.leb_le; rewrite -plusE; lia.
    have -> : Nat.ltb (ns + i)%N ns = false by apply/Nat.ltb_ge; rewrite -plusE; lia.
    have -> : Nat.sub (ns + i)%N ns = i by rewrite -plusE; lia.
    case: ifP => // _. exact: halo_same.
Qed.
(** at the points *)
Lemma line_same c x j : line k N ns (point pts) c (x * ns + j)%N = b_line k N ns pts c (x * ns + j)%N.
Proof. by []. Qed.
Lemma G_same r row col j i : (i < ns)%N -> sqrtG_pt k N ns (point pts) radius r row col (j * ns + i)%N = b_G k N ns pts radius r (row * ns + j)%N (col * ns + i)%N.
Proof. move=> Hi. rewrite /sqrtG_pt /X_pt /Y_pt /b_G. by have [-> ->] := @divmod j ns i (elimT ltP Hi). Qed.
Lemma H_same r row col j i : (i < ns)%N -> H_pt k N ns (point pts) radius r row col (j * ns + i)%N = b_H k N ns pts radius r (row * ns + j)%N (col * ns + i)%N.
Proof. move=> Hi. rewrite /H_pt /X_pt /Y_pt /b_H. by have [-> ->] := @divmod j ns i (elimT ltP Hi). Qed.
Lemma flux_x1_same r v row col j i : (i < ns)%N ->
  flux_x1 k N ns (point pts) radius q r v row col (j * ns + i)%N = stiff_x1 k N ns pts radius Q r v (row * ns + j)%N (col * ns + i)%N + nonstiff_x1 k N ns pts radius Q r v (row * ns + j)%N (col * ns + i)%N.
Proof.
  move=> Hi. rewrite /flux_x1 /stiff_x1 /nonstiff_x1 /sw_flux_x1 G_same // H_same // !q_same //. cbv zeta.
  change (@GRing.add _) with Rplus. case: v => [|[|v]]; ring.
Qed.
Lemma flux_x2_same r v row col j i : (i < ns)%N ->
  flux_x2 k N ns (point pts) radius q r v row col (j * ns + i)%N = stiff_x2 k N ns pts radius Q r v (row * ns + j)%N (col * ns + i)%N + nonstiff_x2 k N ns pts radius Q r v (row * ns + j)%N (col * ns + i)%N.
Proof.
  move=> Hi. rewrite /flux_x2 /stiff_x2 /nonstiff_x2 /sw_flux_x2 G_same // H_same // !q_same //. cbv zeta.
  change (@GRing.add _) with Rplus. case: v => [|[|v]]; ring.
Qed.
Lemma forcing_same r v row col j i : (i < ns)%N ->
  forcing k N ns (point pts) radius q Omega rot (dzdx1 (ground T)) (dzdx2 (ground T)) r v row col (j * ns + i)%N
  = stiff_forcing k N ns pts Q r v (row * ns + j)%N (col * ns + i)%N + nonstiff_forcing k N ns pts radius Omega rot topo Q r v (row * ns + j)%N (col * ns + i)%N.
Proof.
  move=> Hi. have [E1 E2] := slopes_same r row col j Hi. rewrite /forcing /stiff_forcing /nonstiff_forcing E1 E2 H_same // !q_same // /X_pt /Y_pt. have [-> ->] := @divmod j ns i (elimT ltP Hi). cbv zeta.
  have -> : line k N ns (point pts) (my_col k r) (Nat.add (Nat.mul col ns) i) = b_line k N ns pts (my_col k r) (col * ns + i)%N by [].
  have -> : line k N ns (point pts) (my_row k r) (Nat.add (Nat.mul row ns) j) = b_line k N ns pts (my_row k r) (row * ns + j)%N by [].
  change (@GRing.add _) with Rplus. rewrite /b_dx. case: v => [|[|v]]; ring.
Qed.
(** at the faces *)

Lemma in_line x j : (x < N)%N -> (j < ns)%N -> (x * ns + j < N * ns)%N.
Proof. move=> Hx Hj. apply: (@leq_trans (x.+1 * ns)); first by rewrite mulSn addnC ltn_add2r. by rewrite leq_mul2r Hx orbT. Qed.
Lemma dx_nonzero : dx k N <> 0%re.
Proof. apply: Rgt_not_eq. apply: dx_pos; exact/ltP. Qed.
Lemma high_place c x e j : (e <= N)%N -> (j < ns)%N -> across k N ns c e (Nat.add ns j) = itf k N c e /\ along k N ns (point pts) c x e (Nat.add ns j) = line k N ns (point pts) c (Nat.add (Nat.mul x ns) j).
Proof.
  move=> He Hj. have He' := elimT leP He. have Hj' := elimT ltP Hj. rewrite /across /along /outer.
  have -> : Nat.ltb (Nat.add ns j) ns = false by apply/Nat.ltb_ge; lia.
  have -> : Nat.eqb e (Nat.add N 1) = false by apply/Nat.eqb_neq; lia.
  have -> : Nat.modulo (Nat.add ns j) ns = j by have [_ E] := @divmod 1 ns j Hj'; rewrite -[in RHS]E Nat.mul_1_l.
  by rewrite andbF.
Qed.
Lemma low_place c x e j : (e <= N)%N -> (j < ns)%N -> across k N ns c e.+1 j = itf k N c e /\ along k N ns (point pts) c x e.+1 j = line k N ns (point pts) c (Nat.add (Nat.mul x ns) j).
Proof.
  move=> He Hj. have He' := elimT leP He. have Hj' := elimT ltP Hj. rewrite /across /along /outer.
  have -> : Nat.ltb j ns = true by apply/Nat.ltb_lt; lia.
  have -> : Nat.leb ns j = false by apply/Nat.leb_gt; lia.
  have -> : Nat.sub e.+1 1 = e by lia.
  rewrite Nat.mod_small // andbF. by [].
Qed.
Lemma metric_i r row e j : (e <= N)%N -> (j < ns)%N ->
  H_itf_i k N ns (point pts) radius r row e (Nat.add ns j) = b_H_i k N ns pts radius r e (row * ns + j)%N /\ H_itf_i k N ns (point pts) radius r row e.+1 j = b_H_i k N ns pts radius r e (row * ns + j)%N /\
  sqrtG_itf_i k N ns (point pts) radius r row e (Nat.add ns j) = b_G_i k N ns pts radius r e (row * ns + j)%N /\ sqrtG_itf_i k N ns (point pts) radius r row e.+1 j = b_G_i k N ns pts radius r e (row * ns + j)%N.
Proof.
  move=> He Hj.
  rewrite /H_itf_i /sqrtG_itf_i /X_itf_i /Y_itf_i. have [-> _] := high_place (my_col k r) row He Hj. have [_ ->] := high_place (my_row k r) row He Hj.
  have [-> _] := low_place (my_col k r) row He Hj. have [_ ->] := low_place (my_row k r) row He Hj. by [].
Qed.
Lemma metric_j r col e i : (e <= N)%N -> (i < ns)%N ->
  H_itf_j k N ns (point pts) radius r col e (Nat.add ns i) = b_H_j k N ns pts radius r e (col * ns + i)%N /\ H_itf_j k N ns (point pts) radius r col e.+1 i = b_H_j k N ns pts radius r e (col * ns + i)%N /\
  sqrtG_itf_j k N ns (point pts) radius r col e (Nat.add ns i) = b_G_j k N ns pts radius r e (col * ns + i)%N /\ sqrtG_itf_j k N ns (point pts) radius r col e.+1 i = b_G_j k N ns pts radius r e (col * ns + i)%N.
Proof.
  move=> He Hj.
  rewrite /H_itf_j /sqrtG_itf_j /X_itf_j /Y_itf_j. have [-> _] := high_place (my_row k r) col He Hj. have [_ ->] := high_place (my_col k r) col He Hj.
  have [-> _] := low_place (my_row k r) col He Hj. have [_ ->] := low_place (my_col k r) col He Hj. by [].
Qed.
Lemma flux_i_high r v row e j : wet k N ns pts topo Q r -> (row < N)%N -> (e <= N)%N -> (j < ns)%N -> (v < 3)%N ->
  itf_flux_i k N ns pts radius T q r v row e (ns + j)%N = stiff_i k N ns pts radius topo Q r v e (row * ns + j)%N + nonstiff_i k N ns pts radius topo Q r v e (row * ns + j)%N.
Proof.
  move=> Hwet Hrow He Hj Hv. have [W0 [W1 _]] := Hwet _ _ He (in_line Hrow Hj).
  have HeN : (S e < Nat.add N 2)%coq_nat by have := elimT leP He; lia.
  rewrite /itf_flux_i /flux_i. rewrite (sw_value_x1 _ _ _ _ _ _ _ _ _ HeN (elimT ltP Hj) (elimT ltP Hv)). cbv zeta.
  have L f : f j = f (0 * ns + j)%N :> R by rewrite mul0n add0n.
  have U f : f (Nat.add ns j) = f (1 * ns + j)%N :> R by rewrite mul1n.
  rewrite !(L (var_itf_i _ _ _ _ _ _ _ _ _ _ e.+1)) !(U (var_itf_i _ _ _ _ _ _ _ _ _ _ e)) !var_i_same //.
  have [-> [-> [-> ->]]] := metric_i r row He Hj.
  have [P _] := metric_positive (itf k N (my_col k r) e) (b_line k N ns pts (my_row k r) (row * ns + j)%N) Hr dx_nonzero dx_nonzero. rewrite -/(b_H_i k N ns pts radius r e (row * ns + j)%N) in P.
  rewrite -/(wave (b_var_i k N ns pts topo Q r 0 e 1 (row * ns + j)%N) _) -/(wave (b_var_i k N ns pts topo Q r 0 e.+1 0 (row * ns + j)%N) _).
  rewrite (mach_same _ (wave_nonzero W0 P)) (mach_same _ (wave_nonzero W1 P)).
  rewrite /stiff_i /nonstiff_i /stiff_itf /nonstiff_itf /adv /push /advected /pushed /pressure_at /mean_mach /mL /mR /aL /aR /ausm. cbv zeta.
  change (@GRing.add _) with Rplus. case: v Hv => [|[|[|//]]] _; ring.
Qed.
Lemma flux_j_high r v col e i : wet k N ns pts topo Q r -> (col < N)%N -> (e <= N)%N -> (i < ns)%N -> (v < 3)%N ->
  itf_flux_j k N ns pts radius T q r v col e (ns + i)%N = stiff_j k N ns pts radius topo Q r v e (col * ns + i)%N + nonstiff_j k N ns pts radius topo Q r v e (col * ns + i)%N.
Proof.
  move=> Hwet Hcol He Hj Hv. have [_ [_ [W0 W1]]] := Hwet _ _ He (in_line Hcol Hj).
  have HeN : (S e < Nat.add N 2)%coq_nat by have := elimT leP He; lia.
  rewrite /itf_flux_j /flux_j. rewrite (sw_value_x2 _ _ _ _ _ _ _ _ _ HeN (elimT ltP Hj) (elimT ltP Hv)). cbv zeta.
  have L f : f i = f (0 * ns + i)%N :> R by rewrite mul0n add0n.
  have U f : f (Nat.add ns i) = f (1 * ns + i)%N :> R by rewrite mul1n.
  rewrite !(L (var_itf_j _ _ _ _ _ _ _ _ _ _ e.+1)) !(U (var_itf_j _ _ _ _ _ _ _ _ _ _ e)) !var_j_same //.
  have [-> [-> [-> ->]]] := metric_j r col He Hj.
  have [_ P] := metric_positive (b_line k N ns pts (my_col k r) (col * ns + i)%N) (itf k N (my_row k r) e) Hr dx_nonzero dx_nonzero. rewrite -/(b_H_j k N ns pts radius r e (col * ns + i)%N) in P.
  rewrite -/(wave (b_var_j k N ns pts topo Q r 0 e 1 (col * ns + i)%N) _) -/(wave (b_var_j k N ns pts topo Q r 0 e.+1 0 (col * ns + i)%N) _).
  rewrite (mach_same _ (wave_nonzero W0 P)) (mach_same _ (wave_nonzero W1 P)).
  rewrite /stiff_j /nonstiff_j /stiff_itf /nonstiff_itf /adv /push /advected /pushed /pressure_at /mean_mach /mL /mR /aL /aR /ausm. cbv zeta.
  change (@GRing.add _) with Rplus. case: v Hv => [|[|[|//]]] _; ring.
Qed.
Lemma flux_i_low r v row e j : wet k N ns pts topo Q r -> (row < N)%N -> (e <= N)%N -> (j < ns)%N -> (v < 3)%N ->
  itf_flux_i k N ns pts radius T q r v row e.+1 j = stiff_i k N ns pts radius topo Q r v e (row * ns + j)%N + nonstiff_i k N ns pts radius topo Q r v e (row * ns + j)%N.
Proof.
  move=> Hwet Hrow He Hj Hv. rewrite -flux_i_high //. symmetry. apply: (sw_single_x1 (Nat.add N 2) ns); [have := elimT leP He; lia|exact/ltP].
Qed.
Lemma flux_j_low r v col e i : wet k N ns pts topo Q r -> (col < N)%N -> (e <= N)%N -> (i < ns)%N -> (v < 3)%N ->
  itf_flux_j k N ns pts radius T q r v col e.+1 i = stiff_j k N ns pts radius topo Q r v e (col * ns + i)%N + nonstiff_j k N ns pts radius topo Q r v e (col * ns + i)%N.
Proof.
  move=> Hwet Hrow He Hj Hv. rewrite -flux_j_high //. symmetry. apply: (sw_single_x2 (Nat.add N 2) ns); [have := elimT leP He; lia|exact/ltP].
Qed.
(** the whole *)
Lemma df1_split r v row col j i : wet k N ns pts topo Q r -> (row < N)%N -> (col < N)%N -> (j < ns)%N -> (i < ns)%N -> (v < 3)%N ->
  sw_df1 k N ns pts radius T q r v row col (j * ns + i)%N =
  along_x1 ns pts (stiff_x1 k N ns pts radius Q r v) (stiff_i k N ns pts radius topo Q r v) (row * ns + j)%N (col * ns + i)%N
  + along_x1 ns pts (nonstiff_x1 k N ns pts radius Q r v) (nonstiff_i k N ns pts radius topo Q r v) (row * ns + j)%N (col * ns + i)%N.
Proof.
  move=> Hwet Hrow Hcol Hj Hi Hv. rewrite /sw_df1 derivative_x_2d_ok // correction_WE_2d_ok // /along_x1. have [-> ->] := divmod_small col Hi. cbv zeta.
  rewrite flux_i_low ?(ltnW Hcol) // flux_i_high //. under eq_bigr => l _ do rewrite flux_x1_same // mulrDl. rewrite big_split /= !mulrDl.
  by rewrite [X in _ + X = _]addrACA [LHS]addrACA.
Qed.
Lemma df2_split r v row col j i : wet k N ns pts topo Q r -> (row < N)%N -> (col < N)%N -> (j < ns)%N -> (i < ns)%N -> (v < 3)%N ->
  sw_df2 k N ns pts radius T q r v row col (j * ns + i)%N =
  along_x2 ns pts (stiff_x2 k N ns pts radius Q r v) (stiff_j k N ns pts radius topo Q r v) (row * ns + j)%N (col * ns + i)%N
  + along_x2 ns pts (nonstiff_x2 k N ns pts radius Q r v) (nonstiff_j k N ns pts radius topo Q r v) (row * ns + j)%N (col * ns + i)%N.
Proof.
  move=> Hwet Hrow Hcol Hj Hi Hv. rewrite /sw_df2 derivative_y_2d_ok // correction_SN_2d_ok // /along_x2. have [-> ->] := divmod_small row Hj. cbv zeta.
  rewrite flux_j_low ?(ltnW Hrow) // flux_j_high //. under eq_bigr => l _ do rewrite flux_x2_same // mulrDl. rewrite big_split /= !mulrDl.
  by rewrite [X in _ + X = _]addrACA [LHS]addrACA.
Qed.
Lemma split_sum r v row col j i : wet k N ns pts topo Q r -> (row < N)%N -> (col < N)%N -> (j < ns)%N -> (i < ns)%N -> (v < 3)%N ->
  sw_rhs k N ns pts radius Omega rot T q r v row col (j * ns + i)%N =
  sw_stiff k N ns pts radius topo Q r v (row * ns + j)%N (col * ns + i)%N + sw_nonstiff k N ns pts radius Omega rot topo Q r v (row * ns + j)%N (col * ns + i)%N.
Proof.
  move=> Hwet Hrow Hcol Hj Hi Hv. rewrite /sw_rhs df1_split // df2_split // G_same // forcing_same // /sw_stiff /sw_nonstiff.
  have D (g a b c d f h : R) : g * (- (a + b) - (c + d)) - (f + h) = g * - (a + c) - f + (g * - (b + d) - h).
    by rewrite [RHS]addrACA -mulrDr -!opprD addrACA.
  exact: D.
Qed.
Lemma nonstiff_depth r y x : sw_nonstiff k N ns pts radius Omega rot topo Q r 0 y x = 0.
Proof.
  rewrite /sw_nonstiff /along_x1 /along_x2 /=. rewrite !big1 ?mul0r ?add0r; try by move=> l _; rewrite mul0r. by rewrite !Rmult_0_l !Rplus_0_l Ropp_0 Rmult_0_r Rminus_0_r.
Qed.

End Split.
