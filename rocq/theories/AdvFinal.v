(** The transport of a tracer: its total over the sphere, and its linearity. *)
From Coq Require Import Reals ZArith Lia Lra Arith List.
From Verif Require Import TopologyModel TopologySpec TopologyProofs GeoModel GeoTiles SwModel SwSpec SwEdges SwTotal.
From mathcomp Require Import all_ssreflect all_algebra.
From Verif Require Import RField OpModel OpSpec OpTensor OpDiverge FluxModel FluxProofs RhsModel RhsSpec RhsFlat RhsGauss RhsProofs SwRhs SwGlobal RhsFinal QuadModel SwSplitModel SwSplitSpec SwSplitProofs AdvModel AdvSides AdvEdges.
Set Implicit Arguments.
Unset Strict Implicit.
Unset Printing Implicit Defensive.
Import GRing.Theory.
Delimit Scope R_scope with re.
Delimit Scope Z_scope with zz.
Local Open Scope ring_scope.

Section Total.
Variables (k N : nat) (pts ws : seq R) (radius : R) (Q : Z -> nat -> nat -> nat -> R).
Let ns := seq.size pts.
Hypothesis Hk : (0 < k)%N.
Hypothesis HN : (0 < N)%N.
Hypothesis Hns : (0 < ns)%N.
Hypothesis U : uniq (extension (pts : seq R_fieldType)).
Hypothesis I : integrates (pts : seq R_fieldType) ws.
Hypothesis Hr : radius <> 0%re.
Let fi := adv_i k N ns pts radius Q.
Let fj := adv_j k N ns pts radius Q.
Lemma along_total_1 r row : \sum_(col < N) \sum_(j < ns) \sum_(i < ns) ws`_j * ws`_i * along_x1 ns pts (adv_x1 k N ns pts radius Q r) (fi r) (row * ns + j)%N (col * ns + i)%N
  = \sum_(j < ns) ws`_j * (fi r N (row * ns + j)%N - fi r 0%N (row * ns + j)%N).
Proof.
  rewrite exchange_big /=. apply: eq_bigr => j _.
  under eq_bigr => c _. { under eq_bigr => i _ do rewrite -mulrA. rewrite -mulr_sumr. over. }
  rewrite -mulr_sumr. congr (_ * _).
  have T := @telescope_pos N (fun c => fi r c.+1 (row * ns + j)%N) (fun c => fi r c (row * ns + j)%N) HN (fun c _ => erefl). rewrite prednK // in T. rewrite -T.
  apply: eq_bigr => c _. rewrite -(line_divergence U I (fun l => adv_x1 k N ns pts radius Q r (row * ns + j)%N (c * ns + l)%N) (fi r c (row * ns + j)%N) (fi r c.+1 (row * ns + j)%N)).
  apply: eq_bigr => i _. congr (_ * _). rewrite /along_x1. by have [-> ->] := divmod_small c (ltn_ord i).
Qed.
Lemma along_total_2 r col : \sum_(row < N) \sum_(j < ns) \sum_(i < ns) ws`_j * ws`_i * along_x2 ns pts (adv_x2 k N ns pts radius Q r) (fj r) (row * ns + j)%N (col * ns + i)%N
  = \sum_(i < ns) ws`_i * (fj r N (col * ns + i)%N - fj r 0%N (col * ns + i)%N).
Proof.
  under eq_bigr => c _ do rewrite exchange_big. rewrite exchange_big /=. apply: eq_bigr => i _.
  under eq_bigr => c _. { under eq_bigr => j _ do rewrite [_ * ws`_i]mulrC -mulrA. rewrite -mulr_sumr. over. }
  rewrite -mulr_sumr. congr (_ * _).
  have T := @telescope_pos N (fun c => fj r c.+1 (col * ns + i)%N) (fun c => fj r c (col * ns + i)%N) HN (fun c _ => erefl). rewrite prednK // in T. rewrite -T.
  apply: eq_bigr => c _. rewrite -(line_divergence U I (fun l => adv_x2 k N ns pts radius Q r (c * ns + l)%N (col * ns + i)%N) (fj r c (col * ns + i)%N) (fj r c.+1 (col * ns + i)%N)).
  apply: eq_bigr => j _. congr (_ * _). rewrite /along_x2. by have [-> ->] := divmod_small c (ltn_ord j).
Qed.
Let out := tracer_out k N ns pts radius Q.
Lemma side_line (f g : nat -> R) : (forall x, f x = (ws`_(Nat.modulo x ns) : R) * g x) ->
  SwTotal.total f (List.seq 0 (N * ns)%coq_nat) = \sum_(row < N) \sum_(j < ns) ws`_j * g (row * ns + j)%N.
Proof.
  move=> Hf. rewrite total_sum. rewrite (sum_split (F := R_fieldType) N ns f). apply: eq_bigr => row _. apply: eq_bigr => j _.
  rewrite Hf. have [_ ->] := @divmod row ns j (elimT ltP (ltn_ord j)). by [].
Qed.
Lemma tile_tracer r : \sum_(row < N) \sum_(col < N) \sum_(j < ns) \sum_(i < ns) by_element ns (advection k N ns pts radius Q r 0) row col (j * ns + i)%N * sqrtG_pt k N ns (point pts) radius r row col (j * ns + i)%N * (ws`_j * ws`_i)
  = - SwTotal.total (fun d => SwTotal.total (fun x => ((ws`_(Nat.modulo x ns) : R) * out r d x)%re) (List.seq 0 (N * ns)%coq_nat)) all_sides.
Proof.
  transitivity (- (\sum_(row < N) \sum_(col < N) \sum_(j < ns) \sum_(i < ns) ws`_j * ws`_i * along_x1 ns pts (adv_x1 k N ns pts radius Q r) (fi r) (row * ns + j)%N (col * ns + i)%N
    + \sum_(row < N) \sum_(col < N) \sum_(j < ns) \sum_(i < ns) ws`_j * ws`_i * along_x2 ns pts (adv_x2 k N ns pts radius Q r) (fj r) (row * ns + j)%N (col * ns + i)%N)).
  - rewrite -big_split -sumrN. apply: eq_bigr => row _. rewrite -big_split -sumrN. apply: eq_bigr => col _. rewrite -big_split -sumrN. apply: eq_bigr => j _. rewrite -big_split -sumrN. apply: eq_bigr => i _.
    rewrite /by_element. have [-> ->] := divmod_small j (ltn_ord i). rewrite (G_same k N radius r row col j (ltn_ord i)) /advection.
    have Hg : b_G k N ns pts radius r (row * ns + j)%N (col * ns + i)%N != 0 by apply/eqP; apply: sqrtG_nonzero => //; apply: dx_pos; exact/ltP.
    rewrite -/(fi r) -/(fj r). move: (along_x1 _ _ _ _ _ _) (along_x2 _ _ _ _ _ _) Hg => a b. move: (b_G _ _ _ _ _ _ _ _) => g Hg.
    change ((g^-1 * (- (a + b))) * g * (ws`_j * ws`_i) = - (ws`_j * ws`_i * a + ws`_j * ws`_i * b) :> R_ringType).
    rewrite -mulrDr -mulrN mulrC. congr (_ * _). by rewrite mulrC mulrA mulfV // mul1r.
  - congr (- _). under eq_bigr => row _ do rewrite along_total_1. rewrite [X in _ + X]exchange_big. under [X in _ + X]eq_bigr => col _ do rewrite along_total_2.
    have -> : SwTotal.total (fun d => SwTotal.total (fun x => ((ws`_(Nat.modulo x ns) : R) * out r d x)%re) (List.seq 0 (N * ns)%coq_nat)) all_sides =
      \sum_(col < N) \sum_(i < ns) ws`_i * (- fj r 0%N (col * ns + i)%N) + (\sum_(col < N) \sum_(i < ns) ws`_i * fj r N (col * ns + i)%N + (\sum_(row < N) \sum_(j < ns) ws`_j * (- fi r 0%N (row * ns + j)%N) + (\sum_(row < N) \sum_(j < ns) ws`_j * fi r N (row * ns + j)%N + 0))).
    { rewrite -(side_line (f := fun x => ((ws`_(Nat.modulo x ns) : R) * out r South x)%re) (g := fun x => - fj r 0%N x)) //.
      rewrite -(side_line (f := fun x => ((ws`_(Nat.modulo x ns) : R) * out r North x)%re) (g := fun x => fj r N x)) //.
      rewrite -(side_line (f := fun x => ((ws`_(Nat.modulo x ns) : R) * out r West x)%re) (g := fun x => - fi r 0%N x)) //.
      rewrite -(side_line (f := fun x => ((ws`_(Nat.modulo x ns) : R) * out r East x)%re) (g := fun x => fi r N x)) //. }
    have split (a b : nat -> nat -> R) : \sum_(row < N) \sum_(j < ns) ws`_j * (a row j - b row j) = \sum_(row < N) \sum_(j < ns) ws`_j * (- b row j) + \sum_(row < N) \sum_(j < ns) ws`_j * a row j.
    { rewrite -big_split. apply: eq_bigr => row _. rewrite -big_split. apply: eq_bigr => j _. by rewrite /= -mulrDr addrC. }
    rewrite (split (fun row j => fi r N (row * ns + j)%N) (fun row j => fi r 0%N (row * ns + j)%N)) (split (fun row j => fj r N (row * ns + j)%N) (fun row j => fj r 0%N (row * ns + j)%N)).
    by rewrite addr0 addrC -addrA.
Qed.
Hypothesis sym : forall i, (i < ns)%N -> point pts (ns - 1 - i)%N = (- point pts i)%re.
Hypothesis symw : forall i, (i < ns)%N -> (ws`_(ns - 1 - i) = ws`_i :> R).
Lemma tracer_total : global_integral_2d k N ns pts ws radius (fun r => by_element ns (advection k N ns pts radius Q r 0)) = 0.
Proof.
  rewrite /global_integral_2d. under eq_bigr => r _ do rewrite tile_tracer.
  have A := @all_out k N ns (point pts) (fun i => ws`_i : R) out (elimT ltP Hk) (elimT ltP HN) (elimT ltP Hns) (fun i Hi => sym (introT ltP Hi)) (fun i Hi => symw (introT ltP Hi))
    (@tracer_cancels k N ns pts radius Q (elimT ltP Hk) (elimT ltP HN) (elimT ltP Hns) (fun i Hi => sym (introT ltP Hi))).
  rewrite sumrN. apply/eqP. rewrite oppr_eq0. apply/eqP. rewrite -[RHS]A /ranks total_map total_sum. by [].
Qed.
End Total.

Lemma tracer_mass roots k N ns pts ws radius Q : (0 < k)%N -> (0 < N)%N -> (0 < ns <= 5)%N -> gauss_legendre roots ns = Some (pts, ws) -> radius <> 0%re ->
  global_integral_2d k N ns pts ws radius (fun r => by_element ns (advection k N ns pts radius Q r 0)) = 0%re.
Proof.
  move=> Hk HN Hns E Hr. have [I S] := gauss_integrates Hns E. have U := gauss_uniq Hns E. have [S1 S2] := gauss_sym Hns E. subst ns.
  have Hs : (0 < size pts)%N by case/andP: Hns. exact: (tracer_total Q Hk HN Hs U I Hr S1 S2).
Qed.
Definition mixed (a b : R) (h h' : Z -> nat -> nat -> R) (r : Z) (y x : nat) : R := (a * h r y x + b * h' r y x)%re.
Section Linear.
Variables (k N ns : nat) (pts : seq R) (radius a b : R) (h h' u1 u2 : Z -> nat -> nat -> R).
Hypothesis Hk : (0 < k)%N.
Let K := Z.of_nat k.
Let Q := carried h u1 u2.
Let Q' := carried h' u1 u2.
Let M := carried (mixed a b h h') u1 u2.
Lemma ext_mixed r x e s : b_ext_i ns pts None M r 0 x e s = (a * b_ext_i ns pts None Q r 0 x e s + b * b_ext_i ns pts None Q' r 0 x e s)%re /\
  b_ext_j ns pts None M r 0 x e s = (a * b_ext_j ns pts None Q r 0 x e s + b * b_ext_j ns pts None Q' r 0 x e s)%re.
Proof.
  have E y z : HH None M r 0 y z = (a * HH None Q r 0 y z + b * HH None Q' r 0 y z)%re by change ((a * h r y z + b * h' r y z + 0 = a * (h r y z + 0) + b * (h' r y z + 0))%re); ring.
  have S (f f' : nat -> R) w : \sum_(l < ns) ((a * f l + b * f' l)%re : R) * w l = (a * (\sum_(l < ns) f l * w l)%R + b * (\sum_(l < ns) f' l * w l)%R)%re.
  { change (\sum_(l < ns) ((a * f l + b * f' l) * w l) = a * (\sum_(l < ns) f l * w l) + b * (\sum_(l < ns) f' l * w l) :> R_ringType).
    rewrite !mulr_sumr -big_split. apply: eq_bigr => l _. by rewrite /= !mulrA -mulrDl. }
  rewrite /b_ext_i /b_ext_j. split.
  - etransitivity; [|exact: (S (fun l => HH None Q r 0 x (e.-1 * ns + l)%N) (fun l => HH None Q' r 0 x (e.-1 * ns + l)%N) (weights pts s))]. apply: eq_bigr => l _. by rewrite E.
  - etransitivity; [|exact: (S (fun l => HH None Q r 0 (e.-1 * ns + l)%N x) (fun l => HH None Q' r 0 (e.-1 * ns + l)%N x) (weights pts s))]. apply: eq_bigr => l _. by rewrite E.
Qed.
Lemma own_mixed r d x : b_own N ns pts M r 0 d x = (a * b_own N ns pts Q r 0 d x + b * b_own N ns pts Q' r 0 d x)%re.
Proof. rewrite /b_own. by case: d; [exact: (proj2 (ext_mixed _ _ _ _))|exact: (proj2 (ext_mixed _ _ _ _))|exact: (proj1 (ext_mixed _ _ _ _))|exact: (proj1 (ext_mixed _ _ _ _))]. Qed.
Lemma halo_mixed r d x : (0 <= r < 6 * K * K)%zz -> (x < N * ns)%N -> b_halo k N ns pts None M r 0 d x = (a * b_halo k N ns pts None Q r 0 d x + b * b_halo k N ns pts None Q' r 0 d x)%re.
Proof.
  move=> Hr Hx. have HK : (1 <= K)%zz by move/ltP: Hk; rewrite /K; lia.
  have Ht := @tile_of_rank_ok K r HK Hr. have Er := @rank_of_tile_of_rank K r HK.
  rewrite -Er !(@tracer_halo k N ns pts _ (elimT ltP Hk) _ d Ht x (elimT ltP Hx)). exact: own_mixed.
Qed.
Lemma var_mixed r e s x : (0 <= r < 6 * K * K)%zz -> (x < N * ns)%N ->
  b_var_i k N ns pts None M r 0 e s x = (a * b_var_i k N ns pts None Q r 0 e s x + b * b_var_i k N ns pts None Q' r 0 e s x)%re /\
  b_var_j k N ns pts None M r 0 e s x = (a * b_var_j k N ns pts None Q r 0 e s x + b * b_var_j k N ns pts None Q' r 0 e s x)%re.
Proof.
  move=> Hr Hx. rewrite /b_var_i /b_var_j. have [-> ->] := ext_mixed r x e s. rewrite !(halo_mixed _ Hr Hx).
  have -> : b_itf_i (b_ground None) = (fun _ _ _ _ => R0) by []. have -> : b_itf_j (b_ground None) = (fun _ _ _ _ => R0) by [].
  rewrite (eqxx 0%N). change (0 : R) with 0%re. split; case: ifP => _; try ring; case: ifP => _; case: ifP => _; ring.
Qed.
Lemma flux_mixed r i x : (0 <= r < 6 * K * K)%zz -> (x < N * ns)%N ->
  adv_i k N ns pts radius M r i x = (a * adv_i k N ns pts radius Q r i x + b * adv_i k N ns pts radius Q' r i x)%re /\
  adv_j k N ns pts radius M r i x = (a * adv_j k N ns pts radius Q r i x + b * adv_j k N ns pts radius Q' r i x)%re.
Proof.
  move=> Hr Hx. rewrite /adv_i /adv_j. have [-> ->] := var_mixed i 1 Hr Hx. have [-> ->] := var_mixed i.+1 0 Hr Hx.
  have W (q : Z -> nat -> nat -> R) v e s : (0 < v)%N -> b_var_i k N ns pts None (carried q u1 u2) r v e s x = b_var_i k N ns pts None (carried (fun _ _ _ => R0) u1 u2) r v e s x /\
    b_var_j k N ns pts None (carried q u1 u2) r v e s x = b_var_j k N ns pts None (carried (fun _ _ _ => R0) u1 u2) r v e s x by case: v => [|[|v]].
  rewrite /M /Q /Q'. have L (q : Z -> nat -> nat -> R) v e s := proj1 (@W q v.+1 e s erefl). have L' (q : Z -> nat -> nat -> R) v e s := proj2 (@W q v.+1 e s erefl).
  rewrite !(L (mixed a b h h')) !(L h) !(L h') !(L' (mixed a b h h')) !(L' h) !(L' h'). rewrite /rusanov. cbv zeta. split; ring.
Qed.
Lemma along_mixed (f f' f'' g g' g'' : nat -> nat -> R) y x : (forall y x, f y x = (a * f' y x + b * f'' y x)%re) -> (forall i, g i y = (a * g' i y + b * g'' i y)%re) -> (forall i, g i x = (a * g' i x + b * g'' i x)%re) ->
  along_x1 ns pts f g y x = (a * along_x1 ns pts f' g' y x + b * along_x1 ns pts f'' g'' y x)%re /\ along_x2 ns pts f g y x = (a * along_x2 ns pts f' g' y x + b * along_x2 ns pts f'' g'' y x)%re.
Proof.
  move=> Hf Hy Hx.
  have S (q q' : nat -> R) w : \sum_(l < ns) ((a * q l + b * q' l)%re : R) * w l = (a * (\sum_(l < ns) q l * w l)%R + b * (\sum_(l < ns) q' l * w l)%R)%re.
  { change (\sum_(l < ns) ((a * q l + b * q' l) * w l) = a * (\sum_(l < ns) q l * w l) + b * (\sum_(l < ns) q' l * w l) :> R_ringType).
    rewrite !mulr_sumr -big_split. apply: eq_bigr => l _. by rewrite /= !mulrA -mulrDl. }
  rewrite /along_x1 /along_x2. cbv zeta. rewrite !Hy !Hx. split.
  - have E : \sum_(l < ns) f y (x %/ ns * ns + l)%N * D pts (x %% ns)%N l = (a * (\sum_(l < ns) f' y (x %/ ns * ns + l)%N * D pts (x %% ns)%N l)%R + b * (\sum_(l < ns) f'' y (x %/ ns * ns + l)%N * D pts (x %% ns)%N l)%R)%re.
    { etransitivity; [|exact: (S (fun l => f' y (x %/ ns * ns + l)%N) (fun l => f'' y (x %/ ns * ns + l)%N) (D pts (x %% ns)%N))]. apply: eq_bigr => l _. by rewrite Hf. }
    rewrite E. move: (\sum_(l < ns) _) (\sum_(l < ns) _) => p q. change (@GRing.add _) with Rplus. change (@GRing.mul _) with Rmult. move: (cneg _ _) (cpos _ _) => c c'. rewrite /GRing.Zmodule.sort /=. ring.
  - have E : \sum_(l < ns) f (y %/ ns * ns + l)%N x * D pts (y %% ns)%N l = (a * (\sum_(l < ns) f' (y %/ ns * ns + l)%N x * D pts (y %% ns)%N l)%R + b * (\sum_(l < ns) f'' (y %/ ns * ns + l)%N x * D pts (y %% ns)%N l)%R)%re.
    { etransitivity; [|exact: (S (fun l => f' (y %/ ns * ns + l)%N x) (fun l => f'' (y %/ ns * ns + l)%N x) (D pts (y %% ns)%N))]. apply: eq_bigr => l _. by rewrite Hf. }
    rewrite E. move: (\sum_(l < ns) _) (\sum_(l < ns) _) => p q. change (@GRing.add _) with Rplus. change (@GRing.mul _) with Rmult. move: (cneg _ _) (cpos _ _) => c c'. rewrite /GRing.Zmodule.sort /=. ring.
Qed.
Lemma tracer_mixed r y x : (0 <= r < 6 * K * K)%zz -> (y < N * ns)%N -> (x < N * ns)%N ->
  advection k N ns pts radius M r 0 y x = (a * advection k N ns pts radius Q r 0 y x + b * advection k N ns pts radius Q' r 0 y x)%re.
Proof.
  move=> Hr Hy Hx. rewrite /advection.
  have F1 y' x' : adv_x1 k N ns pts radius M r y' x' = (a * adv_x1 k N ns pts radius Q r y' x' + b * adv_x1 k N ns pts radius Q' r y' x')%re by rewrite /adv_x1 /M /Q /Q' /carried /mixed /=; ring.
  have F2 y' x' : adv_x2 k N ns pts radius M r y' x' = (a * adv_x2 k N ns pts radius Q r y' x' + b * adv_x2 k N ns pts radius Q' r y' x')%re by rewrite /adv_x2 /M /Q /Q' /carried /mixed /=; ring.
  have [-> _] := along_mixed F1 (fun i => proj1 (flux_mixed i Hr Hy)) (fun i => proj1 (flux_mixed i Hr Hx)).
  have [_ ->] := along_mixed F2 (fun i => proj2 (flux_mixed i Hr Hy)) (fun i => proj2 (flux_mixed i Hr Hx)).
  move: (along_x1 _ _ _ _ _ _) (along_x1 _ _ _ _ _ _) (along_x2 _ _ _ _ _ _) (along_x2 _ _ _ _ _ _) => p p' q q'. move: (b_G _ _ _ _ _ _ _ _) => g.
  change (@GRing.add _) with Rplus. change (@GRing.opp _) with Ropp. change (@GRing.mul _) with Rmult. ring.
Qed.
End Linear.
