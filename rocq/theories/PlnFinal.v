(** Mass, potential temperature and momentum on the plane. *)
From Coq Require Import Reals Lra.
From Verif Require Import FluxModel.
From mathcomp Require Import all_ssreflect all_algebra.
From Verif Require Import RField RNum OpModel OpSpec OpFinal OpDiverge RhsModel RhsSpec RhsGauss SwGlobal QuadModel SwSplitModel SwSplitProofs PlnModel PlnSpec PlnFaces PlnTotal.
Set Implicit Arguments.
Unset Strict Implicit.
Unset Printing Implicit Defensive.
Import GRing.Theory.
Delimit Scope R_scope with re.
Local Open Scope ring_scope.

Lemma slope_zero ns pts dx x : slope ns pts dx (fun _ => R0) (fun _ _ => R0) x = R0.
Proof.
  rewrite /slope. have -> : \sum_(l < ns) (R0 : R_ringType) * diff_solpt (pts : seq R_fieldType) (x %% ns)%N l = R0 by apply: big1 => l _; exact: mul0r.
  set a := correction_neg _ _. set b := correction_pos _ _. change (((0 + (0 * a + 0 * b)) * 2 / dx = 0)%re). rewrite /Rdiv. ring.
Qed.
Section Balance.
Variables (nx nz : nat) (pts ws : seq R) (dx1 dx3 : R) (Q : nat -> nat -> nat -> R).
Let ns := seq.size pts.
Hypothesis W : seq.size ws = ns.
Hypothesis U : uniq (extension (pts : seq R_fieldType)).
Hypothesis I : integrates (pts : seq R_fieldType) ws.
Hypothesis Hx : (0 < nx)%N.
Hypothesis Hz : (0 < nz)%N.
Hypothesis H1 : dx1 <> 0%re.
Hypothesis H3 : dx3 <> 0%re.
Let west z := eos (face_var ns pts (line_x1 Q z) 3 0 0).
Let east z := eos (face_var ns pts (line_x1 Q z) 3 nx.-1 1).
Let ground x := eos (face_var ns pts (line_x3 Q x) 3 0 0).
Let lid x := eos (face_var ns pts (line_x3 Q x) 3 nz.-1 1).
Let total := region_integral 0 nx nz ws dx1 dx3.
Let sides := line_integral 0 nz ws dx3 (fun z => west z - east z)%re.
Let floors c0 n := line_integral c0 n ws dx1 (fun x => ground x - lid x)%re.
Lemma weight c0 nc (f : nat -> nat -> R) : region_integral c0 nc nz ws dx1 dx3 (fun z x => f z x * gravity)%re = (gravity * region_integral c0 nc nz ws dx1 dx3 f)%re.
Proof.
  rewrite /region_integral. rewrite (_ : (gravity * _)%re = (gravity : R_ringType) * (\sum_(row < nz) \sum_(col < nc) \sum_(j < seq.size ws) \sum_(i < seq.size ws) (dx1 / 2 * (dx3 / 2) * (ws`_j * ws`_i)%R * f (row * seq.size ws + j)%N ((c0 + col) * seq.size ws + i)%N)%re)) //.
  rewrite mulr_sumr. apply: eq_bigr => row _. rewrite mulr_sumr. apply: eq_bigr => col _. rewrite mulr_sumr. apply: eq_bigr => j _. rewrite mulr_sumr. apply: eq_bigr => i _.
  set w := (ws`_j * ws`_i)%R. set g := f _ _. change ((dx1 / 2 * (dx3 / 2) * w * (g * gravity) = gravity * (dx1 / 2 * (dx3 / 2) * w * g))%re). ring.
Qed.
Let rhs := rhs_bubble_implicit nx nz ns pts dx1 dx3 Q.
Lemma implicit_mass : total (rhs 0) = 0%re.
Proof.
  have T := @region_total pts ws W U I 0 nx nz dx1 dx3 (fun z => imp_point 1 (line_x1 Q z) 0) (fun x => imp_point 2 (line_x3 Q x) 0) (fun z => imp_faces nx ns 1 pts (line_x1 Q z) 0%N) (fun x => imp_faces nz ns 2 pts (line_x3 Q x) 0%N) (fun _ _ => 0%re) Hx Hz H1 H3.
  rewrite /total (@region_ext ws _ _ _ _ _ _ (fun z x => - (slope ns pts dx1 (imp_point 1 (line_x1 Q z) 0) (imp_faces nx ns 1 pts (line_x1 Q z) 0%N) x + slope ns pts dx3 (imp_point 2 (line_x3 Q x) 0) (imp_faces nz ns 2 pts (line_x3 Q x) 0%N) z) - 0)%re) //.
  rewrite T => [|z e He|x e He]; first last.
  - have [-> ->] := @imp_between nz ns 2 pts (line_x3 Q x) 0%N e He. by [].
  - have [-> ->] := @imp_between nx ns 1 pts (line_x1 Q z) 0%N e He. by [].
  rewrite region_zero (@line_ext ws 0 nz _ _ (fun _ => 0 - 0)%re) => [|z]; last by rewrite add0n imp_low // imp_high.
  rewrite (@line_ext ws 0 nx _ _ (fun _ => 0 - 0)%re) => [|x]; last by rewrite imp_low // imp_high.
  rewrite !line_zero. ring.
Qed.
Lemma implicit_x1 : total (rhs 1) = sides.
Proof.
  have T := @region_total pts ws W U I 0 nx nz dx1 dx3 (fun z => imp_point 1 (line_x1 Q z) 1) (fun x _ => R0) (fun z => imp_faces nx ns 1 pts (line_x1 Q z) 1%N) (fun x _ _ => R0) (fun _ _ => 0%re) Hx Hz H1 H3.
  rewrite /total (@region_ext ws _ _ _ _ _ _ (fun z x => - (slope ns pts dx1 (imp_point 1 (line_x1 Q z) 1) (imp_faces nx ns 1 pts (line_x1 Q z) 1%N) x + slope ns pts dx3 (fun _ => R0) (fun _ _ => R0) z) - 0)%re); last by move=> z x; rewrite slope_zero.
  rewrite T // => [|z e He]; last by have [-> ->] := @imp_between nx ns 1 pts (line_x1 Q z) 1%N e He.
  rewrite region_zero line_zero (@line_ext ws 0 nz _ _ (fun z => west z - east z)%re) => [|z]; last by rewrite add0n imp_low // imp_high.
  rewrite /sides. ring.
Qed.
Lemma implicit_x3 : total (rhs 2) = (floors 0 nx - gravity * total (Q 0%N))%re.
Proof.
  have T := @region_total pts ws W U I 0 nx nz dx1 dx3 (fun z _ => R0) (fun x => imp_point 2 (line_x3 Q x) 2) (fun z _ _ => R0) (fun x => imp_faces nz ns 2 pts (line_x3 Q x) 2%N) (fun z x => Q 0%N z x * gravity)%re Hx Hz H1 H3.
  rewrite /total (@region_ext ws _ _ _ _ _ _ (fun z x => - (slope ns pts dx1 (fun _ => R0) (fun _ _ => R0) x + slope ns pts dx3 (imp_point 2 (line_x3 Q x) 2) (imp_faces nz ns 2 pts (line_x3 Q x) 2%N) z) - Q 0%N z x * gravity)%re); last by move=> z x; rewrite slope_zero.
  rewrite T // => [|x e He]; last by have [-> ->] := @imp_between nz ns 2 pts (line_x3 Q x) 2%N e He.
  rewrite weight line_zero (@line_ext ws 0 nx _ _ (fun x => ground x - lid x)%re) => [|x]; last by rewrite imp_low // imp_high.
  rewrite /floors. ring.
Qed.
Variables (old1 old3 : nat -> faces).
Let conv := rhs_bubble_convective nx nz ns pts dx1 dx3 Q false old1 old3.
Lemma convective_closed v : total (conv v) = ((if v == 1%N then sides else 0) + (if v == 2%N then floors 0 nx - gravity * total (Q 0%N) else 0))%re.
Proof.
  have T := @region_total pts ws W U I 0 nx nz dx1 dx3 (fun z => conv_point 1 (line_x1 Q z) v) (fun x => conv_point 2 (line_x3 Q x) v) (fun z => conv_faces nx ns 1 pts (line_x1 Q z) false (old1 z) v) (fun x => conv_faces nz ns 2 pts (line_x3 Q x) false (old3 x) v) (fun z x => if v == 2%N then Q 0%N z x * gravity else 0)%re Hx Hz H1 H3.
  rewrite /total /conv /rhs_bubble_convective T => [|z e He|x e He]; first last.
  - have [-> ->] := @conv_between nz ns 2 pts (line_x3 Q x) (old3 x) v e He. by [].
  - have [-> ->] := @conv_between nx ns 1 pts (line_x1 Q z) (old1 z) v e He. by [].
  rewrite (@line_ext ws 0 nz _ _ (fun z => if v == 1%N then west z - east z else 0 - 0)%re) => [|z]; last by rewrite add0n conv_low // conv_high //; case: (v == 1%N).
  rewrite (@line_ext ws 0 nx _ _ (fun x => if v == 2%N then ground x - lid x else 0 - 0)%re) => [|x]; last by rewrite conv_low // conv_high //; case: (v == 2%N).
  rewrite /sides /floors. case: (v =P 1%N) => [->|_] /=; [|case: (v =P 2%N) => _ /=]; rewrite ?line_zero ?region_zero ?weight /=; ring.
Qed.
Let per := rhs_bubble_convective nx nz ns pts dx1 dx3 Q true old1 old3.
Lemma convective_ring v : (1 < nx)%N -> region_integral 1 nx.-1 nz ws dx1 dx3 (per v) = (if v == 2%N then floors 1 nx.-1 - gravity * region_integral 1 nx.-1 nz ws dx1 dx3 (Q 0%N) else 0)%re.
Proof.
  move=> Hn. have N0 : (0 < nx.-1)%N by rewrite -ltnS prednK.
  have T := @region_total pts ws W U I 1 nx.-1 nz dx1 dx3 (fun z => conv_point 1 (line_x1 Q z) v) (fun x => conv_point 2 (line_x3 Q x) v) (fun z => conv_faces nx ns 1 pts (line_x1 Q z) true (old1 z) v) (fun x => conv_faces nz ns 2 pts (line_x3 Q x) false (old3 x) v) (fun z x => if v == 2%N then Q 0%N z x * gravity else 0)%re N0 Hz H1 H3.
  rewrite /per /rhs_bubble_convective T => [|z e He|x e He]; first last.
  - have [-> ->] := @conv_between nz ns 2 pts (line_x3 Q x) (old3 x) v e He. by [].
  - rewrite !add1n. apply: per_between => //. by rewrite -ltnS prednK // in He *.
  rewrite (@line_ext ws 0 nz _ _ (fun z => conv_faces nx ns 1 pts (line_x1 Q z) true (old1 z) v 1%N 0%N - conv_faces nx ns 1 pts (line_x1 Q z) true (old1 z) v 1%N 0%N)%re) => [|z]; last by rewrite add1n prednK // per_ring.
  rewrite (@line_ext ws 0 nz _ _ (fun _ => 0 - 0)%re) => [|z]; last by ring.
  rewrite (@line_ext ws 1 nx.-1 _ _ (fun x => if v == 2%N then ground x - lid x else 0 - 0)%re) => [|x]; last by rewrite conv_low // conv_high //; case: (v == 2%N).
  rewrite /floors. case: (v =P 2%N) => _ /=; rewrite ?line_zero ?region_zero ?weight /=; ring.
Qed.
(** the first column of elements stays a copy of the last one *)
Lemma conv_old n d (q : nat -> nat -> R) (o o' : faces) v e s : (e < n)%N -> (s < 2)%N -> conv_faces n ns d pts q false o v e s = conv_faces n ns d pts q false o' v e s.
Proof.
  move=> He. have Hn : (0 < n)%N by exact: leq_ltn_trans He. case: s => [|[|]] // _.
  - case: e He => [_|e He]; first by rewrite !conv_low. have [_ ->] := @conv_between n ns d pts q o v e He. by have [_ ->] := @conv_between n ns d pts q o' v e He.
  - case: (ltnP e.+1 n) => H. + have [-> _] := @conv_between n ns d pts q o v e H. by have [-> _] := @conv_between n ns d pts q o' v e H.
    have -> : e = n.-1 by apply/eqP; rewrite -eqSS prednK // eqn_leq He. by rewrite !conv_high.
Qed.
Lemma convective_copy v z i : (1 < nx)%N -> (i < ns)%N -> (z < nz * ns)%N -> (forall v z i, (i < ns)%N -> Q v z i = Q v z (nx.-1 * ns + i)%N) -> per v z i = per v z (nx.-1 * ns + i)%N.
Proof.
  move=> Hn Hi Hzz E. have Ns : (0 < ns)%N by case: ns Hi. rewrite /per /rhs_bubble_convective.
  have X3 : line_x3 Q i = line_x3 Q (nx.-1 * ns + i).
  { apply: FunctionalExtensionality.functional_extensionality => w. apply: FunctionalExtensionality.functional_extensionality => z'. by rewrite /line_x3 E. }
  have Ez : (z %/ ns < nz)%N by rewrite ltn_divLR.
  have -> : slope ns pts dx3 (conv_point 2 (line_x3 Q i) v) (conv_faces nz ns 2 pts (line_x3 Q i) false (old3 i) v) z = slope ns pts dx3 (conv_point 2 (line_x3 Q (nx.-1 * ns + i)) v) (conv_faces nz ns 2 pts (line_x3 Q (nx.-1 * ns + i)) false (old3 (nx.-1 * ns + i)%N) v) z.
  { rewrite X3 /slope. by rewrite !(conv_old 2 _ (old3 i) (old3 (nx.-1 * ns + i)%N) _ Ez). }
  have -> : slope ns pts dx1 (conv_point 1 (line_x1 Q z) v) (conv_faces nx ns 1 pts (line_x1 Q z) true (old1 z) v) i = slope ns pts dx1 (conv_point 1 (line_x1 Q z) v) (conv_faces nx ns 1 pts (line_x1 Q z) true (old1 z) v) (nx.-1 * ns + i)%N.
  { rewrite /slope. have [-> ->] := divmod_small nx.-1 Hi. have [A B] := divmod_small 0 Hi. rewrite mul0n add0n in A B. rewrite A B !per_copy //.
    set S := \sum_(l < ns) _. set S' := \sum_(l < ns) _. have -> // : S = S'. apply: eq_bigr => l _. congr (_ * _). by rewrite mul0n add0n /conv_point /line_x1 !(E _ _ l). }
  by rewrite (E 0%N z i).
Qed.
End Balance.
