(** rhs_bubble_convective in every element, for every state. *)
From Coq Require Import Reals Lra.
From Verif Require Import FluxModel FluxProofs FluxFaces.
From mathcomp Require Import all_ssreflect all_algebra.
From Verif Require Import RField RNum OpModel OpSpec OpFinal RhsModel RhsSpec RhsGauss SwGlobal QuadModel SwSplitModel SwSplitProofs AdvExact PlnModel PlnSpec PlnFaces PlnTotal PlnFinal PlnExact PlnVolumes.
Set Implicit Arguments.
Unset Strict Implicit.
Unset Printing Implicit Defensive.
Import GRing.Theory.
Delimit Scope R_scope with re.
Local Open Scope ring_scope.

Section Mean.
Variables (n ns d : nat) (pts : seq R) (q : nat -> nat -> R) (old : faces).
Let s e k w := face_var ns pts q w e k.
Lemma conv_mean i v : conv_itf n ns d pts q false i v = ((euler_flux d (s i.-1 1%N) v + euler_flux d (s i 0%N) v) / 2)%re.
Proof.
  rewrite /conv_itf /conv_step /conv_var /conv_pres. cbv zeta. rewrite /= /face_pres.
  rewrite /assign /at_var /at_face !eqxx !andbT ?andbF /euler_flux /s /=. 
  have E x : eos x = pressure_faces x by []. set wl := (face_var ns pts q d i.-1 1 / _)%re. set wr := (face_var ns pts q d i 0 / _)%re. case: (v =P d) => [->|_]; rewrite ?eqxx ?E; field.
Qed.
Lemma conv_sides v e : (e < n)%N -> conv_faces n ns d pts q false old v e 0%N = central_flux n d s e v /\ conv_faces n ns d pts q false old v e 1%N = central_flux n d s e.+1 v.
Proof.
  move=> He. have Hn : (0 < n)%N by exact: leq_ltn_trans He. rewrite /central_flux. split.
  - case: e He => [|e] He; first by rewrite conv_low.
    rewrite [e.+1 == n]ltn_eqF // -conv_mean /=. by case: (@conv_between n ns d pts q old v e He).
  - rewrite [e.+1 == 0%N]/=. case: (e.+1 =P n) => [E|N].
    + have -> : e = n.-1 by rewrite -E. by rewrite conv_high.
    + have H : (e.+1 < n)%N by rewrite ltn_neqAle He andbT; apply/eqP. rewrite -conv_mean. by case: (@conv_between n ns d pts q old v e H).
Qed.
End Mean.
Lemma point_euler v d (q : nat -> nat -> R) y : (0 < d < 3)%N -> q 0%N y <> 0%re -> conv_point d q v y = euler_flux d (fun w => q w y) v.
Proof.
  move=> Hd Hq. rewrite /conv_point /euler_flux. have D0 : (0%N == d) = false by case/andP: Hd; rewrite lt0n eq_sym => /negbTE.
  have D3 : (3%N == d) = false by case/andP: Hd => _ H; apply/negbTE; rewrite neq_ltn H orbT. 
  case: (v =P 0%N) => [->|_]; [rewrite D0; field; exact: Hq|]. case: (v =P 3%N) => [->|_]; [rewrite D3; ring|]. case: (v =P d) => [->|_]; [by []|rewrite /Rdiv; ring].
Qed.
Lemma convective_mean nx nz pts dx1 dx3 Q row col j i v (p1 p3 : {poly R_numFieldType}) old1 old3 : let ns := seq.size pts in let z := (row * ns + j)%N in let x := (col * ns + i)%N in
  let s1 e s w := face_var ns pts (line_x1 Q z) w e s in let s3 e s w := face_var ns pts (line_x3 Q x) w e s in
  uniq (extension (pts : seq R_numFieldType)) -> (j < ns)%N -> (i < ns)%N -> (row < nz)%N -> (col < nx)%N ->
  (seq.size p1 <= ns.+2)%N -> (seq.size p3 <= ns.+2)%N -> (forall l, (l < ns)%N -> Q 0%N z (col * ns + l)%N <> 0%re /\ Q 0%N (row * ns + l)%N x <> 0%re) ->
  (forall l, (l < ns)%N -> p1.[pts`_l] = euler_flux 1 (fun w => Q w z (col * ns + l)%N) v) -> p1.[-1] = central_flux nx 1 s1 col v -> p1.[1] = central_flux nx 1 s1 col.+1 v ->
  (forall l, (l < ns)%N -> p3.[pts`_l] = euler_flux 2 (fun w => Q w (row * ns + l)%N x) v) -> p3.[-1] = central_flux nz 2 s3 row v -> p3.[1] = central_flux nz 2 s3 row.+1 v ->
  rhs_bubble_convective nx nz ns pts dx1 dx3 Q false old1 old3 v z x = (- (p1^`().[pts`_i] * 2 / dx1 + p3^`().[pts`_j] * 2 / dx3) - (if v == 2%N then gravity * Q 0%N z x else 0))%re.
Proof.
  move=> ns z x s1 s3 U Hj Hi Hr Hc S1 S3 Nz P1 A1 B1 P3 A3 B3.
  have [X1 Y1] := @conv_sides nx ns 1 pts (line_x1 Q z) (old1 z) v col Hc. have [X3 Y3] := @conv_sides nz ns 2 pts (line_x3 Q x) (old3 x) v row Hr.
  rewrite /rhs_bubble_convective. rewrite (@slope_exact pts dx1 _ _ col i p1) //; first last.
  - by rewrite B1 Y1.
  - by rewrite A1 X1.
  - move=> l Hl. rewrite P1 // point_euler //. by case: (Nz l Hl).
  rewrite (@slope_exact pts dx3 _ _ row j p3) //; first last.
  - by rewrite B3 Y3.
  - by rewrite A3 X3.
  - move=> l Hl. rewrite P3 // point_euler //. by case: (Nz l Hl).
  by case: (v == 2%N); rewrite // [(gravity * _)%re]Rmult_comm.
Qed.
(** two elements of one point between walls, momentum in the second one only *)
Lemma mean_case dx1 dx3 old1 old3 : rhs_bubble_convective 2 1 1 [:: 0%re] dx1 dx3 wave_state false old1 old3 0 0 0 = (- (1 / 4 * 2 / dx1))%re.
Proof.
  have E : gauss_legendre (fun _ => ([::], [::])) 1 = Some ([:: 0%re], [:: 2%re]) by [].
  have U := @gauss_uniq (fun _ => ([::], [::])) 1 _ _ erefl E.
  have V (q : nat -> nat -> R) v e s : face_var 1 [:: 0%re] q v e s = q v e by rewrite /face_var big_ord1 one_point_weights muln1 addn0; exact: Rmult_1_r.
  have Sz (a b c : R_numFieldType) : (seq.size (a *: 'X^2 + b *: 'X + c%:P)%R <= 3)%N.
  { apply: (leq_trans (size_add _ _)). rewrite geq_max (leq_trans (size_polyC_leq1 _)) // andbT. apply: (leq_trans (size_add _ _)). rewrite geq_max. apply/andP; split; apply: (leq_trans (size_scale_leq _ _)); by rewrite ?size_polyXn ?size_polyX. }
  have H (a b c x : R_numFieldType) : (a *: 'X^2 + b *: 'X + c%:P)%R.[x] = (a * (x * x) + b * x + c)%R by rewrite !hornerE.
  have D (a b c x : R_numFieldType) : (a *: 'X^2 + b *: 'X + c%:P)%R^`().[x] = (a * (x + x) + b)%R by rewrite !derivE !hornerE; rewrite ?mulr2n ?expr1 ?mulr1 ?addr0 ?hornerE.
  have M := @convective_mean 2 1 [:: 0%re] dx1 dx3 wave_state 0 0 0 0 0 ((1 / 4)%re *: 'X^2 + (1 / 4)%re *: 'X + 0%re%:P)%R ((-1)%re *: 'X^2 + 0%re *: 'X + 1%re%:P)%R old1 old3 U erefl erefl erefl erefl (Sz _ _ _) (Sz _ _ _).
  rewrite /= in M. rewrite M {M}.
  - rewrite !D. change (@GRing.add _) with Rplus. change (@GRing.mul _) with Rmult. rewrite /Rdiv. ring.
  - move=> [|l] // _. rewrite /wave_state /=. split; lra.
  - move=> [|l] // _. rewrite H /euler_flux /wave_state /=. change (@GRing.add _) with Rplus. change (@GRing.mul _) with Rmult. field.
  - rewrite H /central_flux /=. change (@GRing.add _) with Rplus. change (@GRing.mul _) with Rmult. change (@GRing.opp _) with Ropp. change (@GRing.one _) with 1%re. field.
  - rewrite H /central_flux /= /euler_flux /= !V /line_x1 /wave_state /=. change (@GRing.add _) with Rplus. change (@GRing.mul _) with Rmult. change (@GRing.one _) with 1%re. field.
  - move=> [|l] // _. rewrite H /euler_flux /wave_state /=. change (@GRing.add _) with Rplus. change (@GRing.mul _) with Rmult. field.
  - rewrite H /central_flux /=. change (@GRing.add _) with Rplus. change (@GRing.mul _) with Rmult. change (@GRing.opp _) with Ropp. change (@GRing.one _) with 1%re. field.
  - rewrite H /central_flux /=. change (@GRing.add _) with Rplus. change (@GRing.mul _) with Rmult. change (@GRing.opp _) with Ropp. change (@GRing.one _) with 1%re. field.
Qed.
