(** Consistency of the right-hand sides on the plane, the finite volumes, and the periodic domain. *)
From Coq Require Import Reals Lra.
From Verif Require Import FluxModel FluxProofs FluxFaces.
From mathcomp Require Import all_ssreflect all_algebra.
From Verif Require Import RField RNum OpModel OpSpec OpFinal RhsModel RhsSpec RhsGauss SwGlobal QuadModel SwSplitModel SwSplitProofs AdvExact PlnModel PlnSpec PlnFaces PlnTotal PlnFinal.
Set Implicit Arguments.
Unset Strict Implicit.
Unset Printing Implicit Defensive.
Import GRing.Theory.
Delimit Scope R_scope with re.
Local Open Scope ring_scope.

Lemma implicit_theta nx nz ns pts dx1 dx3 Q z x (dt : R) : let rhs := rhs_bubble_implicit nx nz ns pts dx1 dx3 Q in
  Q 0%N z x <> 0%re -> (Q 0%N z x + dt * rhs 0%N z x)%re <> 0%re -> ((Q 3%N z x + dt * rhs 3%N z x) / (Q 0%N z x + dt * rhs 0%N z x) = Q 3%N z x / Q 0%N z x)%re.
Proof.
  move=> rhs H0 H1. have -> : rhs 3%N z x = (Q 3%N z x / Q 0%N z x * rhs 0%N z x)%re by rewrite /rhs /rhs_bubble_implicit /=; ring.
  move: (rhs 0%N z x) H1 => r H1. by field.
Qed.
Lemma eos_pos x : (0 < eos x)%re.
Proof. rewrite /eos. apply: Rmult_lt_0_compat; [rewrite /p0; lra|exact: exp_pos]. Qed.
Section Consistent.
Variables (n ns d : nat) (pts : seq R) (q : nat -> nat -> R) (i : nat).
Let var := face_var ns pts q.
Hypothesis Hi : (0 < i)%N.
Hypothesis C : forall v, (v < 4)%N -> var v i.-1 1%N = var v i 0%N.
Hypothesis Hd : (0 < d < 3)%N.
Let d4 : (d < 4)%N. Proof. by case/andP: Hd => _ /ltnW. Qed.
Lemma imp_consistent v : (0 < var 0 i 0)%re -> (0 < var 3 i 0)%re -> imp_itf ns d pts q i v = acoustic_flux d (fun w => var w i 0%N) v.
Proof.
  move=> Hr Ht. rewrite /imp_itf /imp_step. cbv zeta. rewrite /face_pres -/var (C (v := 0)) // (C (v := d)) // (C (v := 3)) //.
  have Hp : (0 < pressure_faces (var 3 i 0))%re by exact: eos_pos.
  have D0 : (d == 0%N) = false by case/andP: Hd; rewrite lt0n => /negbTE.
  rewrite /assign /at_var /at_face !eqxx !andbT ?andbF /acoustic_flux -/(eos (var 3 i 0)) D0 /=.
  have Ei : (i == i.-1) = false by case: i Hi => // k _ /=; apply/negbTE; rewrite neq_ltn ltnSn orbT.
  rewrite -/(pressure_faces _) in Hp *. have S := sound_speed _ _ Hr Hp. set a := sqrt _ in S *. set M := (1 / 4 * _)%re.
  case: (v =P d) => [->|_].
  - rewrite D0 /=. rewrite (_ : eos (var 3 i 0) = pressure_faces (var 3 i 0)) //. field. lra.
  - case: (v =P 0%N) => [_|_] //. transitivity (Rmax 0 M * a * var 0 i 0 + Rmin 0 M * a * var 0 i 0)%re; [ring|]. rewrite max_min_sum /M. field. lra.
Qed.
Lemma conv_consistent v : (v < 4)%N -> conv_itf n ns d pts q false i v = euler_flux d (fun w => var w i 0%N) v.
Proof.
  move=> Hv. rewrite /conv_itf /conv_step /conv_var /conv_pres. cbv zeta. rewrite /= /face_pres -/var (C (v := 0)) // (C (v := d)) // (C (v := 3)) //.
  rewrite /assign /at_var /at_face !eqxx !andbT ?andbF /euler_flux /=. case: (v =P d) => [->|_].
  - rewrite ?eqxx /= (C (v := d)) //. rewrite (_ : eos (var 3 i 0) = pressure_faces (var 3 i 0)) //. set w := (var d i 0 / _)%re. field.
  - rewrite (C (v := v)) //. set w := (var d i 0 / _)%re. field.
Qed.
End Consistent.
Lemma slope_exact pts dx (F : nat -> R) (f : nat -> nat -> R) c i (p : {poly R_numFieldType}) : let ns := seq.size pts in
  uniq (extension (pts : seq R_numFieldType)) -> (i < ns)%N -> (seq.size p <= ns.+2)%N -> (forall l, (l < ns)%N -> p.[pts`_l] = F (c * ns + l)%N) -> p.[-1] = f c 0%N -> p.[1] = f c 1%N ->
  slope ns pts dx F f (c * ns + i)%N = (p^`().[pts`_i] * 2 / dx)%re.
Proof.
  move=> ns U Hi S P A B. rewrite /slope. have [-> ->] := divmod_small c Hi.
  rewrite -(@dfr_line R_numFieldType pts p i (fun l => F (c * ns + l)%N) U S Hi) => [|l Hl]; last by rewrite P. by rewrite A B.
Qed.
Section Exact.
Variables (nx nz : nat) (pts : seq R) (dx1 dx3 : R) (Q : nat -> nat -> nat -> R) (row col j i v : nat) (p1 p3 : {poly R_numFieldType}).
Let ns := seq.size pts.
Let z := (row * ns + j)%N.
Let x := (col * ns + i)%N.
Let s1 e s w := face_var ns pts (line_x1 Q z) w e s.
Let s3 e s w := face_var ns pts (line_x3 Q x) w e s.
Hypothesis U : uniq (extension (pts : seq R_numFieldType)).
Hypothesis Hj : (j < ns)%N.
Hypothesis Hi : (i < ns)%N.
Hypothesis Hr : (0 < row)%N /\ (row.+1 < nz)%N.
Hypothesis Hc : (0 < col)%N /\ (col.+1 < nx)%N.
Hypothesis S1 : (seq.size p1 <= ns.+2)%N.
Hypothesis S3 : (seq.size p3 <= ns.+2)%N.
Hypothesis C1 : forall w, (w < 4)%N -> s1 col.-1 1%N w = s1 col 0%N w /\ s1 col 1%N w = s1 col.+1 0%N w.
Hypothesis C3 : forall w, (w < 4)%N -> s3 row.-1 1%N w = s3 row 0%N w /\ s3 row 1%N w = s3 row.+1 0%N w.
Lemma implicit_exact : (v < 3)%N -> (forall w s, (w == 0%N) || (w == 3%N) -> (s < 2)%N -> (0 < s1 col s w /\ 0 < s3 row s w)%re) ->
  (forall l, (l < ns)%N -> p1.[pts`_l] = acoustic_flux 1 (fun w => Q w z (col * ns + l)%N) v) -> p1.[-1] = acoustic_flux 1 (s1 col 0%N) v -> p1.[1] = acoustic_flux 1 (s1 col 1%N) v ->
  (forall l, (l < ns)%N -> p3.[pts`_l] = acoustic_flux 2 (fun w => Q w (row * ns + l)%N x) v) -> p3.[-1] = acoustic_flux 2 (s3 row 0%N) v -> p3.[1] = acoustic_flux 2 (s3 row 1%N) v ->
  rhs_bubble_implicit nx nz ns pts dx1 dx3 Q v z x = (- (p1^`().[pts`_i] * 2 / dx1 + p3^`().[pts`_j] * 2 / dx3) - (if v == 2%N then gravity * Q 0%N z x else 0))%re.
Proof.
  move=> Hv Pos P1 A1 B1 P3 A3 B3. case: Hr => Hr0 Hr1. case: Hc => Hc0 Hc1.
  have Ac d q q' : (forall w, (w < 4)%N -> q w = q' w) -> (d < 4)%N -> acoustic_flux d q v = acoustic_flux d q' v by move=> E Hd; rewrite /acoustic_flux !E.
  have X1 w : imp_faces nx ns 1 pts (line_x1 Q z) w col 0%N = acoustic_flux 1 (s1 col 0%N) w /\ imp_faces nx ns 1 pts (line_x1 Q z) w col 1%N = acoustic_flux 1 (s1 col 1%N) w.
  { split.
    - have [_ E] := @imp_between nx ns 1 pts (line_x1 Q z) w col.-1 (leq_trans (n := col.+1) (eq_leq (congr1 S (prednK Hc0))) (ltnW Hc1)). rewrite prednK // in E. rewrite E.
      apply: imp_consistent => //. + by move=> w' /C1 []. + by case: (Pos 0%N 0%N erefl erefl). + by case: (Pos 3%N 0%N erefl erefl).
    - have [-> _] := @imp_between nx ns 1 pts (line_x1 Q z) w col Hc1. rewrite imp_consistent //.
      + rewrite /acoustic_flux -/(s1 col.+1 0%N 1%N) -/(s1 col.+1 0%N 3%N). by case: (C1 (w := 1)) => // _ <-; case: (C1 (w := 3)) => // _ <-.
      + by move=> w' /C1 [].
      + case: (Pos 0%N 1%N erefl erefl) => H _. by case: (C1 (w := 0)) => // _ E; rewrite /s1 in E H; rewrite -E.
      + case: (Pos 3%N 1%N erefl erefl) => H _. by case: (C1 (w := 3)) => // _ E; rewrite /s1 in E H; rewrite -E. }
  have X3 w : imp_faces nz ns 2 pts (line_x3 Q x) w row 0%N = acoustic_flux 2 (s3 row 0%N) w /\ imp_faces nz ns 2 pts (line_x3 Q x) w row 1%N = acoustic_flux 2 (s3 row 1%N) w.
  { split.
    - have [_ E] := @imp_between nz ns 2 pts (line_x3 Q x) w row.-1 (leq_trans (n := row.+1) (eq_leq (congr1 S (prednK Hr0))) (ltnW Hr1)). rewrite prednK // in E. rewrite E.
      apply: imp_consistent => //. + by move=> w' /C3 []. + by case: (Pos 0%N 0%N erefl erefl). + by case: (Pos 3%N 0%N erefl erefl).
    - have [-> _] := @imp_between nz ns 2 pts (line_x3 Q x) w row Hr1. rewrite imp_consistent //.
      + rewrite /acoustic_flux -/(s3 row.+1 0%N 2%N) -/(s3 row.+1 0%N 3%N). by case: (C3 (w := 2)) => // _ <-; case: (C3 (w := 3)) => // _ <-.
      + by move=> w' /C3 [].
      + case: (Pos 0%N 1%N erefl erefl) => _ H. by case: (C3 (w := 0)) => // _ E; rewrite /s3 in E H; rewrite -E.
      + case: (Pos 3%N 1%N erefl erefl) => _ H. by case: (C3 (w := 3)) => // _ E; rewrite /s3 in E H; rewrite -E. }
  have E1 : imp_df1 nx ns pts dx1 Q v z x = (p1^`().[pts`_i] * 2 / dx1)%re.
  { rewrite /imp_df1. case: ifP => Hv2.
    - apply: slope_exact => //. + by rewrite A1; case: (X1 v). + by rewrite B1; case: (X1 v).
    - have Ev : v = 2%N by case: v Hv Hv2 => [|[|[|]]]. rewrite Ev in P1 A1 B1.
      rewrite -[R0](slope_zero ns pts dx1 x). apply: slope_exact => //. }
  have E3 : imp_df3 nz ns pts dx3 Q v z x = (p3^`().[pts`_j] * 2 / dx3)%re.
  { rewrite /imp_df3. case: ifP => Hv2.
    - apply: slope_exact => //. + by rewrite A3; case: (X3 v). + by rewrite B3; case: (X3 v).
    - have Ev : v = 1%N by case: v Hv Hv2 => [|[|[|]]]. rewrite Ev in P3 A3 B3.
      rewrite -[R0](slope_zero ns pts dx3 z). apply: slope_exact => //. }
  rewrite /rhs_bubble_implicit E1 E3. case: (v =P 3%N) => [E|_]; first by rewrite E in Hv. by case: (v == 2%N); rewrite // [(gravity * _)%re]Rmult_comm.
Qed.
Lemma convective_exact old1 old3 : (v < 4)%N -> (forall l, (l < ns)%N -> Q 0%N z (col * ns + l)%N <> 0%re /\ Q 0%N (row * ns + l)%N x <> 0%re) ->
  (forall l, (l < ns)%N -> p1.[pts`_l] = euler_flux 1 (fun w => Q w z (col * ns + l)%N) v) -> p1.[-1] = euler_flux 1 (s1 col 0%N) v -> p1.[1] = euler_flux 1 (s1 col 1%N) v ->
  (forall l, (l < ns)%N -> p3.[pts`_l] = euler_flux 2 (fun w => Q w (row * ns + l)%N x) v) -> p3.[-1] = euler_flux 2 (s3 row 0%N) v -> p3.[1] = euler_flux 2 (s3 row 1%N) v ->
  rhs_bubble_convective nx nz ns pts dx1 dx3 Q false old1 old3 v z x = (- (p1^`().[pts`_i] * 2 / dx1 + p3^`().[pts`_j] * 2 / dx3) - (if v == 2%N then gravity * Q 0%N z x else 0))%re.
Proof.
  move=> Hv Nz P1 A1 B1 P3 A3 B3. case: Hr => Hr0 Hr1. case: Hc => Hc0 Hc1.
  have Pt d q y : (0 < d < 3)%N -> q 0%N y <> 0%re -> conv_point d q v y = euler_flux d (fun w => q w y) v.
  { move=> Hd Hq. rewrite /conv_point /euler_flux. have D0 : (0%N == d) = false by case/andP: Hd; rewrite lt0n eq_sym => /negbTE.
    have D3 : (3%N == d) = false by case/andP: Hd => _ H; apply/negbTE; rewrite neq_ltn H orbT. 
    case: (v =P 0%N) => [->|_]; [rewrite D0; field; exact: Hq|]. case: (v =P 3%N) => [->|_]; [rewrite D3; ring|]. case: (v =P d) => [->|_]; [by []|rewrite /Rdiv; ring]. }
  have X1 : conv_faces nx ns 1 pts (line_x1 Q z) false (old1 z) v col 0%N = euler_flux 1 (s1 col 0%N) v /\ conv_faces nx ns 1 pts (line_x1 Q z) false (old1 z) v col 1%N = euler_flux 1 (s1 col 1%N) v.
  { split.
    - have [_ E] := @conv_between nx ns 1 pts (line_x1 Q z) (old1 z) v col.-1 (leq_trans (n := col.+1) (eq_leq (congr1 S (prednK Hc0))) (ltnW Hc1)). rewrite prednK // in E. rewrite E.
      apply: conv_consistent => //. by move=> w' /C1 [].
    - have [-> _] := @conv_between nx ns 1 pts (line_x1 Q z) (old1 z) v col Hc1. rewrite conv_consistent //; last by move=> w' /C1 [].
      rewrite /euler_flux -!/(s1 col.+1 0%N _). by case: (C1 (w := 1)) => // _ <-; case: (C1 (w := 3)) => // _ <-; case: (C1 (w := 0)) => // _ <-; case: (C1 Hv) => _ <-. }
  have X3 : conv_faces nz ns 2 pts (line_x3 Q x) false (old3 x) v row 0%N = euler_flux 2 (s3 row 0%N) v /\ conv_faces nz ns 2 pts (line_x3 Q x) false (old3 x) v row 1%N = euler_flux 2 (s3 row 1%N) v.
  { split.
    - have [_ E] := @conv_between nz ns 2 pts (line_x3 Q x) (old3 x) v row.-1 (leq_trans (n := row.+1) (eq_leq (congr1 S (prednK Hr0))) (ltnW Hr1)). rewrite prednK // in E. rewrite E.
      apply: conv_consistent => //. by move=> w' /C3 [].
    - have [-> _] := @conv_between nz ns 2 pts (line_x3 Q x) (old3 x) v row Hr1. rewrite conv_consistent //; last by move=> w' /C3 [].
      rewrite /euler_flux -!/(s3 row.+1 0%N _). by case: (C3 (w := 2)) => // _ <-; case: (C3 (w := 3)) => // _ <-; case: (C3 (w := 0)) => // _ <-; case: (C3 Hv) => _ <-. }
  rewrite /rhs_bubble_convective. rewrite (@slope_exact pts dx1 _ _ col i p1) //; first last.
  - by rewrite B1; case: X1. - by rewrite A1; case: X1. - move=> l Hl. rewrite P1 // Pt //. by case: (Nz l Hl).
  rewrite (@slope_exact pts dx3 _ _ row j p3) //; first last.
  - by rewrite B3; case: X3. - by rewrite A3; case: X3. - move=> l Hl. rewrite P3 // Pt //. by case: (Nz l Hl).
  by case: (v == 2%N); rewrite // [(gravity * _)%re]Rmult_comm.
Qed.
End Exact.
