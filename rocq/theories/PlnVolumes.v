(** The finite volumes on the plane, and the periodic domain of rhs_bubble_convective.py. *)
From Coq Require Import Reals Lra Lia.
From Verif Require Import FluxModel FluxSpec FluxProofs FluxFaces.
From mathcomp Require Import all_ssreflect all_algebra.
From Verif Require Import RField RNum OpModel OpSpec OpFinal RhsModel RhsSpec RhsGauss SwGlobal QuadModel SwSplitModel SwSplitProofs AdvExact PlnModel PlnSpec PlnFaces PlnTotal PlnFinal PlnExact.
Set Implicit Arguments.
Unset Strict Implicit.
Unset Printing Implicit Defensive.
Import GRing.Theory.
Delimit Scope R_scope with re.
Local Open Scope ring_scope.

Lemma points_eos x : pressure_points x = eos x.
Proof. rewrite /pressure_points /eos /Rpower. have -> : (Rd / p0 * x = x * Rd / p0)%re by rewrite /Rdiv; ring. by []. Qed.
Section Scheme.
Variables (c : scheme) (n d : nat).
Lemma right_low v f : put (right_of n) v f 0%N 0%N = f 0%N 0%N.
Proof. rewrite /right_of. apply: put_out_range. left. lia. Qed.
Lemma left_high v f : (0 < n)%N -> put (left_of n) v f n.-1 1%N = f n.-1 1%N.
Proof. move=> /ltP H. rewrite /left_of. apply: put_out_range. left. lia. Qed.
Lemma scheme_low var pres flux v : compute_flux c n d var pres flux v 0%N 0%N = flux v 0%N 0%N.
Proof. rewrite /compute_flux /ausm_2d_fv /upwind_2d_fv /rusanov_2d_fv. cbv zeta. case: c; rewrite /all_vars /one_var put_left_out; try case: (PeanoNat.Nat.eqb _ _); rewrite ?right_low //. Qed.
Lemma scheme_high var pres flux v : (0 < n)%N -> compute_flux c n d var pres flux v n.-1 1%N = flux v n.-1 1%N.
Proof. move=> Hn. rewrite /compute_flux /ausm_2d_fv /upwind_2d_fv /rusanov_2d_fv. cbv zeta. case: c; rewrite /all_vars /one_var left_high //; try case: (PeanoNat.Nat.eqb _ _); rewrite ?put_right_out //. Qed.
Lemma scheme_between var pres flux v e : (e.+1 < n)%N -> compute_flux c n d var pres flux v e 1%N = compute_flux c n d var pres flux v e.+1 0%N.
Proof. move=> /ltP He. rewrite /compute_flux. case: c; [have H := @ausm_fv_single n d var pres flux v|have H := @upwind_fv_single n d var flux v|have H := @rusanov_fv_single n d var pres flux v]; by have := H e 0%N He (le_n 1). Qed.
Variable q : nat -> nat -> R.
Lemma fv_low v : fv_faces c n d q v 0%N 0%N = if v == d then eos (q 3%N 0%N) else 0%re.
Proof. by rewrite /fv_faces scheme_low walls_low // points_eos. Qed.
Lemma fv_high v : (0 < n)%N -> fv_faces c n d q v n.-1 1%N = if v == d then eos (q 3%N n.-1) else 0%re.
Proof. move=> Hn. by rewrite /fv_faces scheme_high // walls_high // points_eos. Qed.
Lemma fv_line v dx : (0 < n)%N -> dx <> 0%re -> \sum_(e < n) (dx * ((fv_faces c n d q v e 1%N - fv_faces c n d q v e 0%N) / dx))%re = if v == d then (eos (q 3%N n.-1) - eos (q 3%N 0%N))%re else 0%re.
Proof.
  move=> Hn Hdx. have T := @telescope_pos n (fun e => fv_faces c n d q v e 1%N) (fun e => fv_faces c n d q v e 0%N) Hn (fun e He => scheme_between _ _ _ _ He).
  rewrite (eq_bigr (fun e : 'I_n => fv_faces c n d q v e 1%N - fv_faces c n d q v e 0%N : R_ringType)) => [|e _].
  - rewrite T fv_low fv_high //. case: (v == d) => //. exact: Rminus_0_r.
  - set a := fv_faces _ _ _ _ _ _ _. set b := fv_faces _ _ _ _ _ _ _. change ((dx * ((a - b) / dx) = a - b)%re). by field.
Qed.
(** between two cells with the same state *)
Lemma fv_same v e : (0 < d < 3)%N -> (v < 4)%N -> (e.+1 < n)%N -> (forall w, (w < 4)%N -> q w e = q w e.+1) -> (0 < q 0%N e.+1)%re ->
  fv_faces c n d q v e.+1 0%N = euler_flux d (fun w => q w e.+1) v.
Proof.
  move=> Hd Hv He E Hr. have d4 : (d < 4)%N by case/andP: Hd => _ /ltnW.
  have Pt y : q 0%N y <> 0%re -> conv_point d q v y = euler_flux d (fun w => q w y) v.
  { move=> Hq. rewrite /conv_point /euler_flux. have D0 : (0%N == d) = false by case/andP: Hd; rewrite lt0n eq_sym => /negbTE.
    have D3 : (3%N == d) = false by case/andP: Hd => _ H; apply/negbTE; rewrite neq_ltn H orbT.
    case: (v =P 0%N) => [->|_]; [rewrite D0; field; exact: Hq|]. case: (v =P 3%N) => [->|_]; [rewrite D3; ring|]. case: (v =P d) => [->|_]; [by []|rewrite /Rdiv; ring]. }
  have W1 : walls n d (fun e _ => pressure_points (q 3%N e)) true (fun v e _ => conv_point d q v e) v e 1%N = euler_flux d (fun w => q w e.+1) v.
  { rewrite walls_in ?andbF // ?andbT; last by rewrite neq_ltn -ltnS prednK ?He //; exact: leq_ltn_trans He.
    rewrite Pt; last by rewrite E //; lra. by rewrite /euler_flux !E. }
  have W0 : walls n d (fun e _ => pressure_points (q 3%N e)) true (fun v e _ => conv_point d q v e) v e.+1 0%N = euler_flux d (fun w => q w e.+1) v.
  { rewrite walls_in ?andbF //. rewrite Pt //. lra. }
  rewrite /fv_faces /compute_flux. move: (He) => /ltP He'. case: c.
  - rewrite ausm_fv_consistent //; [|by move=> w /ltP Hw; rewrite E|by rewrite E|rewrite points_eos; apply: eos_pos|exact/ltP|exact/ltP].
    have Eb : PeanoNat.Nat.eqb v d = (v == d) by case: eqP => [->|H]; [exact: PeanoNat.Nat.eqb_refl|exact/PeanoNat.Nat.eqb_neq]. by rewrite /euler_flux points_eos Eb.
  - by rewrite upwind_fv_consistent // W1 W0.
  - by rewrite rusanov_fv_consistent // ?W1 ?W0 // E.
Qed.
End Scheme.

Section Cells.
Variables (c : scheme) (nx nz : nat) (dx1 dx3 : R) (Q : nat -> nat -> nat -> R).
Let rhs := rhs_bubble_fv nx nz dx1 dx3 Q c.
Let cells (f : nat -> nat -> R) : R := \sum_(z < nz) \sum_(x < nx) (dx1 * dx3 * f z x)%re.
Lemma volumes_balance v : (0 < nx)%N -> (0 < nz)%N -> dx1 <> 0%re -> dx3 <> 0%re -> cells (rhs v)
  = ((if v == 1%N then (\sum_(z < nz) (dx3 * (eos (Q 3%N z 0%N) - eos (Q 3%N z nx.-1)))%re)%R else 0)
     + (if v == 2%N then (\sum_(x < nx) (dx1 * (eos (Q 3%N 0%N x) - eos (Q 3%N nz.-1 x)))%re)%R - gravity * cells (Q 0%N) else 0))%re.
Proof.
  move=> Hx Hz H1 H3. rewrite /cells /rhs /rhs_bubble_fv. cbv zeta.
  set f1 := fun z => fv_faces c nx 1 (line_x1 Q z) v. set f3 := fun x => fv_faces c nz 2 (line_x3 Q x) v.
  set A := \sum_(z < nz) \sum_(x < nx) (dx3 * (dx1 * ((f1 z x 1%N - f1 z x 0%N) / dx1)))%re.
  set B := \sum_(z < nz) \sum_(x < nx) (dx1 * (dx3 * ((f3 x z 1%N - f3 x z 0%N) / dx3)))%re.
  set C := \sum_(z < nz) \sum_(x < nx) (if v == 2%N then gravity * (dx1 * dx3 * Q 0%N z x) else 0)%re.
  transitivity (- A - B - C).
  { rewrite /A /B /C -!sumrN -!big_split. apply: eq_bigr => z _. rewrite -!sumrN -!big_split. apply: eq_bigr => x _.
    rewrite -/(f1 z) -/(f3 x). move: (f1 z x) (f3 x z) (Q 0%N z x) => a b r.
    change ((dx1 * dx3 * (- ((a 1%N - a 0%N) / dx1 + (b 1%N - b 0%N) / dx3) - (if v == 2%N then r * gravity else 0))
      = - (dx3 * (dx1 * ((a 1%N - a 0%N) / dx1))) + - (dx1 * (dx3 * ((b 1%N - b 0%N) / dx3))) + - (if v == 2%N then gravity * (dx1 * dx3 * r) else 0))%re).
    case: (v == 2%N); by field. }
  have EA : - A = (if v == 1%N then (\sum_(z < nz) (dx3 * (eos (Q 3%N z 0%N) - eos (Q 3%N z nx.-1)))%re)%R else 0)%re.
  { have -> : A = \sum_(z < nz) (dx3 * (if v == 1%N then eos (Q 3%N z nx.-1) - eos (Q 3%N z 0%N) else 0))%re.
    { apply: eq_bigr => z _. etransitivity; [symmetry; exact: (@mulr_sumr R_ringType _ _ _ _ dx3)|]. by rewrite (fv_line c 1 (line_x1 Q z) v Hx H1). }
    rewrite -sumrN. case: (v == 1%N); [|apply: big1 => z _; change ((- (dx3 * 0) = 0)%re); ring].
    apply: eq_bigr => z _. move: (eos (Q 3%N z nx.-1)) (eos (Q 3%N z 0%N)) => a b. change ((- (dx3 * (a - b)) = dx3 * (b - a))%re). ring. }
  have EB : - B = (if v == 2%N then (\sum_(x < nx) (dx1 * (eos (Q 3%N 0%N x) - eos (Q 3%N nz.-1 x)))%re)%R else 0)%re.
  { have -> : B = \sum_(x < nx) (dx1 * (if v == 2%N then eos (Q 3%N nz.-1 x) - eos (Q 3%N 0%N x) else 0))%re.
    { rewrite /B exchange_big. apply: eq_bigr => x _. etransitivity; [symmetry; exact: (@mulr_sumr R_ringType _ _ _ _ dx1)|]. by rewrite (fv_line c 2 (line_x3 Q x) v Hz H3). }
    rewrite -sumrN. case: (v == 2%N); [|apply: big1 => x _; change ((- (dx1 * 0) = 0)%re); ring].
    apply: eq_bigr => x _. move: (eos (Q 3%N nz.-1 x)) (eos (Q 3%N 0%N x)) => a b. change ((- (dx1 * (a - b)) = dx1 * (b - a))%re). ring. }
  have EC : C = (if v == 2%N then (gravity * (\sum_(z < nz) \sum_(x < nx) (dx1 * dx3 * Q 0%N z x)%re)%R)%re else 0%re).
  { rewrite /C. case: (v == 2%N); last by apply: big1 => z _; exact: big1.
    symmetry. etransitivity; [exact: (@mulr_sumr R_ringType _ _ _ _ gravity)|]. apply: eq_bigr => z _. exact: (@mulr_sumr R_ringType _ _ _ _ gravity). }
  rewrite EA EB EC. case: (v =P 1%N) => [->|_] /=; [|case: (v == 2%N)].
  all: try set a := \sum_(z < nz) \sum_(x < nx) _; try set b := \sum_(z < nz) _; try set g := \sum_(x < nx) _.
  all: change (@GRing.add _) with Rplus; change (@GRing.opp _) with Ropp; change (@GRing.zero _) with 0%re; ring.
Qed.
(** a cell away from the walls, with the same state as its four neighbours *)
Lemma volumes_uniform v z x : (v < 4)%N -> (0 < x)%N -> (x.+1 < nx)%N -> (0 < z)%N -> (z.+1 < nz)%N -> (0 < Q 0%N z x)%re ->
  (forall w, (w < 4)%N -> Q w z x.-1 = Q w z x /\ Q w z x.+1 = Q w z x /\ Q w z.-1 x = Q w z x /\ Q w z.+1 x = Q w z x) ->
  rhs v z x = (if v == 2%N then - (gravity * Q 0%N z x) else 0)%re.
Proof.
  move=> Hv Hx0 Hx1 Hz0 Hz1 Hr E. rewrite /rhs /rhs_bubble_fv. cbv zeta.
  have X0 : fv_faces c nx 1 (line_x1 Q z) v x 0%N = euler_flux 1 (fun w => Q w z x) v.
  { have H := @fv_same c nx 1 (line_x1 Q z) v x.-1. rewrite prednK // in H. apply: H => //. exact: ltnW. by move=> w Hw; rewrite /line_x1; case: (E w Hw) => ->. }
  have X1 : fv_faces c nx 1 (line_x1 Q z) v x 1%N = euler_flux 1 (fun w => Q w z x) v.
  { rewrite /fv_faces scheme_between //. rewrite -/(fv_faces c nx 1 (line_x1 Q z) v x.+1 0%N) fv_same //.
    - rewrite /euler_flux /line_x1. have R w (Hw : (w < 4)%N) : Q w z x.+1 = Q w z x by case: (E w Hw) => _ []. by rewrite !R.
    - by move=> w Hw; rewrite /line_x1; case: (E w Hw) => _ [->].
    - rewrite /line_x1. by case: (E 0%N erefl) => _ [->]. }
  have Z0 : fv_faces c nz 2 (line_x3 Q x) v z 0%N = euler_flux 2 (fun w => Q w z x) v.
  { have H := @fv_same c nz 2 (line_x3 Q x) v z.-1. rewrite prednK // in H. apply: H => //. exact: ltnW. by move=> w Hw; rewrite /line_x3; case: (E w Hw) => _ [_ [->]]. }
  have Z1 : fv_faces c nz 2 (line_x3 Q x) v z 1%N = euler_flux 2 (fun w => Q w z x) v.
  { rewrite /fv_faces scheme_between //. rewrite -/(fv_faces c nz 2 (line_x3 Q x) v z.+1 0%N) fv_same //.
    - rewrite /euler_flux /line_x3. have R w (Hw : (w < 4)%N) : Q w z.+1 x = Q w z x by case: (E w Hw) => _ [_ [_]]. by rewrite !R.
    - by move=> w Hw; rewrite /line_x3; case: (E w Hw) => _ [_ [_ ->]].
    - rewrite /line_x3. by case: (E 0%N erefl) => _ [_ [_ ->]]. }
  rewrite X0 X1 Z0 Z1. case: (v == 2%N); rewrite /Rdiv; ring.
Qed.
End Cells.

(** ** the periodic domain: four elements of one point in a row *)
Definition wave_state (v z x : nat) : R := if v == 1%N then (if x == 1%N then 1%re else 0%re) else 1%re.
Lemma region_split nc nz (ws : seq R) dx1 dx3 f : region_integral 0 nc.+1 nz ws dx1 dx3 f = (region_integral 0 1 nz ws dx1 dx3 f + region_integral 1 nc nz ws dx1 dx3 f)%re.
Proof.
  rewrite /region_integral. set A := \sum_(row < nz) _. set B := \sum_(row < nz) _. set C := \sum_(row < nz) _. change (A = (B : R_zmodType) + C). rewrite /A /B /C -big_split. apply: eq_bigr => row _.
  rewrite big_ord_recl big_ord1. by [].
Qed.
Lemma periodic_mass old1 old3 : region_integral 0 4 1 [:: 2%re] 1%re 1%re (rhs_bubble_convective 4 1 1 [:: 0%re] 1%re 1%re wave_state true old1 old3 0) <> 0%re.
Proof.
  have E : gauss_legendre (fun _ => ([::], [::])) 1 = Some ([:: 0%re], [:: 2%re]) by [].
  have [I S] := @gauss_integrates (fun _ => ([::], [::])) 1 _ _ erefl E. have U := @gauss_uniq (fun _ => ([::], [::])) 1 _ _ erefl E.
  have N1 : (1 <> 0)%re by lra.
  rewrite region_split. have R := @convective_ring 4 1 [:: 0%re] [:: 2%re] 1%re 1%re wave_state erefl U I erefl erefl N1 N1 old1 old3 0 erefl. rewrite /= in R. rewrite R {R}.
  set q := fun z => line_x1 wave_state z.
  have T := @region_total [:: 0%re] [:: 2%re] erefl U I 0 1 1 1%re 1%re (fun z => conv_point 1 (q z) 0) (fun x => conv_point 2 (line_x3 wave_state x) 0) (fun z => conv_faces 4 1 1 [:: 0%re] (q z) true (old1 z) 0%N) (fun x => conv_faces 1 1 2 [:: 0%re] (line_x3 wave_state x) false (old3 x) 0%N) (fun _ _ => 0%re) erefl erefl N1 N1 (fun _ _ H => False_ind _ (Bool.diff_false_true H)) (fun _ _ H => False_ind _ (Bool.diff_false_true H)).
  rewrite /rhs_bubble_convective. move=> F. move: T. rewrite /= in F *. move=> T. rewrite T in F. move: F.
  rewrite region_zero.
  have -> : line_integral 0 1 [:: 2%re] 1%re (fun x => conv_faces 1 1 2 [:: 0%re] (line_x3 wave_state x) false (old3 x) 0%N 0%N 0%N - conv_faces 1 1 2 [:: 0%re] (line_x3 wave_state x) false (old3 x) 0%N 1.-1 1%N)%re = 0%re.
  { rewrite -[RHS](line_zero [:: 2%re] 0 1 1%re). apply: line_ext => x. by rewrite conv_low // conv_high. }
  have -> : line_integral 0 1 [:: 2%re] 1%re (fun z => conv_faces 4 1 1 [:: 0%re] (q z) true (old1 z) 0%N 0%N 0%N - conv_faces 4 1 1 [:: 0%re] (q z) true (old1 z) 0%N (0 + 1.-1)%N 1%N)%re = line_integral 0 1 [:: 2%re] 1%re (fun _ => 0 - 1 / 2)%re.
  { apply: line_ext => z.
    have V v e s : face_var 1 [:: 0%re] (q z) v e s = q z v e by rewrite /face_var big_ord1 one_point_weights muln1 addn0; exact: Rmult_1_r.
    change (0 + 1.-1)%N with 0%N. rewrite !per_copy // per_ring // !per_itf //. rewrite /conv_itf /conv_step /conv_var. cbv zeta. rewrite /assign /at_var /at_face /= !V /q /line_x1 /wave_state /=. lra. }
  rewrite /line_integral /= !big_ord1 /=. lra.
Qed.
Lemma periodic_loses : ~ (forall roots nx nz ns pts ws dx1 dx3 Q old1 old3,
  (1 < nx)%N -> (0 < nz)%N -> (0 < ns <= 5)%N -> gauss_legendre roots ns = Some (pts, ws) -> (0 < dx1)%re -> (0 < dx3)%re -> (forall z x, (0 < Q 0%N z x /\ 0 < Q 3%N z x)%re) ->
  region_integral 0 nx nz ws dx1 dx3 (rhs_bubble_convective nx nz ns pts dx1 dx3 Q true old1 old3 0) = 0%re).
Proof.
  move=> H. apply: (@periodic_mass (fun _ _ _ _ => R0) (fun _ _ _ _ => R0)). apply: (H (fun _ => ([::], [::]))) => //; try lra. move=> z x. rewrite /wave_state /=. split; lra.
Qed.
