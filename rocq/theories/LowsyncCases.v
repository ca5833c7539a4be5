(** Cases: one basis vector on a line, no right-hand side, processes, dcgs2 *)
From Coq Require Import Reals ZArith List Bool Arith Lra Lia FunctionalExtensionality.
From Coquelicot Require Import Coquelicot.
From Verif Require Import InnerSpec InnerFacts FgmresModel FgmresFacts FgmresProofs VecTac KiopsModel KiopsProofs PmexSpec PmexModel PmexProofs PmexKrylov KiopsLinear KiopsKrylov LowsyncModel LowsyncSpec LowsyncProofs LowsyncFacts LowsyncFiles LowsyncPairs.
Import ListNotations.
Local Open Scope R_scope.

(** ** one vector *)
Section One.
Context {W : ModuleSpace R_Ring}.
Variable op : W -> W.
Hypothesis OL : linear_map op.
Variable lp : W -> W -> R.
Hypothesis lp_sym : forall x y, lp x y = lp y x.
Hypothesis lp_plus : forall x y z, lp (plus x y) z = lp x z + lp y z.
Hypothesis lp_scal : forall a x z, lp (scal (V := W) a x) z = a * lp x z.
Hypothesis lp_pos : forall x, 0 <= lp x x.
Variable tol : R.
Hypothesis tol_pos : 0 < tol.
Variable x : W.
Hypothesis far : forall c, tol * tol * lp x x < lp (plus (op x) (opp (scal (V := W) c x))) (plus (op x) (opp (scal (V := W) c x))).
Hypothesis long : tol * tol <= lp x x.
Hypothesis small : tol <= 1.
Notation dec := (decomposition lp op).

Lemma first_square : forall m b V H, dec x m b V H -> 0 < b /\ b * b = lp x x.
Proof. intros m b V H (D0 & D1 & D2 & _). split; [exact D0|]. rewrite <- D1, lp_scal, lp_sym, lp_scal, D2 by lia. cbn. ring. Qed.
Lemma gap : forall b V H c r, dec x 0 b V H -> op (V 0%nat) = plus (vec_sum 1 (fun i => scal (V := W) (c i) (V i))) r -> tol * tol < lp r r.
Proof.
  intros b V H c r D E. destruct (first_square _ _ _ _ D) as [B1 B2]. destruct D as (D0 & D1 & _). specialize (far (c 0%nat)). rewrite <- B2 in far.
  assert (Q : plus (op x) (opp (scal (V := W) (c 0%nat) x)) = scal (V := W) b r).
  { rewrite <- D1. rewrite (proj2 OL), E. cbn [vec_sum]. vec. }
  rewrite Q, lp_scal, lp_sym, lp_scal in far. nra.
Qed.
Lemma sqrt_gap : forall a, tol * tol < a -> ~ sqrt a < tol.
Proof. intros a G H. assert (0 <= sqrt a) by apply sqrt_pos. assert (sqrt a * sqrt a = a) by (apply sqrt_sqrt; nra). nra. Qed.
Lemma one_ok : forall s S mmax, (1 <= mmax)%nat -> shaped S -> exists S', substep op lp lp tol s mmax [1%nat] S x = Some (S', 1%nat, false) /\ dec x 1 (ab S') (av S') (ah S').
Proof.
  intros s S mmax M [U1 U2]. assert (XP : 0 < lp x x) by nra.
  pose proof (substep_ok op OL lp lp lp_sym lp_plus lp_scal lp_pos tol tol_pos (fun _ => eq_refl) s x mmax [1%nat] S XP U1 U2 ltac:(discriminate) ltac:(cbn; split; [left; lia|exact I])) as O. change (largest [1%nat]) with 1%nat in O.
  destruct (substep op lp lp tol s mmax [1%nat] S x) as [[[K h] [|]]|]; cbn [outcome] in O.
  - exfalso. destruct O as (H1 & D & B). assert (h = 1%nat) as -> by lia. cbn [Nat.sub] in D. destruct s as [k|k|k]; cbn [broken] in B.
    + destruct B as (c & r & E & Z). exact (sqrt_gap _ (gap _ _ _ c r D E) Z).
    + cbn [Nat.eqb] in B. destruct (first_square _ _ _ _ D) as [B1 B2]. destruct B as [B|B]; [nra|lra].
    + destruct B as (r & [E _] & Z). exact (sqrt_gap _ (gap _ _ _ (fun i => ah K i 0%nat) r D E) Z).
  - destruct O as [-> D]. exists K. split; [reflexivity|exact D].
  - exfalso. destruct O as [_ (h & b & V & H & r & H1 & D & [E _] & Z)]. assert (h = 1%nat) as -> by lia. cbn [Nat.sub] in D, E. pose proof (gap _ _ _ (fun i => H i 0%nat) r D E). nra.
Qed.
(** the loop of the files with a lag, before the norm of the last vector *)
Lemma one_lag : forall k est S fp mmax, (1 <= mmax)%nat -> shaped S -> exists S1, passes op lp fp tol (scheme_lag est k) mmax [1%nat] (begin lp (scheme_lag est k) S x) 0 false = (match finish fp S1 1 with None => None | Some S2 => Some (S2, 1%nat, false) end) /\
  dec x 0 (ab S1) (av S1) (ah S1) /\ remainder lp op 1 (av S1) (ah S1) (av S1 1%nat).
Proof.
  intros k est S fp mmax M [U1 U2]. assert (XP : 0 < lp x x) by nra.
  set (S0 := begin lp (scheme_lag est k) S x). set (S0' := Arrays (av S0) (ah S0) (at_ S0) (an S0) (ai S0) (ab S0) (anormal S0) 0).
  assert (L0 : lag_state op lp (current est S0' 0) x S0' 0).
  { assert (C1 : clean_t 0 (at_ S)) by (split; [exact U1|intros; lia]). assert (C2 : clean_n 0 (an S)) by (split; [exact U2|intros; lia]). assert (C3 : lower (fun _ _ => 0)) by (intros i q I; reflexivity).
    unfold S0', S0, lag_state, current. destruct est; cbn [scheme_lag begin ah at_ an av ab anormal andb Nat.ltb Nat.leb]; exact (conj C3 (conj C1 (conj C2 eq_refl))). }
  pose proof (loop_lag op OL lp lp_sym lp_plus lp_scal lp_pos tol tol_pos k est x XP 1 S0' 0 L0 ltac:(intros; lia)) as LP.
  change (passes op lp fp tol (scheme_lag est k) mmax [1%nat] S0 0 false) with
    (match loop op lp tol (scheme_lag est k) 1 S0' 0 with
    | None => None
    | Some (S1, j1, true) => Some (S1, j1, true)
    | Some (S1, j1, false) => match (match scheme_lag est k with NE _ => Some S1 | _ => finish fp S1 1 end) with None => None | Some S2 => Some (S2, j1, false) end
    end).
  destruct (loop op lp tol (scheme_lag est k) 1 S0' 0) as [[[S1 h] [|]]|].
  - exfalso. destruct LP as (H1 & D & B). assert (h = 1%nat) as -> by lia. cbn [Nat.sub] in D. destruct est; cbn [scheme_lag broken] in B.
    + destruct B as (r & [E _] & Z). exact (sqrt_gap _ (gap _ _ _ (fun i => ah S1 i 0%nat) r D E) Z).
    + cbn [Nat.eqb] in B. destruct (first_square _ _ _ _ D) as [B1 B2]. destruct B as [B|B]; [nra|lra].
  - destruct LP as (-> & _ & P). destruct (P ltac:(lia)) as [AN (_ & _ & _ & ST)]. rewrite AN in ST. cbn [Nat.add semi] in ST. exists S1. split; [destruct est; reflexivity|exact ST].
  - exfalso. destruct LP as (h & b & V & H & r & H1 & D & [E _] & Z). assert (h = 1%nat) as -> by lia. cbn [Nat.sub] in D, E. pose proof (gap _ _ _ (fun i => H i 0%nat) r D E). nra.
Qed.
End One.

(** ** the line: x' = c, from 1 *)
Definition line : ModuleSpace R_Ring := R_ModuleSpace.
Definition ldot (x y : line) : R := x * y.
Definition still : line -> line := fun _ => 0.
Definition push (c : R) : nat -> line := fun _ => c.
Notation lrow := (@row line).
Lemma ldot_ok : scalar_product ldot.
Proof.
  unfold ldot. repeat split.
  - intros x y. apply Rmult_comm.
  - intros x y z. change ((x + y) * z = x * z + y * z). ring.
  - intros a x y. change (a * x * y = a * (x * y)). ring.
  - intros x. apply Rle_0_sqr.
  - intros x H. apply Rmult_integral in H. destruct H; assumption.
Qed.
Lemma still_linear : linear_map still.
Proof. split; intros; unfold still; cbn; [symmetry; apply Rplus_0_l|symmetry; apply Rmult_0_r]. Qed.
Definition lop (c : R) : lrow -> lrow := augmented_product still (push c) 1 0.
Definition lstart : lrow := start_row (X := line) 1 0 1 0.
Lemma lop_val : forall c v, fst (lop c v) = c * snd v 0%nat /\ snd (lop c v) 0%nat = 0.
Proof.
  intros c v. unfold lop, augmented_product, still, push. cbn [fst snd vsum]. split; [|reflexivity].
  change (0 + (0 + snd v 0%nat * (nu 0 * c)) = c * snd v 0%nat). unfold nu. cbn [Z.opp powerRZ]. ring.
Qed.
Lemma lstart_val : fst lstart = 1 /\ snd lstart 0%nat = 1.
Proof. split; reflexivity. Qed.
Lemma leach : forall P v w, each ldot 1 P v w = fst v * fst w + INR P * (snd v 0%nat * snd w 0%nat).
Proof. intros P v w. unfold each, ldot. cbn [rsum]. ring. Qed.
Definition lone : R := 1 / 10.
Lemma lfar : forall P c, (P = 1%nat \/ P = 2%nat) -> let x := lstart in lone * lone * each ldot 1 P x x < each ldot 1 P (plus (lop 1 x) (opp (scal (V := lrow) c x))) (plus (lop 1 x) (opp (scal (V := lrow) c x))).
Proof.
  intros P c HP x. rewrite !leach. destruct lstart_val as [E1 E2]. destruct (lop_val 1 x) as [E3 E4]. unfold x in *.
  change (fst (plus (lop 1 lstart) (opp (scal (V := lrow) c lstart)))) with (fst (lop 1 lstart) + - (c * fst lstart)). change (snd (plus (lop 1 lstart) (opp (scal (V := lrow) c lstart))) 0%nat) with (snd (lop 1 lstart) 0%nat + - (c * snd lstart 0%nat)).
  rewrite E3, E4, E1, E2. unfold lone. pose proof (pow2_ge_0 (c - 1 / 2)). pose proof (pow2_ge_0 (c - 1 / 3)). destruct HP as [-> | ->]; cbn [INR]; lra.
Qed.
Lemma llong : forall P, (P = 1%nat \/ P = 2%nat) -> lone * lone <= each ldot 1 P lstart lstart.
Proof. intros P HP. rewrite leach. destruct lstart_val as [-> ->]. unfold lone. destruct HP as [-> | ->]; cbn [INR]; lra. Qed.
Lemma line_build : forall P f mmax S, (P = 1%nat \/ P = 2%nat) -> consistent P f -> (1 <= mmax)%nat -> shaped S ->
  exists K, build ldot still (push 1) 1 0 P f lone mmax [1%nat] S 1 0 = Some (K, 1%nat, false) /\ decomposition (loop_product ldot 1 P f) (lop 1) lstart 1 (ab K) (av K) (ah K).
Proof.
  intros P f mmax S HP C M U. unfold build. rewrite (product_final ldot 1 P f C). destruct (product_each ldot 1 P f) as [Q [-> E]]. assert (HQ : Q = 1%nat \/ Q = 2%nat) by lia.
  apply one_ok; auto.
  - apply At_linear; auto. exact still_linear.
  - apply each_sym. exact ldot_ok.
  - apply each_plus. exact ldot_ok.
  - apply each_scal. exact ldot_ok.
  - apply each_pos. exact ldot_ok.
  - unfold lone; lra.
  - intros c. exact (lfar Q c HQ).
  - exact (llong Q HQ).
  - unfold lone; lra.
Qed.
(** the solution after the time tau, with one vector *)
Lemma line_value : forall Q b V H, (Q = 1%nat \/ Q = 2%nat) -> decomposition (each ldot 1 Q) (lop 1) lstart 1 b V H -> b * fst (V 0%nat) = 1 /\ H 0%nat 0%nat = / (1 + INR Q).
Proof.
  intros Q b V H HQ D. pose proof (dec_coefficient (lop 1) (each ldot 1 Q) (each_sym ldot ldot_ok 1 Q) (each_plus ldot ldot_ok 1 Q) (each_scal ldot ldot_ok 1 Q) lstart 1 b V H 0 0 D ltac:(lia) ltac:(lia)) as E.
  destruct D as (D0 & D1 & D2 & _). specialize (D2 0%nat 0%nat ltac:(lia) ltac:(lia)). cbn [Nat.eqb] in D2. rewrite leach in D2, E. destruct (lop_val 1 (V 0%nat)) as [E3 E4]. rewrite E3, E4 in E.
  assert (F1 : b * fst (V 0%nat) = 1) by (change (fst (scal (V := lrow) b (V 0%nat)) = 1); rewrite D1; reflexivity).
  assert (F2 : b * snd (V 0%nat) 0%nat = 1) by (change (snd (scal (V := lrow) b (V 0%nat)) 0%nat = 1); rewrite D1; reflexivity).
  split; [exact F1|]. assert (EQ : snd (V 0%nat) 0%nat = fst (V 0%nat)) by nra. rewrite EQ in *. destruct HQ as [-> | ->]; cbn [INR] in *; lra.
Qed.
Theorem processes : forall f, f = icwy_1s \/ f = pmex_ne1s \/ f = icwy_ne1s \/ f = cwy_ne1s -> exists K1 K2,
  build ldot still (push 1) 1 0 1 f lone 128 [1%nat] fresh 1 0 = Some (K1, 1%nat, false) /\ build ldot still (push 1) 1 0 2 f lone 128 [1%nat] fresh 1 0 = Some (K2, 1%nat, false) /\
  ab K1 * exp (ah K1 0%nat 0%nat) * fst (av K1 0%nat) = exp (1 / 2) /\ ab K2 * exp (ah K2 0%nat 0%nat) * fst (av K2 0%nat) = exp (1 / 3).
Proof.
  intros f F.
  assert (C1 : consistent 1 f) by (split; [lia|reflexivity]). assert (C2 : consistent 2 f) by (split; [lia|intros [-> | ->]; destruct F as [F|[F|[F|F]]]; discriminate]).
  destruct (line_build 1 f 128 fresh (or_introl eq_refl) C1 ltac:(lia) (fresh_shape _)) as (K1 & B1 & D1). destruct (line_build 2 f 128 fresh (or_intror eq_refl) C2 ltac:(lia) (fresh_shape _)) as (K2 & B2 & D2).
  exists K1, K2. split; [exact B1|split; [exact B2|]].
  assert (P1 : loop_product ldot 1 1 f = each ldot 1 1) by (destruct F as [->|[->|[->| ->]]]; reflexivity). assert (P2 : loop_product ldot 1 2 f = each ldot 1 2) by (destruct F as [->|[->|[->| ->]]]; reflexivity). rewrite P1 in D1. rewrite P2 in D2.
  destruct (line_value 1 _ _ _ (or_introl eq_refl) D1) as [X1 Y1]. destruct (line_value 2 _ _ _ (or_intror eq_refl) D2) as [X2 Y2]. rewrite Y1, Y2. cbn [INR]. replace (/ (1 + 1)) with (1 / 2) by lra. replace (/ (1 + (1 + 1))) with (1 / 3) by lra. split; [transitivity (ab K1 * fst (av K1 0%nat) * exp (1 / 2)); [ring|rewrite X1; ring]|transitivity (ab K2 * fst (av K2 0%nat) * exp (1 / 3)); [ring|rewrite X2; ring]].
Qed.
(** the last vector of pmex_1s and cwy_1s with two processes *)
Theorem last_norm : forall f, f = pmex_1s \/ f = cwy_1s -> exists K, build ldot still (push 1) 1 0 2 f lone 128 [1%nat] fresh 1 0 = Some (K, 1%nat, false) /\ once ldot 1 (av K 0%nat) (av K 0%nat) = 1 /\ once ldot 1 (av K 1%nat) (av K 1%nat) = 2 / 3.
Proof.
  intros f F. assert (ES : exists k, scheme_of f = scheme_lag false k /\ loop_product ldot 1 2 f = once ldot 1 /\ final_product ldot 1 2 f = each ldot 1 2) by (destruct F as [-> | ->]; eexists; repeat split).
  destruct ES as (k & E1 & E2 & E3). unfold build, substep. rewrite E1, E2, E3. rewrite <- each_one.
  destruct (one_lag (lop 1)) with (lp := each ldot 1 1) (tol := lone) (x := lstart) (k := k) (est := false) (S := @fresh lrow) (fp := each ldot 1 2) (mmax := 128%nat) as (S1 & EP & D & R); auto.
  - apply At_linear; auto. exact still_linear.
  - apply each_sym. exact ldot_ok.
  - apply each_plus. exact ldot_ok.
  - apply each_scal. exact ldot_ok.
  - apply each_pos. exact ldot_ok.
  - unfold lone; lra.
  - intros c. exact (lfar 1 c (or_introl eq_refl)).
  - exact (llong 1 (or_introl eq_refl)).
  - unfold lone; lra.
  - lia.
  - apply fresh_shape.
  - change (augmented_product still (push 1) 1 0) with (lop 1). change (start_row (X := line) 1 0 1 0) with lstart. rewrite EP. destruct D as (D0 & D1 & D2 & _). destruct R as [R1 R2]. cbn [Nat.sub vec_sum] in R1. specialize (R2 0%nat ltac:(lia)). specialize (D2 0%nat 0%nat ltac:(lia) ltac:(lia)). cbn [Nat.eqb] in D2.
    set (w := av S1 1%nat) in *. set (v := av S1 0%nat) in *. set (b := ab S1) in *. set (h := ah S1 0%nat 0%nat) in *.
    assert (F1 : b * fst v = 1) by (change (fst (scal (V := lrow) b v) = 1); rewrite D1; reflexivity).
    assert (F2 : b * snd v 0%nat = 1) by (change (snd (scal (V := lrow) b v) 0%nat = 1); rewrite D1; reflexivity).
    assert (EQ : snd v 0%nat = fst v) by nra.
    destruct (lop_val 1 v) as [E4 E5]. rewrite leach in R2, D2. cbn [INR] in R2, D2.
    assert (G1 : fst (lop 1 v) = 0 + h * fst v + fst w) by (rewrite R1; reflexivity). assert (G2 : snd (lop 1 v) 0%nat = 0 + h * snd v 0%nat + snd w 0%nat) by (rewrite R1; reflexivity).
    rewrite E4 in G1. rewrite E5 in G2. rewrite EQ in *. assert (NZ : fst v <> 0) by nra. assert (WS : snd w 0%nat = - fst w) by nra. assert (WV : fst w = fst v / 2) by lra.
    unfold finish. fold w. assert (NW : each ldot 1 2 w w = 3 * (fst w * fst w)) by (rewrite leach, WS; cbn [INR]; ring). rewrite NW. set (n := sqrt (3 * (fst w * fst w))).
    assert (N0 : 0 < n) by (apply sqrt_lt_R0; rewrite WV; nra). assert (NN : n * n = 3 * (fst w * fst w)) by (apply sqrt_sqrt; nra).
    destruct (Req_EM_T n 0) as [Z|Z]; [lra|]. eexists. split; [reflexivity|]. cbn [av]. rewrite set1_same, set1_other by lia. fold v. rewrite !leach. cbn [INR].
    change (fst (scal (V := lrow) (/ n) w)) with (/ n * fst w). change (snd (scal (V := lrow) (/ n) w) 0%nat) with (/ n * snd w 0%nat). rewrite EQ, WS. split; [lra|].
    replace (/ n * fst w * (/ n * fst w) + 1 * (/ n * - fst w * (/ n * - fst w))) with (2 * (fst w * fst w) / (n * n)) by (field; lra). rewrite NN. field. rewrite WV. intros Q. apply NZ. lra.
Qed.

(** ** no right-hand side *)
Section Rest.
Context {X : ModuleSpace R_Ring}.
Variable dot : X -> X -> R.
Hypothesis D : scalar_product dot.
Variable A : X -> X.
Hypothesis L : linear_map A.
Variable ex : Z.
Notation row := (@row X).
Notation nothing := (fun _ : nat => @zero X).
Notation At := (augmented_product A nothing 1 ex).
Notation x0 := (start_row 1 ex (@zero X) 0).
Lemma rest_zero : At x0 = zero.
Proof.
  unfold augmented_product, start_row. apply injective_projections; cbn [fst snd].
  - cbn [vsum]. change (fst (@zero row)) with (@zero X). rewrite (linear_zero A L). rewrite !scal_zero_r. rewrite !plus_zero_r. reflexivity.
  - apply functional_extensionality. intro k. unfold shift. replace (k <? 1 - 1)%nat with false by (symmetry; apply Nat.ltb_ge; lia). reflexivity.
Qed.
Lemma rest_one : forall Q m b V H, (1 <= m)%nat -> ~ decomposition (each dot 1 Q) At x0 m b V H.
Proof.
  intros Q m b V H M Dc. pose proof (dec_coefficient At (each dot 1 Q) (each_sym dot D 1 Q) (each_plus dot D 1 Q) (each_scal dot D 1 Q) x0 m b V H 1 0 Dc ltac:(lia) ltac:(lia)) as E.
  destruct Dc as (D0 & D1 & D2 & D3 & D4 & D5). specialize (D4 0%nat ltac:(lia)). change (0 + 1)%nat with 1%nat in D4.
  assert (Z : At (V 0%nat) = zero).
  { assert (AL : linear_map At) by (apply At_linear; auto). replace (V 0%nat) with (scal (V := row) (/ b) x0); [rewrite (proj2 AL), rest_zero; apply scal_zero_r|]. rewrite <- D1, <- scal_Rmult. replace (/ b * b) with 1 by (field; lra). exact (scal_one _). }
  rewrite Z in E. assert (ZZ : each dot 1 Q (V 1%nat) (@zero row) = 0). { rewrite (each_sym dot D 1 Q). replace (@zero row) with (scal (V := row) 0 (V 1%nat)) by (exact (scal_zero_l _)). rewrite (each_scal dot D 1 Q). ring. }
  rewrite ZZ in E. lra.
Qed.
Lemma rest_norm : forall Q, (1 <= Q)%nat -> mu ex * mu ex <= each dot 1 Q x0 x0.
Proof.
  intros Q HQ. unfold each, start_row. cbn [fst snd rsum]. pose proof (dot_pos dot D zero). unfold augmented. change (0 <? 1 - 1)%nat with false. cbv iota. apply le_INR in HQ. cbn [INR] in HQ. assert (0 <= mu ex * mu ex) by apply Rle_0_sqr. nra.
Qed.
Theorem rest_lagged : forall P f t mmax ms S, consistent P f -> f = pmex_1s \/ f = icwy_1s \/ f = cwy_1s -> 0 < t -> t <= 1 -> t <= mu ex -> shaped S -> ms <> [] -> growing mmax 0 ms -> build dot A nothing 1 ex P f t mmax ms S zero 0 = None.
Proof.
  intros P f t mmax ms S C F T0 T1 T2 U N G. pose proof (build_ok dot D A L nothing 1 (le_n 1) ex P f t mmax ms S zero 0 C T0 U N G) as O. destruct (product_each dot 1 P f) as [Q [EQ HQ]]. rewrite EQ in O. assert (1 <= Q)%nat by (destruct C; lia).
  assert (LM : (1 <= largest ms)%nat). { destruct ms as [|m ms]; [contradiction|]. destruct G as [G1 G2]. pose proof (growing_last mmax ms m G2). unfold largest. replace (last (m :: ms) 0%nat) with (last ms m) by (destruct ms as [|m' ms']; [reflexivity|exact (last_default ms' m' m 0%nat)]). lia. }
  destruct (build dot A nothing 1 ex P f t mmax ms S zero 0) as [[[K h] [|]]|]; [| |reflexivity]; exfalso; cbn [outcome] in O.
  - destruct O as (H1 & Dc & B). destruct (Nat.eq_dec h 1) as [->|]; [|exact (rest_one Q (h - 1) _ _ _ ltac:(lia) Dc)]. cbn [Nat.sub] in Dc.
    destruct (first_square At (each dot 1 Q) (each_sym dot D 1 Q) (each_scal dot D 1 Q) x0 _ _ _ _ Dc) as [B1 B2]. pose proof (rest_norm Q ltac:(lia)). destruct F as [->|[->| ->]]; cbn [scheme_of broken Nat.eqb] in B; (destruct B as [B|B]; [nra|lra]).
  - destruct O as [-> Dc]. exact (rest_one Q (largest ms) _ _ _ LM Dc).
Qed.
Theorem rest_ne : forall P f t mmax ms S, (1 <= P)%nat -> f = pmex \/ f = icwy_ne \/ f = cwy_ne -> 0 < t -> shaped S -> ms <> [] -> growing mmax 0 ms ->
  exists K, build dot A nothing 1 ex P f t mmax ms S zero 0 = Some (K, 1%nat, true) /\ scal (V := row) (ab K) (av K 0%nat) = start_row 1 ex zero 0.
Proof.
  intros P f t mmax ms S HP F T0 U N G. assert (C : consistent P f) by (split; [exact HP|intros [-> | ->]; destruct F as [F|[F|F]]; discriminate]).
  pose proof (build_ok dot D A L nothing 1 (le_n 1) ex P f t mmax ms S zero 0 C T0 U N G) as O. destruct (product_each dot 1 P f) as [Q [EQ HQ]]. rewrite EQ in O.
  assert (LM : (1 <= largest ms)%nat). { destruct ms as [|m ms]; [contradiction|]. destruct G as [G1 G2]. pose proof (growing_last mmax ms m G2). unfold largest. replace (last (m :: ms) 0%nat) with (last ms m) by (destruct ms as [|m' ms']; [reflexivity|exact (last_default ms' m' m 0%nat)]). lia. }
  destruct (build dot A nothing 1 ex P f t mmax ms S zero 0) as [[[K h] [|]]|]; cbn [outcome] in O.
  - destruct O as (H1 & Dc & B). destruct (Nat.eq_dec h 1) as [->|]; [|exfalso; exact (rest_one Q (h - 1) _ _ _ ltac:(lia) Dc)]. exists K. split; [reflexivity|]. apply Dc.
  - exfalso. destruct O as [-> Dc]. exact (rest_one Q (largest ms) _ _ _ LM Dc).
  - exfalso. destruct O as [O _]. destruct F as [->|[->| ->]]; apply (O _ eq_refl).
Qed.
End Rest.

(** ** kiops_nest with two processes and two phi functions *)
Theorem nest_norm : exists S1, pairs_loop (step_nest (augmented_product still (push 0) 2 0) (each ldot 2 2) (once ldot 2) lone) 1 (pairs_begin (once ldot 2) (Pairs (fun _ => @zero lrow) (fun _ _ => 0) 0 0) (start_row (X := line) 2 0 0 0)) 0 = (S1, 1%nat, false) /\
  once ldot 2 (pv S1 0%nat) (pv S1 0%nat) = 1 /\ once ldot 2 (pv S1 1%nat) (pv S1 1%nat) = 1 / 2.
Proof.
  set (x := start_row (X := line) 2 0 0 0). set (op := augmented_product still (push 0) 2 0).
  assert (E2 : forall P v w, each ldot 2 P v w = fst v * fst w + INR P * (snd v 0%nat * snd w 0%nat + snd v 1%nat * snd w 1%nat)) by (intros; unfold each, ldot; cbn [rsum]; ring).
  assert (X0 : fst x = 0) by reflexivity. assert (X1 : snd x 0%nat = 0) by (cbn; unfold Rdiv; ring). assert (X2 : snd x 1%nat = 1) by reflexivity.
  assert (N1 : sqrt (once ldot 2 x x) = 1) by (rewrite <- each_one, E2, X0, X1, X2; cbn [INR]; replace (0 * 0 + 1 * (0 * 0 + 1 * 1)) with 1 by ring; apply sqrt_1).
  cbn [pairs_loop]. unfold pairs_begin. rewrite N1. unfold step_nest. cbn [pv ph pt pb]. cbn [Nat.sub Nat.min Nat.add]. rewrite !set1_same.
  set (v0 := scal (V := lrow) (/ 1) x). assert (V0 : fst v0 = 0) by (change (/ 1 * fst x = 0); rewrite X0; ring). assert (V1 : snd v0 0%nat = 0) by (change (/ 1 * snd x 0%nat = 0); rewrite X1; ring). assert (V2 : snd v0 1%nat = 1) by (change (/ 1 * snd x 1%nat = 1); rewrite X2; field).
  set (a := op v0).
  assert (A0 : fst a = 0). { unfold a, op, augmented_product, still, push. cbn [fst vsum]. change (0 + (0 + snd v0 0%nat * (nu 0 * 0) + snd v0 1%nat * (nu 0 * 0)) = 0). ring. }
  assert (A1 : snd a 0%nat = 1) by (unfold a, op, augmented_product; cbn [snd]; unfold shift; cbn; exact V2). assert (A2 : snd a 1%nat = 0) by reflexivity.
  match goal with |- context [set1 ?V 1%nat a] => set (v1 := set1 V 1%nat a) end. assert (W0 : v1 0%nat = v0) by reflexivity. cbn [rsum Nat.add].
  rewrite !W0. assert (B0 : each ldot 2 2 v0 a = 0) by (rewrite E2, V0, V1, V2, A0, A1, A2; cbn [INR]; ring). assert (B1 : each ldot 2 2 a a = 2) by (rewrite E2, A0, A1, A2; cbn [INR]; ring). rewrite B0, B1.
  destruct (Rlt_dec 2 _) as [G|G]; [lra|]. replace (2 - (0 + 0 ^ 2)) with 2 by ring.
  assert (S2 : sqrt 2 * sqrt 2 = 2) by (apply sqrt_sqrt; lra). assert (S3 : 0 < sqrt 2) by (apply sqrt_lt_R0; lra). unfold lone. destruct (Rlt_dec (sqrt 2) (1 / 10)) as [H|H]; [nra|].
  eexists. split; [reflexivity|]. cbn [pv]. rewrite set1_same, set1_other by lia. rewrite W0. split.
  - rewrite <- each_one, E2, V0, V1, V2. cbn [INR]. ring.
  - match goal with |- context [scal (V := lrow) (/ sqrt 2) ?y] => set (w := y) end.
    assert (Z0 : fst w = 0). { unfold w. cbn [vsum Nat.eqb andb Nat.leb Nat.ltb Nat.sub Nat.add]. change (fst a + - (0 + each ldot 2 2 v0 a * fst v0) = 0). rewrite B0, A0, V0. ring. }
    assert (Z1 : snd w 0%nat = 1). { unfold w. change (snd a 0%nat + - (0 + each ldot 2 2 v0 a * snd v0 0%nat) = 1). rewrite B0, A1, V1. ring. }
    assert (Z2 : snd w 1%nat = 0). { unfold w. change (snd a 1%nat + - (0 + each ldot 2 2 v0 a * snd v0 1%nat) = 0). rewrite B0, A2, V2. ring. }
    rewrite <- each_one, E2. change (fst (scal (V := lrow) (/ sqrt 2) w)) with (/ sqrt 2 * fst w). change (snd (scal (V := lrow) (/ sqrt 2) w) 0%nat) with (/ sqrt 2 * snd w 0%nat). change (snd (scal (V := lrow) (/ sqrt 2) w) 1%nat) with (/ sqrt 2 * snd w 1%nat). rewrite Z0, Z1, Z2. cbn [INR].
    transitivity (1 / (sqrt 2 * sqrt 2)); [field; lra|rewrite S2; reflexivity].
Qed.

(** ** dcgs2 *)
Section Dcgs.
Context {W : ModuleSpace R_Ring}.
Variables (op : W -> W) (lp fp : W -> W -> R) (tol : R).
Definition kept (x : W) (b : R) (S : @dcgs W) : Prop := dv S 0%nat = x /\ db S = b.
Lemma dcgs_step_kept : forall x b S j S1 e, (1 <= j)%nat -> kept x b S -> dcgs_step op lp tol S j = Some (S1, e) -> kept x b S1.
Proof.
  intros x b S j S1 e J [K1 K2] H. unfold dcgs_step in H. cbv zeta in H. destruct ((j =? 1)%nat || dn S) eqn:E.
  - injection H as <- <-. split; [|exact K2]. cbn [dv]. rewrite !set1_other by lia. exact K1.
  - apply orb_false_iff in E as [E _]. apply Nat.eqb_neq in E. destruct (Rlt_dec _ 0); [discriminate|]. destruct (Req_EM_T _ 0); [discriminate|].
    destruct (Rlt_dec _ tol); injection H as <- <-; (split; [|exact K2]); cbn [dv]; rewrite !set1_other by lia; exact K1.
Qed.
Lemma dcgs_loop_kept : forall x b rest S j S1 h e, kept x b S -> dcgs_loop op lp tol rest S j = Some (S1, h, e) -> kept x b S1.
Proof.
  intros x b. induction rest as [|r IH]; intros S j S1 h e K H; cbn [dcgs_loop] in H; [injection H as <- <- <-; exact K|].
  destruct (dcgs_step op lp tol S (Datatypes.S j)) as [[S2 [|]]|] eqn:E; [| |discriminate]; apply (dcgs_step_kept x b) in E; try assumption; try lia; [injection H as <- <- <-; exact E|]. eapply IH; eassumption.
Qed.
Lemma dcgs_passes_kept : forall x b mmax ms S j r S1 h e, growing mmax j ms -> kept x b S -> dcgs_passes op lp tol mmax ms S j r = Some (S1, h, e) -> kept x b S1.
Proof.
  intros x b mmax. induction ms as [|m ms IH]; intros S j r S1 h e G K H; cbn [dcgs_passes] in H; [injection H as <- <- <-; exact K|]. destruct G as [G1 G2].
  destruct (dcgs_loop op lp tol (m - j) S j) as [[[S2 j2] [|]]|] eqn:E; [| |discriminate].
  - apply (dcgs_loop_kept x b) in E; [|exact K]. injection H as <- <- <-. exact E.
  - assert (J2 : j2 = (j + (m - j))%nat).
    { revert E. generalize (m - j)%nat as n. clear. intros n. revert S j. induction n as [|n IH]; intros S j E; cbn [dcgs_loop] in E; [injection E as <- <-; lia|]. destruct (dcgs_step op lp tol S (Datatypes.S j)) as [[S3 [|]]|]; [discriminate| |discriminate]. apply IH in E. lia. }
    apply (dcgs_loop_kept x b) in E; [|exact K].
    assert (F : forall S3, (if r then Some S2 else dcgs_finish lp S2 m) = Some S3 -> kept x b S3).
    { intros S3 F. destruct r; [injection F as <-; exact E|]. unfold dcgs_finish in F. cbv zeta in F. destruct (Rlt_dec _ 0); [discriminate|]. destruct (Req_EM_T _ 0); [discriminate|]. injection F as <-. destruct E as [E1 E2]. split; [|exact E2]. cbn [dv]. rewrite set1_other by lia. exact E1. }
    destruct (if r then Some S2 else dcgs_finish lp S2 m) as [S3|]; [|discriminate]. apply (IH S3 j2 _ S1 h e) in H; [exact H| |now apply F]. replace j2 with m by lia. exact G2.
Qed.
Theorem dcgs_first : forall mmax ms S x S1 h e, growing mmax 0 ms -> dcgs_passes op lp tol mmax ms (dcgs_begin fp S x) 0 false = Some (S1, h, e) -> dv S1 0%nat = x /\ db S1 = sqrt (fp x x).
Proof. intros mmax ms S x S1 h e G H. apply (dcgs_passes_kept x (sqrt (fp x x))) in H; [exact H|exact G|]. split; reflexivity. Qed.
End Dcgs.
(** x' = - 1 / 4 from 1: the result is sqrt 2 for every length of the substep *)
Theorem dcgs_line : exists S1, dcgs_passes (lop (- (1 / 4))) (each ldot 1 1) lone 128 [1%nat] (dcgs_begin (once ldot 1) (Dcgs (fun _ => @zero lrow) (fun _ _ => 0) 0 false) lstart) 0 false = Some (S1, 1%nat, false) /\
  forall tau, db S1 * exp (tau * dh S1 0%nat 0%nat) * fst (dv S1 0%nat) = sqrt 2.
Proof.
  set (c := - (1 / 4)). destruct lstart_val as [X1 X2]. destruct (lop_val c lstart) as [Y1 Y2]. rewrite X2 in Y1.
  cbn [dcgs_passes dcgs_loop Nat.sub]. unfold dcgs_step. cbn [Nat.eqb orb]. unfold dcgs_begin, set1. cbn [dv dh db dn Nat.sub Nat.eqb].
  assert (G : each ldot 1 1 lstart (lop c lstart) = c) by (rewrite leach, X1, X2, Y1, Y2; cbn [INR]; ring). rewrite G.
  set (w := plus (lop c lstart) (opp (scal (V := lrow) c lstart))).
  assert (W1 : fst w = 0) by (change (fst (lop c lstart) + - (c * fst lstart) = 0); rewrite Y1, X1; ring). assert (W2 : snd w 0%nat = - c) by (change (snd (lop c lstart) 0%nat + - (c * snd lstart 0%nat) = - c); rewrite Y2, X2; ring).
  unfold dcgs_finish, set1. cbn [dv dh db dn Nat.sub rsum Nat.eqb]. fold w.
  assert (G2 : each ldot 1 1 lstart w = - c) by (transitivity (fst lstart * fst w + INR 1 * (snd lstart 0%nat * snd w 0%nat)); [exact (leach 1 lstart w)|rewrite X1, X2, W1, W2; cbn [INR]; ring]). rewrite G2.
  set (d := - c - (0 + (- c) ^ 2)). assert (DE : d = 3 / 16) by (unfold d, c; field).
  destruct (Rlt_dec d 0) as [Z|Z]; [lra|]. destruct (Req_EM_T (sqrt d) 0) as [Q|Q]; [apply sqrt_eq_0 in Q; lra|].
  eexists. split; [reflexivity|]. intros tau. cbn [dh db dv Nat.eqb Nat.ltb Nat.leb]. unfold set_entry. cbn [Nat.eqb andb]. rewrite ?G2, X1.
  replace (tau * (c + - c)) with 0 by ring. rewrite exp_0. rewrite <- each_one, leach, X1, X2. cbn [INR]. replace (1 * 1 + 1 * (1 * 1)) with 2 by ring. ring.
Qed.
