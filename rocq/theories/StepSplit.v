From Coq Require Import Reals List Lra Lia FunctionalExtensionality Psatz.
From Coquelicot Require Import Hierarchy Series Derive Complex Rcomplements Rbar Lim_seq.
From Verif Require Import StepModel StepSpec VecTac RkSpec StepProofs StepOrder.
Import ListNotations.
Local Open Scope R_scope.

Section Phi.
Context {V : NormedModule R_AbsRing}.
Notation W := (NormedModule.ModuleSpace R_AbsRing V).
Ltac inst := change (@plus (NormedModule.AbelianGroup R_AbsRing V)) with (@plus (ModuleSpace.AbelianGroup R_Ring W)) in *;
  change (@minus (NormedModule.AbelianGroup R_AbsRing V)) with (@minus (ModuleSpace.AbelianGroup R_Ring W)) in *.

Lemma power_bound : forall (J : V -> V) mu x j, 0 <= mu -> bounded J mu -> norm (power J j x) <= mu ^ j * norm x.
Proof.
  intros J mu x j Hm HB. induction j as [|j IH]; cbn [power pow]; [lra|].
  eapply Rle_trans; [apply HB|]. rewrite Rmult_assoc. apply Rmult_le_compat_l; auto.
Qed.
Lemma fact_pow : forall n k, (2 ^ n <= fact (S n + k))%nat.
Proof.
  induction n as [|n IH]; intros k.
  - pose proof (lt_O_fact (S k)). change (1 <= fact (S k))%nat. lia.
  - specialize (IH k). change (S (S n) + k)%nat with (S (S n + k)). rewrite fact_simpl. cbn [Nat.pow]. nia.
Qed.
Lemma phi_bound : forall k (J : V -> V) mu (x w : V), 0 <= mu <= 1 -> bounded J mu -> phi k J x w ->
  norm (minus w (plus (scal (/ INR (fact k)) x) (scal (/ INR (fact (S k))) (J x)))) <= mu ^ 2 * norm x.
Proof.
  intros k J mu x w Hm HB HP. unfold phi in HP. set (a := fun j => scal (/ INR (fact (j + k))) (power J j x)) in HP.
  set (t := plus (scal (/ INR (fact k)) x) (scal (/ INR (fact (S k))) (J x))).
  match goal with |- norm _ <= ?B => change (norm (minus w t) <= B) end.
  assert (B : forall n, norm (minus (sum_n a (S n)) t) <= mu ^ 2 * norm x * (1 - (/ 2) ^ n)).
  { induction n as [|n IH].
    - rewrite sum_Sn, sum_O. replace (minus (plus (a 0%nat) (a 1%nat)) t) with (zero : V).
      + rewrite norm_zero. cbn. lra.
      + symmetry. apply minus_eq_zero.
    - rewrite sum_Sn. set (s := sum_n a (S n)) in *.
      assert (E : minus (plus s (a (S (S n)))) t = plus (minus s t) (a (S (S n)))).
      { set (z := a (S (S n))). clearbody t s z. vec. }
      rewrite E. eapply Rle_trans; [apply nplus|].
      assert (A : norm (a (S (S n))) <= mu ^ 2 * norm x * (/ 2) ^ S n).
      { unfold a. eapply Rle_trans; [apply nscal|]. pose proof (fact_pow (S n) k) as FP. set (N := fact (S (S n) + k)) in *.
        apply le_INR in FP. rewrite pow_INR in FP. replace (INR 2) with 2 in FP by (cbn; ring).
        assert (P2 : 0 < 2 ^ S n) by (apply pow_lt; lra). assert (PN : 0 < INR N) by lra.
        rewrite Rabs_pos_eq by (apply Rlt_le, Rinv_0_lt_compat; lra).
        pose proof (power_bound J mu x (S (S n)) (proj1 Hm) HB) as PB.
        assert (PM : mu ^ S (S n) <= mu ^ 2).
        { replace (S (S n)) with (2 + n)%nat by lia. rewrite pow_add. assert (mu ^ n <= 1) by (rewrite <- (pow1 n); apply pow_incr; lra).
          assert (0 <= mu ^ 2) by (apply pow_le; lra). pose proof (pow_le mu n (proj1 Hm)). nra. }
        pose proof (npos x) as Px. pose proof (npos (power J (S (S n)) x)) as Py.
        rewrite pow_inv. rewrite (Rmult_comm (mu ^ 2 * norm x)).
        apply Rmult_le_compat; [apply Rlt_le, Rinv_0_lt_compat; lra|exact Py|apply Rinv_le_contravar; lra|].
        eapply Rle_trans; [exact PB|]. apply Rmult_le_compat_r; lra. }
      inst. replace (mu ^ 2 * norm x * (1 - (/ 2) ^ S n)) with (mu ^ 2 * norm x * (1 - (/ 2) ^ n) + mu ^ 2 * norm x * (/ 2) ^ S n) by (cbn; field). lra. }
  apply le_epsilon. intros eps He. unfold is_series in HP.
  pose proof (proj1 (filterlim_locally_ball_norm (F := Hierarchy.eventually) (sum_n a) w) HP (mkposreal eps He)) as [N HN].
  specialize (HN (S N) ltac:(lia)). unfold ball_norm in HN. specialize (B N).
  set (s := sum_n a (S N)) in *. change (norm (minus s w) < eps) in HN.
  assert (E : minus w t = minus (minus s t) (minus s w)) by (clearbody s t; vec).
  rewrite E. eapply Rle_trans; [apply nminus|].
  assert (P : 0 < (/ 2) ^ N) by (apply pow_lt; lra). pose proof (npos x) as Px.
  assert (0 <= mu ^ 2 * norm x) by (apply Rmult_le_pos; [apply pow_le; lra|exact Px]).
  assert (B2 : mu ^ 2 * norm x * (1 - (/ 2) ^ N) <= mu ^ 2 * norm x) by nra. inst. lra.
Qed.

Lemma J_exp_lin : forall (ff fi Lf Li : V -> V) ffC fiC Q h v, linear Lf -> linear Li -> complexified ff Lf ffC -> complexified fi Li fiC ->
  J_exp (V := W) ffC fiC Q h v = scal h (minus (Lf v) (Li v)).
Proof.
  intros ff fi Lf Li ffC fiC Q h v HLf HLi Cf Ci. unfold J_exp.
  rewrite (complex_affine ff Lf ffC v Q h HLf Cf), (complex_affine fi Li fiC v Q h HLi Ci).
  set (a := Lf v). set (b := Li v). vec.
Qed.
Lemma J_exp_bounded : forall (ff fi Lf Li : V -> V) ffC fiC Q h lam, linear Lf -> linear Li -> complexified ff Lf ffC -> complexified fi Li fiC ->
  0 <= h -> bounded Lf lam -> bounded Li lam -> bounded (J_exp (V := W) ffC fiC Q h) (h * (2 * lam)).
Proof.
  intros ff fi Lf Li ffC fiC Q h lam HLf HLi Cf Ci Hh Bf Bi v. rewrite (J_exp_lin ff fi Lf Li ffC fiC Q h v HLf HLi Cf Ci).
  eapply Rle_trans; [apply nscal|]. rewrite Rabs_pos_eq by lra. rewrite Rmult_assoc. apply Rmult_le_compat_l; [lra|].
  eapply Rle_trans; [apply nminus|]. pose proof (Bf v). pose proof (Bi v). lra.
Qed.

(** the common part of both methods: a step whose linear system has the operator 1 - h/2 Li *)
Lemma ros_core : forall (Lf Li : V -> V) (F Q q phiv b r : V) h lam t1 t2, linear Lf -> linear Li -> 0 <= lam -> bounded Lf lam -> bounded Li lam -> 0 < h -> h * lam <= / 2 ->
  b = plus (minus Q (scal (h / 2) (Li Q))) (scal h phiv) -> r = minus b (minus q (scal (h / 2) (Li q))) -> norm r <= t2 ->
  norm (minus phiv (plus F (scal (h / 2) (minus (Lf F) (Li F))))) <= t1 ->
  norm (minus q (plus (plus Q (scal h F)) (scal (h ^ 2 / 2) (Lf F)))) <= lam ^ 2 * norm F / 2 * h ^ 3 + 2 * h * t1 + 2 * t2.
Proof.
  intros Lf Li F Q q phiv b r h lam t1 t2 HLf HLi Hl Bf Bi Hh Hhl Eb Er Nr Np. pose proof HLi as [Ia Is].
  set (p := minus phiv _) in Np.
  set (e := minus q (plus (plus Q (scal h F)) (scal (h ^ 2 / 2) (Lf F)))).
  match goal with |- norm _ <= ?B => change (norm e <= B) end.
  assert (Eq : minus q Q = plus e (plus (scal h F) (scal (h ^ 2 / 2) (Lf F)))) by (unfold e; set (LF := Lf F); vec).
  assert (EL : Li (minus q Q) = plus (Li e) (plus (scal h (Li F)) (scal (h ^ 2 / 2) (Li (Lf F))))) by (rewrite Eq, !Ia, !Is; reflexivity).
  assert (EL' : Li (minus q Q) = minus (Li q) (Li Q)) by (apply (lin_minus Li q Q HLi)).
  assert (X : minus e (scal (h / 2) (Li e)) = minus (plus (scal h p) (scal (h ^ 3 / 4) (Li (Lf F)))) r).
  { assert (Eq' : q = plus Q (plus e (plus (scal h F) (scal (h ^ 2 / 2) (Lf F))))) by (unfold e; set (LF := Lf F); vec).
    assert (Eli : Li q = plus (Li Q) (plus (Li e) (plus (scal h (Li F)) (scal (h ^ 2 / 2) (Li (Lf F)))))).
    { rewrite <- EL, EL'. set (u := Li q). set (v := Li Q). vec. }
    assert (Er' : r = minus (plus (minus Q (scal (h / 2) (Li Q))) (scal h phiv)) (minus (plus Q (plus e (plus (scal h F) (scal (h ^ 2 / 2) (Lf F)))))
        (scal (h / 2) (plus (Li Q) (plus (Li e) (plus (scal h (Li F)) (scal (h ^ 2 / 2) (Li (Lf F))))))))) by (rewrite Er, Eb, <- Eli, <- Eq'; reflexivity).
    rewrite Er'. unfold p. clearbody e. set (a1 := Li e). set (a2 := Li Q). set (a3 := Li F). set (a4 := Lf F). set (a5 := Li a4). vec. }
  assert (Hk : Rabs (h / 2) * lam <= / 2) by (rewrite Rabs_pos_eq by lra; lra).
  pose proof (absorb Li lam (h / 2) e _ Bi Hk X) as G. eapply Rle_trans; [exact G|].
  pose proof (nminus (plus (scal h p) (scal (h ^ 3 / 4) (Li (Lf F)))) r) as N1. pose proof (nplus (scal h p) (scal (h ^ 3 / 4) (Li (Lf F)))) as N2.
  pose proof (nscal h p) as N3. pose proof (nscal (h ^ 3 / 4) (Li (Lf F))) as N4. assert (P3 : 0 < h ^ 3) by (apply pow_lt; auto). rewrite Rabs_pos_eq in N3, N4 by lra.
  assert (B : norm (Li (Lf F)) <= lam ^ 2 * norm F).
  { eapply Rle_trans; [apply Bi|]. cbn. rewrite Rmult_1_r, Rmult_assoc. apply Rmult_le_compat_l; auto. }
  assert (N5 : h ^ 3 / 4 * norm (Li (Lf F)) <= h ^ 3 / 4 * (lam ^ 2 * norm F)) by (apply Rmult_le_compat_l; [lra|exact B]).
  assert (N6 : h * norm p <= h * t1) by (apply Rmult_le_compat_l; lra). inst. lra.
Qed.

Lemma rosexp2_order : forall pmex linear_solve (ff fi Lf Li : V -> V) ffC fiC Q h lam t1 t2,
  affine ff Lf -> affine fi Li -> complexified ff Lf ffC -> complexified fi Li fiC -> 0 <= lam -> bounded Lf lam -> bounded Li lam -> 0 < h -> h * lam <= / 2 ->
  (exists w, phi 1 (J_exp (V := W) ffC fiC Q h) (ff Q) w /\ norm (minus (rosexp2_phiv (V := W) pmex ff ffC fiC Q h) w) <= t1) ->
  let q := rosexp2 (V := W) pmex linear_solve ff fi ffC fiC Q h in
  norm (minus (rosexp2_b (V := W) pmex ff fi ffC fiC Q h) (matvec_rat (V := W) q h Q (fi Q) fi)) <= t2 ->
  norm (minus q (taylor 2 ff Lf Q h)) <= 17 / 2 * lam ^ 2 * norm (ff Q) * h ^ 3 + 2 * h * t1 + 2 * t2.
Proof.
  intros pmex ls ff fi Lf Li ffC fiC Q h lam t1 t2 Af Ai Cf Ci Hl Bf Bi Hh Hhl (w & Hw & Nw) q Nr. rewrite taylor2.
  pose proof Af as [HLf _]. pose proof Ai as [HLi _].
  set (phiv := rosexp2_phiv (V := W) pmex ff ffC fiC Q h) in *. set (F := ff Q) in *.
  assert (Eb : rosexp2_b (V := W) pmex ff fi ffC fiC Q h = plus (minus Q (scal (h / 2) (Li Q))) (scal h phiv)).
  { unfold rosexp2_b. rewrite (rat_affine fi Li Q Q h Ai). reflexivity. }
  rewrite (rat_affine fi Li q Q h Ai) in Nr.
  assert (Hmu : 0 <= h * (2 * lam) <= 1) by (split; [apply Rmult_le_pos; lra|lra]).
  pose proof (phi_bound 1 (J_exp (V := W) ffC fiC Q h) (h * (2 * lam)) F w Hmu (J_exp_bounded ff fi Lf Li ffC fiC Q h lam HLf HLi Cf Ci ltac:(lra) Bf Bi) Hw) as PB.
  rewrite (J_exp_lin ff fi Lf Li ffC fiC Q h F HLf HLi Cf Ci) in PB.
  assert (Np : norm (minus phiv (plus F (scal (h / 2) (minus (Lf F) (Li F))))) <= t1 + (h * (2 * lam)) ^ 2 * norm F).
  { eapply Rle_trans; [|apply Rplus_le_compat; [exact Nw|exact PB]].
    eapply Rle_trans; [|apply nplus]. right. f_equal. clearbody phiv. set (a := Lf F). set (b := Li F).
    replace (/ INR (fact 1)) with 1 by (cbn; field). replace (/ INR (fact 2)) with (/ 2) by (cbn; f_equal; ring). vec. }
  pose proof (ros_core Lf Li F Q q phiv _ _ h lam _ t2 HLf HLi Hl Bf Bi Hh Hhl Eb eq_refl Nr Np) as G.
  eapply Rle_trans; [exact G|]. right. field.
Qed.

Lemma partrosexp2_order : forall pmex linear_solve (ff fi Lf Li : V -> V) ffC fiC Q h lam t1 t2,
  affine ff Lf -> affine fi Li -> complexified ff Lf ffC -> complexified fi Li fiC -> 0 <= lam -> bounded Lf lam -> bounded Li lam -> 0 < h -> h * lam <= / 2 ->
  (exists w0 w1, phi 0 (J_exp (V := W) ffC fiC Q h) (scal (1 / 2) (fi Q)) w0 /\ phi 1 (J_exp (V := W) ffC fiC Q h) (minus (ff Q) (fi Q)) w1 /\
     norm (minus (partrosexp2_phiv (V := W) pmex ff fi ffC fiC Q h) (plus w0 w1)) <= t1) ->
  let q := partrosexp2 (V := W) pmex linear_solve ff fi ffC fiC Q h in
  norm (minus (partrosexp2_b (V := W) pmex ff fi ffC fiC Q h) (partrosexp2_A (V := W) fiC Q h q)) <= t2 ->
  norm (minus q (taylor 2 ff Lf Q h)) <=
    lam ^ 2 * (norm (ff Q) / 2 + 4 * norm (fi Q) + 8 * norm (minus (ff Q) (fi Q))) * h ^ 3 + 2 * h * t1 + 2 * t2.
Proof.
  intros pmex ls ff fi Lf Li ffC fiC Q h lam t1 t2 Af Ai Cf Ci Hl Bf Bi Hh Hhl (w0 & w1 & Hw0 & Hw1 & Nw) q Nr. rewrite taylor2.
  pose proof Af as [HLf _]. pose proof Ai as [HLi _]. pose proof HLf as [Fa Fs]. pose proof HLi as [Ia Is].
  set (phiv := partrosexp2_phiv (V := W) pmex ff fi ffC fiC Q h) in *. set (F := ff Q) in *. set (G := fi Q) in *.
  set (pv := plus phiv (scal (1 / 2) G)).
  assert (EA : forall v, partrosexp2_A (V := W) fiC Q h v = minus v (scal (h / 2) (Li v))).
  { intros v. unfold partrosexp2_A. rewrite (complex_affine fi Li fiC v Q h HLi Ci). set (a := Li v). vec. }
  assert (Eb : partrosexp2_b (V := W) pmex ff fi ffC fiC Q h = plus (minus Q (scal (h / 2) (Li Q))) (scal h pv)).
  { unfold partrosexp2_b. rewrite EA. reflexivity. }
  rewrite EA in Nr.
  assert (Hmu : 0 <= h * (2 * lam) <= 1) by (split; [apply Rmult_le_pos; lra|lra]).
  pose proof (J_exp_bounded ff fi Lf Li ffC fiC Q h lam HLf HLi Cf Ci ltac:(lra) Bf Bi) as BJ.
  pose proof (phi_bound 0 _ (h * (2 * lam)) _ w0 Hmu BJ Hw0) as PB0. pose proof (phi_bound 1 _ (h * (2 * lam)) _ w1 Hmu BJ Hw1) as PB1.
  rewrite (J_exp_lin ff fi Lf Li ffC fiC Q h _ HLf HLi Cf Ci) in PB0. rewrite (J_exp_lin ff fi Lf Li ffC fiC Q h _ HLf HLi Cf Ci) in PB1.
  assert (Np : norm (minus pv (plus F (scal (h / 2) (minus (Lf F) (Li F))))) <= t1 + ((h * (2 * lam)) ^ 2 * (1 / 2 * norm G) + (h * (2 * lam)) ^ 2 * norm (minus F G))).
  { assert (PB0' : norm (minus w0 (plus (scal (/ INR (fact 0)) (scal (1 / 2) G)) (scal (/ INR (fact 1)) (scal h (minus (Lf (scal (1 / 2) G)) (Li (scal (1 / 2) G))))))) <= (h * (2 * lam)) ^ 2 * (1 / 2 * norm G)).
    { eapply Rle_trans; [exact PB0|]. apply Rmult_le_compat_l; [apply pow_le; lra|]. eapply Rle_trans; [apply nscal|]. rewrite Rabs_pos_eq by lra. lra. }
    eapply Rle_trans; [|apply Rplus_le_compat; [exact Nw|apply Rplus_le_compat; [exact PB0'|exact PB1]]].
    eapply Rle_trans; [|apply Rplus_le_compat_l; apply nplus]. eapply Rle_trans; [|apply nplus]. right. f_equal. unfold pv. clearbody phiv.
    rewrite (Fs (1 / 2)), (Is (1 / 2)), (lin_minus Lf F G HLf), (lin_minus Li F G HLi). set (a := Lf F). set (b := Li F). set (c := Lf G). set (d := Li G).
    replace (/ INR (fact 0)) with 1 by (cbn; field). replace (/ INR (fact 1)) with 1 by (cbn; field). replace (/ INR (fact 2)) with (/ 2) by (cbn; f_equal; ring). vec. }
  pose proof (ros_core Lf Li F Q q pv _ _ h lam _ t2 HLf HLi Hl Bf Bi Hh Hhl Eb eq_refl Nr Np) as GG.
  eapply Rle_trans; [exact GG|]. right. inst. field.
Qed.
Lemma partrosexp2_exp : forall pmex linear_solve (ff fi Lf Li : V -> V) ffC fiC Q h lam t1 t2,
  affine ff Lf -> affine fi Li -> complexified ff Lf ffC -> complexified fi Li fiC -> 0 <= lam -> bounded Lf lam -> bounded Li lam -> 0 < h -> h * lam <= / 2 ->
  exponential pmex (fun v => scal h (minus (Lf v) (Li v))) t1 ->
  let q := partrosexp2 (V := W) pmex linear_solve ff fi ffC fiC Q h in
  norm (minus (partrosexp2_b (V := W) pmex ff fi ffC fiC Q h) (partrosexp2_A (V := W) fiC Q h q)) <= t2 ->
  norm (minus q (taylor 2 ff Lf Q h)) <=
    lam ^ 2 * (norm (ff Q) / 2 + 4 * norm (fi Q) + 8 * norm (minus (ff Q) (fi Q))) * h ^ 3 + 2 * h * t1 + 2 * t2.
Proof.
  intros pmex ls ff fi Lf Li ffC fiC Q h lam t1 t2 Af Ai Cf Ci Hl Bf Bi Hh Hhl Hex. apply partrosexp2_order with (Li := Li); auto.
  apply Hex. intros v. apply J_exp_lin with (ff := ff) (fi := fi); auto; [apply Af|apply Ai].
Qed.
Lemma rosexp2_exp : forall pmex linear_solve (ff fi Lf Li : V -> V) ffC fiC Q h lam t1 t2,
  affine ff Lf -> affine fi Li -> complexified ff Lf ffC -> complexified fi Li fiC -> 0 <= lam -> bounded Lf lam -> bounded Li lam -> 0 < h -> h * lam <= / 2 ->
  exponential pmex (fun v => scal h (minus (Lf v) (Li v))) t1 ->
  let q := rosexp2 (V := W) pmex linear_solve ff fi ffC fiC Q h in
  norm (minus (rosexp2_b (V := W) pmex ff fi ffC fiC Q h) (matvec_rat (V := W) q h Q (fi Q) fi)) <= t2 ->
  norm (minus q (taylor 2 ff Lf Q h)) <= 17 / 2 * lam ^ 2 * norm (ff Q) * h ^ 3 + 2 * h * t1 + 2 * t2.
Proof.
  intros pmex ls ff fi Lf Li ffC fiC Q h lam t1 t2 Af Ai Cf Ci Hl Bf Bi Hh Hhl Hex. apply rosexp2_order with (Li := Li); auto.
  assert (EJ : forall v, J_exp (V := W) ffC fiC Q h v = scal h (minus (Lf v) (Li v))) by (intros v; apply J_exp_lin with (ff := ff) (fi := fi); auto; [apply Af|apply Ai]).
  destruct (Hex (J_exp (V := W) ffC fiC Q h) zero (ff Q) EJ) as (w0 & w1 & H0 & H1 & N).
  exists w1. split; auto. assert (E : w0 = zero).
  { assert (Z : forall j, power (J_exp (V := W) ffC fiC Q h) j (zero : V) = zero).
    { induction j as [|j IH]; [reflexivity|]. cbn [power]. rewrite IH, EJ. destruct Af as [HF _]. destruct Ai as [HI _].
      assert (Lf zero = zero) as -> by (rewrite <- (@scal_zero_l R_AbsRing V zero) at 1; rewrite (proj2 HF); apply (@scal_zero_l R_AbsRing V)).
      assert (Li zero = zero) as -> by (rewrite <- (@scal_zero_l R_AbsRing V zero) at 1; rewrite (proj2 HI); apply (@scal_zero_l R_AbsRing V)).
      rewrite minus_eq_zero. apply (@scal_zero_r R_AbsRing V). }
    unfold phi in H0. unfold is_series in H0.
    apply (filterlim_locally_unique (F := Hierarchy.eventually) (sum_n (fun j => scal (/ INR (fact (j + 0))) (power (J_exp (V := W) ffC fiC Q h) j (zero : V))))); [exact H0|].
    eapply filterlim_ext; [|apply filterlim_const]. intros n. symmetry. induction n as [|n IH].
    - rewrite sum_O, Z. apply (@scal_zero_r R_AbsRing V).
    - rewrite sum_Sn, IH, Z, (@scal_zero_r R_AbsRing V). apply plus_zero_l. }
  rewrite E, plus_zero_l in N. exact N.
Qed.

Lemma J_exp_same : forall (fC : V * V -> V * V) Q h v, J_exp (V := W) fC fC Q h v = zero.
Proof. intros. unfold J_exp. apply minus_eq_zero. Qed.
Lemma rosexp2_same : forall pmex linear_solve (f : V -> V) fC Q h, (forall J x, (forall v, J v = zero) -> pmex J zero x = x) ->
  rosexp2 (V := W) pmex linear_solve f f fC fC Q h = ros2 (V := W) linear_solve f Q h.
Proof.
  intros pmex ls f fC Q h HP. unfold rosexp2, ros2, rosexp2_b, ros2_b, rosexp2_phiv, ros2_A. rewrite HP; [reflexivity|]. intros v. apply J_exp_same.
Qed.

(** BDF2 for a constant right-hand side *)
Lemma bdf2_start_const : forall newton c, solves_const newton c -> forall k d Q, d <> 0 ->
  bdf2_start (V := W) newton (fun _ => c) d k Q = plus Q (scal (INR k * d / 2) c).
Proof.
  intros newton c [_ H]. induction k as [|k IH]; intros d Q Hd; cbn [bdf2_start].
  - replace (INR 0 * d / 2) with 0 by (cbn; field). vec.
  - rewrite IH by auto. pose proof (H Q d Hd) as E. cbv zeta in E. set (q := newton _ Q) in *. unfold bdf2_start_fun in E.
    assert (Eq : q = plus Q (scal (d / 2) c)).
    { transitivity (plus (scal d (minus (scal (/ d) (minus q Q)) (scal (1 / 2) c))) (plus Q (scal (d / 2) c))).
      - clearbody q. vec_with ltac:(try reflexivity; try ring; try (field; auto)).
      - inst. rewrite E. vec. }
    rewrite Eq. rewrite S_INR. vec.
Qed.
Lemma bdf2_step_const : forall newton c, solves_const newton c -> forall n Q P h, h <> 0 ->
  bdf2 (V := W) newton (fun _ => c) n (Some P) Q h = (Some Q, plus (minus (scal (4 / 3) Q) (scal (1 / 3) P)) (scal (2 / 3 * h) c)).
Proof.
  intros newton c [H _] n Q P h Hh. unfold bdf2. f_equal. pose proof (H Q P h Hh) as E. cbv zeta in E. set (q := newton _ Q) in *. unfold bdf2_fun in E.
  transitivity (plus (scal h (minus (scal (/ h) (plus (minus q (scal (4 / 3) Q)) (scal (1 / 3) P))) (scal (2 / 3) c))) (plus (minus (scal (4 / 3) Q) (scal (1 / 3) P)) (scal (2 / 3 * h) c))).
  - clearbody q. vec_with ltac:(try reflexivity; try ring; try (field; auto)).
  - inst. rewrite E. vec.
Qed.
Definition lagged (m : nat) : R := INR m - 3 / 4 * (1 - (1 / 3) ^ m).
Lemma lagged_rec : forall m, lagged (S (S m)) = 4 / 3 * lagged (S m) - 1 / 3 * lagged m + 2 / 3.
Proof. intros m. unfold lagged. rewrite !S_INR. cbn [pow]. field. Qed.
Lemma bdf2_iter_const : forall newton c, solves_const newton c -> forall k Q0 h, h <> 0 -> forall n m,
  snd (iterate (bdf2 (V := W) newton (fun _ => c) k) n (Some (plus Q0 (scal (lagged m * h) c))) (plus Q0 (scal (lagged (S m) * h) c)) h) =
    plus Q0 (scal (lagged (n + S m) * h) c).
Proof.
  intros newton c H k Q0 h Hh. induction n as [|n IH]; intros m; cbn [iterate]; [reflexivity|].
  rewrite (bdf2_step_const newton c H) by auto.
  assert (E : plus (minus (scal (4 / 3) (plus Q0 (scal (lagged (S m) * h) c))) (scal (1 / 3) (plus Q0 (scal (lagged m * h) c)))) (scal (2 / 3 * h) c) = plus Q0 (scal (lagged (S (S m)) * h) c)).
  { rewrite lagged_rec. vec. }
  inst. rewrite E. specialize (IH (S m)). etransitivity; [exact IH|]. do 4 f_equal. lia.
Qed.
Lemma bdf2_const : forall newton c, solves_const newton c -> forall k Q0 h n, (1 <= k)%nat -> h <> 0 ->
  snd (iterate (bdf2 (V := W) newton (fun _ => c) k) n None Q0 h) = plus Q0 (scal ((INR n - 3 / 4 * (1 - (1 / 3) ^ n)) * h) c).
Proof.
  intros newton c H k Q0 h n Hk Hh. assert (PK : 0 < INR k) by (apply lt_0_INR; lia). destruct n as [|n].
  - cbn [iterate snd]. replace ((INR 0 - 3 / 4 * (1 - (1 / 3) ^ 0)) * h) with 0 by (cbn; ring). vec.
  - cbn [iterate]. unfold bdf2 at 1. rewrite (bdf2_start_const newton c H) by (apply Rmult_integral_contrapositive_currified; [auto|apply Rinv_neq_0_compat; lra]).
    replace (INR k * (h / INR k) / 2) with (lagged 1 * h) by (unfold lagged; cbn; field; lra).
    pose proof (bdf2_iter_const newton c H k Q0 h Hh n 0) as G.
    replace (plus Q0 (scal (lagged 0 * h) c)) with Q0 in G by (replace (lagged 0 * h) with 0 by (unfold lagged; cbn; ring); vec).
    replace (n + 1)%nat with (S n) in G by lia. exact G.
Qed.
End Phi.
