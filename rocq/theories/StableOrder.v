From Coq Require Import Reals Lra Psatz.
From Coquelicot Require Import Coquelicot.
From Verif Require Import StepModel StepSpec VecTac StepProofs StepOrder StableModel.
Local Open Scope R_scope.

Lemma sdirk_bounds : 17 / 10 <= sdirk_param <= 171 / 100 /\ 2 * (sdirk_param * sdirk_param) = 4 * sdirk_param - 1.
Proof.
  unfold sdirk_param. assert (S : sqrt 2 * sqrt 2 = 2) by (apply sqrt_sqrt; lra). assert (P : 0 < sqrt 2) by (apply sqrt_lt_R0; lra).
  assert (E : 1 / sqrt 2 = sqrt 2 / 2) by (apply (Rmult_eq_reg_r (sqrt 2)); [field_simplify; [lra|lra..]|lra]). rewrite E. split; [split; nra|]. nra.
Qed.

Section Order.
Context {V : NormedModule R_AbsRing}.
Notation W := (NormedModule.ModuleSpace R_AbsRing V).
Ltac inst := change (@plus (NormedModule.AbelianGroup R_AbsRing V)) with (@plus (ModuleSpace.AbelianGroup R_Ring W)) in *;
  change (@minus (NormedModule.AbelianGroup R_AbsRing V)) with (@minus (ModuleSpace.AbelianGroup R_Ring W)) in *.
Lemma nscal_le (a c : R) (x : V) b : Rabs a <= c -> norm x <= b -> norm (scal a x) <= c * b.
Proof. intros Ha Hx. eapply Rle_trans; [apply nscal|]. apply Rmult_le_compat; trivial; [apply Rabs_pos|apply npos]. Qed.
Lemma nplus_le (x y : V) a b : norm x <= a -> norm y <= b -> norm (plus x y) <= a + b.
Proof. intros Hx Hy. eapply Rle_trans; [apply nplus|]. lra. Qed.
Lemma sdirk_order : forall newton (f L : V -> V) Q h lam tol, affine f L -> 0 <= lam -> bounded L lam -> 0 < h -> h * lam <= / 4 ->
  let q1 := newton (sdirk_fun1 (V := W) f Q h) Q in let q2 := newton (sdirk_fun2 (V := W) f Q q1 h) Q in
  small (sdirk_fun1 (V := W) f Q h) q1 tol -> small (sdirk_fun2 (V := W) f Q q1 h) q2 tol ->
  norm (minus (sdirk (V := W) newton f Q h) (taylor 2 f L Q h)) <= 13 * lam ^ 2 * norm (f Q) * h ^ 3 + 3 * lam * h ^ 2 * tol.
Proof.
  intros newton f L Q h lam tol HA Hl HB Hh Hhl q1 q2 H1 H2. unfold small in *. pose proof HA as [[La Ls] _]. rewrite taylor2.
  destruct sdirk_bounds as [[G1 G2] G3]. unfold sdirk. fold q1 q2. set (g := sdirk_param) in *.
  set (F := f Q) in *. set (r1 := sdirk_fun1 (V := W) f Q h q1) in *. set (r2 := sdirk_fun2 (V := W) f Q q1 h q2) in *. set (a := f q1) in *. set (b := f q2) in *.
  assert (D1 : minus q1 Q = plus (scal (h * g) a) (scal h r1)) by (unfold r1, sdirk_fun1; fold a; fold g; clearbody a; vec).
  assert (D2 : minus q2 Q = plus (scal (h * (1 - 2 * g)) a) (plus (scal (h * g) b) (scal h r2))) by (unfold r2, sdirk_fun2; fold a; fold b; fold g; clearbody a b; vec).
  assert (Ea : a = plus F (plus (scal (h * g) (L a)) (scal h (L r1)))) by (unfold a at 1; etransitivity; [apply (aff_diff f L q1 Q HA)|]; f_equal; etransitivity; [apply f_equal; exact D1|]; rewrite La, !Ls; reflexivity).
  assert (Eb : b = plus F (plus (scal (h * (1 - 2 * g)) (L a)) (plus (scal (h * g) (L b)) (scal h (L r2))))) by (unfold b at 1; etransitivity; [apply (aff_diff f L q2 Q HA)|]; f_equal; etransitivity; [apply f_equal; exact D2|]; rewrite !La, !Ls; reflexivity).
  clearbody r1 r2 a b.
  assert (EA : L a = plus (L F) (plus (scal (h * g) (L (L a))) (scal h (L (L r1))))) by (rewrite Ea at 1; rewrite !La, !Ls; reflexivity).
  assert (EB : L b = plus (L F) (plus (scal (h * (1 - 2 * g)) (L (L a))) (plus (scal (h * g) (L (L b))) (scal h (L (L r2)))))) by (rewrite Eb at 1; rewrite !La, !Ls; reflexivity).
  pose proof (npos F) as PF. pose proof (npos r1) as Pr1. assert (Pt : 0 <= tol) by lra.
  assert (Hhl0 : 0 <= h * lam) by (apply Rmult_le_pos; lra).
  assert (NR : forall r : V, norm r <= tol -> norm (scal h (L r)) <= h * (lam * tol)).
  { intros r Hr. apply nscal_le; [rewrite Rabs_pos_eq; lra|]. eapply Rle_trans; [apply HB|]. now apply Rmult_le_compat_l. }
  assert (Hk : Rabs (h * g) * lam <= / 2) by (rewrite Rabs_pos_eq by (apply Rmult_le_pos; lra); nra).
  assert (Na : norm a <= 2 * norm F + 2 * (h * lam) * tol).
  { assert (X : minus a (scal (h * g) (L a)) = plus F (scal h (L r1))) by (rewrite Ea at 1; set (LA := L a); set (LR := L r1); vec).
    pose proof (absorb L lam (h * g) a _ HB Hk X) as G. pose proof (nplus_le F (scal h (L r1)) _ _ (Rle_refl _) (NR r1 H1)). lra. }
  assert (Nb : norm b <= 2 * norm F + 5 * (h * lam) * norm a + 2 * (h * lam) * tol).
  { assert (X : minus b (scal (h * g) (L b)) = plus F (plus (scal (h * (1 - 2 * g)) (L a)) (scal h (L r2)))) by (rewrite Eb at 1; set (LA := L a); set (LB := L b); set (LR := L r2); vec).
    pose proof (absorb L lam (h * g) b _ HB Hk X) as G.
    assert (N1 : norm (scal (h * (1 - 2 * g)) (L a)) <= (h * (5 / 2)) * (lam * norm a)). { apply nscal_le; [|apply HB]. rewrite Rabs_mult, (Rabs_pos_eq h), Rabs_left1 by lra. apply Rmult_le_compat_l; lra. }
    eapply Rle_trans; [exact G|]. eapply Rle_trans; [apply Rmult_le_compat_l; [lra|exact (nplus_le F _ _ _ (Rle_refl _) (nplus_le _ _ _ _ N1 (NR r2 H2)))]|]. lra. }
  match goal with |- norm ?e <= _ => assert (E : e = plus (scal (h ^ 3 / 2 * (2 * g - 3 * (g * g))) (L (L a))) (plus (scal (h ^ 3 / 2 * (g * g)) (L (L b)))
     (plus (scal (h ^ 3 / 2 * (1 - g)) (L (L r1))) (plus (scal (h ^ 3 / 2 * g) (L (L r2))) (plus (scal (h / 2) (scal h (L r1))) (scal (h / 2) (scal h (L r2)))))))) end.
  { set (LLa := L (L a)) in *. set (LLb := L (L b)) in *. set (LLr1 := L (L r1)) in *. set (LLr2 := L (L r2)) in *. set (LF := L F) in *. set (Lr1 := L r1) in *. set (Lr2 := L r2) in *.
    set (LA := L a) in *. set (LB := L b) in *. rewrite Eb, Ea, EB, EA. clearbody LLa LLb LLr1 LLr2 LF Lr1 Lr2 F. clear. vec. }
  rewrite E. clear E. assert (P3 : 0 < h ^ 3) by (apply pow_lt; lra).
  assert (Q1 : norm (scal (h ^ 3 / 2 * (2 * g - 3 * (g * g))) (L (L a))) <= (h ^ 3 / 2 * (54 / 10)) * (lam ^ 2 * norm a)).
  { apply nscal_le; [|now apply bnd2]. rewrite Rabs_mult, Rabs_pos_eq by lra. apply Rmult_le_compat_l; [lra|]. rewrite Rabs_left1; nra. }
  assert (Q2 : norm (scal (h ^ 3 / 2 * (g * g)) (L (L b))) <= (h ^ 3 / 2 * 3) * (lam ^ 2 * norm b)).
  { apply nscal_le; [|now apply bnd2]. rewrite Rabs_mult, Rabs_pos_eq by lra. apply Rmult_le_compat_l; [lra|]. rewrite Rabs_pos_eq; nra. }
  assert (B2 : forall r : V, norm r <= tol -> norm (L (L r)) <= lam ^ 2 * tol). { intros r Hr. eapply Rle_trans; [exact (bnd2 L lam r Hl HB)|]. apply Rmult_le_compat_l; trivial. apply pow2_ge_0. }
  assert (Q3 : norm (scal (h ^ 3 / 2 * (1 - g)) (L (L r1))) <= (h ^ 3 / 2 * 1) * (lam ^ 2 * tol)).
  { apply nscal_le; [|now apply B2]. rewrite Rabs_mult, Rabs_pos_eq by lra. apply Rmult_le_compat_l; [lra|]. rewrite Rabs_left1; lra. }
  assert (Q4 : norm (scal (h ^ 3 / 2 * g) (L (L r2))) <= (h ^ 3 / 2 * 2) * (lam ^ 2 * tol)).
  { apply nscal_le; [|now apply B2]. rewrite Rabs_mult, Rabs_pos_eq by lra. apply Rmult_le_compat_l; [lra|]. rewrite Rabs_pos_eq; lra. }
  assert (Q5 : forall r : V, norm r <= tol -> norm (scal (h / 2) (scal h (L r))) <= (h / 2) * (h * (lam * tol))). { intros r Hr. apply nscal_le; [rewrite Rabs_pos_eq; lra|now apply NR]. }
  pose proof (nplus_le _ _ _ _ Q1 (nplus_le _ _ _ _ Q2 (nplus_le _ _ _ _ Q3 (nplus_le _ _ _ _ Q4 (nplus_le _ _ _ _ (Q5 r1 H1) (Q5 r2 H2)))))) as N. eapply Rle_trans; [exact N|]. clear N Q1 Q2 Q3 Q4 Q5.
  set (na := norm a) in *. set (nb := norm b) in *. set (nF := norm F) in *.
  assert (Na' : na <= 2 * nF + / 2 * tol) by nra. assert (Nb' : nb <= 9 / 2 * nF + 9 / 8 * tol). { pose proof (npos a) as Pa. fold na in Pa. nra. }
  clear - Na' Nb' Hh Hl Pt Hhl Hhl0 PF P3. replace (h ^ 3 / 2 * (54 / 10) * (lam ^ 2 * na)) with (h * (h * lam) ^ 2 * (27 / 10) * na) by field. replace (h ^ 3 / 2 * 3 * (lam ^ 2 * nb)) with (h * (h * lam) ^ 2 * (3 / 2) * nb) by field.
  replace (13 * lam ^ 2 * nF * h ^ 3) with (h * (h * lam) ^ 2 * 13 * nF) by ring. replace (h ^ 3 / 2 * 1 * (lam ^ 2 * tol) + (h ^ 3 / 2 * 2 * (lam ^ 2 * tol) + (h / 2 * (h * (lam * tol)) + h / 2 * (h * (lam * tol))))) with (h * (h * lam) ^ 2 * (3 / 2) * tol + h * (h * lam) * tol) by field.
  replace (3 * lam * h ^ 2 * tol) with (h * (h * lam) * (3 * tol)) by ring. set (k := h * lam) in *.
  assert (M : 0 <= h * k ^ 2) by (apply Rmult_le_pos; [lra|apply pow2_ge_0]).
  assert (M1 : h * k ^ 2 * (27 / 10) * na <= h * k ^ 2 * (27 / 10) * (2 * nF + / 2 * tol)) by (apply Rmult_le_compat_l; lra).
  assert (M2 : h * k ^ 2 * (3 / 2) * nb <= h * k ^ 2 * (3 / 2) * (9 / 2 * nF + 9 / 8 * tol)) by (apply Rmult_le_compat_l; lra).
  assert (M3 : h * k ^ 2 * tol <= / 4 * (h * k * tol)). { replace (h * k ^ 2 * tol) with (k * (h * k * tol)) by ring. apply Rmult_le_compat_r; trivial. apply Rmult_le_pos; trivial. apply Rmult_le_pos; lra. }
  assert (M4 : 0 <= h * k ^ 2 * nF) by (apply Rmult_le_pos; trivial). assert (M5 : 0 <= h * k * tol) by (apply Rmult_le_pos; trivial; apply Rmult_le_pos; lra). lra.
Qed.
End Order.
Lemma sdirk_order_case : affine (V := R_NormedModule) Ropp Ropp /\ bounded (V := R_NormedModule) Ropp 1 /\ forall Q : R, let newton g q := q - g q / (4 + sdirk_param) in
  let q1 := newton (sdirk_fun1 (V := NormedModule.ModuleSpace R_AbsRing R_NormedModule) Ropp Q (/ 4)) Q in
  small (sdirk_fun1 (V := NormedModule.ModuleSpace R_AbsRing R_NormedModule) Ropp Q (/ 4)) q1 0
  /\ small (sdirk_fun2 (V := NormedModule.ModuleSpace R_AbsRing R_NormedModule) Ropp Q q1 (/ 4)) (newton (sdirk_fun2 (V := NormedModule.ModuleSpace R_AbsRing R_NormedModule) Ropp Q q1 (/ 4)) Q) 0.
Proof.
  split; [split; [split|]|split].
  - intros x y. change (- (x + y) = - x + - y). ring.
  - intros a x. change (- (a * x) = a * - x). ring.
  - exists 0. intro x. change (- x = - x + 0). ring.
  - intro x. change (Rabs (- x) <= 1 * Rabs x). rewrite Rabs_Ropp. lra.
  - intros Q newton q1. destruct sdirk_bounds as [[G _] _].
    assert (Z : forall x : R, x = 0 -> norm (V := R_NormedModule) x <= 0) by (intros x ->; change (Rabs 0 <= 0); rewrite Rabs_R0; lra).
    split; apply Z; unfold newton.
    + unfold q1, newton. change (/ / 4 * (Q - (/ / 4 * (Q + - Q) + - (sdirk_param * - Q)) / (4 + sdirk_param) + - Q) + - (sdirk_param * - (Q - (/ / 4 * (Q + - Q) + - (sdirk_param * - Q)) / (4 + sdirk_param))) = 0). field. lra.
    + generalize q1. intro q. change (/ / 4 * (Q - (/ / 4 * (Q + - Q) + - ((1 - 2 * sdirk_param) * - q) + - (sdirk_param * - Q)) / (4 + sdirk_param) + - Q) + - ((1 - 2 * sdirk_param) * - q)
        + - (sdirk_param * - (Q - (/ / 4 * (Q + - Q) + - ((1 - 2 * sdirk_param) * - q) + - (sdirk_param * - Q)) / (4 + sdirk_param))) = 0). field. lra.
Qed.
