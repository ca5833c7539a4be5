From Coq Require Import Reals List Lra Lia FunctionalExtensionality Psatz.
From Coquelicot Require Import Hierarchy Series Derive Complex Rcomplements Rbar Lim_seq.
From Verif Require Import StepModel StepSpec VecTac RkSpec StepProofs.
Import ListNotations.
Local Open Scope R_scope.

Section Order.
Context {V : NormedModule R_AbsRing}.
Notation W := (NormedModule.ModuleSpace R_AbsRing V).

Ltac inst := change (@plus (NormedModule.AbelianGroup R_AbsRing V)) with (@plus (ModuleSpace.AbelianGroup R_Ring W)) in *;
  change (@minus (NormedModule.AbelianGroup R_AbsRing V)) with (@minus (ModuleSpace.AbelianGroup R_Ring W)) in *.
Lemma nplus : forall x y : V, norm (plus x y) <= norm x + norm y.
Proof. intros. apply (norm_triangle x y). Qed.
Lemma nscal : forall (a : R) (x : V), norm (scal a x) <= Rabs a * norm x.
Proof. intros. exact (norm_scal a x). Qed.
Lemma nopp : forall x : V, norm (opp x) = norm x.
Proof. intros. apply norm_opp. Qed.
Lemma nminus : forall x y : V, norm (minus x y) <= norm x + norm y.
Proof. intros. unfold minus. rewrite <- (nopp y). apply nplus. Qed.
Lemma npos : forall x : V, 0 <= norm x.
Proof. intros. apply norm_ge_0. Qed.
Lemma lin_minus : forall (L : V -> V) x y, linear L -> L (minus x y) = minus (L x) (L y).
Proof.
  intros L x y [La Ls]. unfold minus. rewrite La. f_equal.
  etransitivity; [apply f_equal; symmetry; exact (scal_opp_one (V := W) y)|]. etransitivity; [apply Ls|]. exact (scal_opp_one (V := W) (L y)).
Qed.
Lemma lin_zero : forall (L : V -> V), linear L -> L zero = zero.
Proof.
  intros L [La Ls]. etransitivity; [apply f_equal; symmetry; exact (scal_zero_l (V := W) zero)|]. etransitivity; [apply Ls|]. exact (scal_zero_l (V := W) (L zero)).
Qed.
Lemma aff_diff : forall (f L : V -> V) x y, affine f L -> f x = plus (f y) (L (minus x y)).
Proof.
  intros f L x y [HL [c Hc]]. rewrite !Hc, lin_minus by auto. set (a := L x). set (b := L y). vec.
Qed.
Lemma absorb : forall (L : V -> V) lam (k : R) (e x : V), bounded L lam -> Rabs k * lam <= / 2 -> minus e (scal k (L e)) = x -> norm e <= 2 * norm x.
Proof.
  intros L lam k e x HB Hk <-. pose proof (HB e) as Hb. pose proof (npos e).
  assert (E : e = plus (minus e (scal k (L e))) (scal k (L e))) by (set (y := L e); vec).
  assert (H1 : norm e <= norm (minus e (scal k (L e))) + norm (scal k (L e))) by (rewrite E at 1; apply nplus).
  pose proof (nscal k (L e)) as H2. assert (H3 : Rabs k * norm (L e) <= / 2 * norm e).
  { apply Rle_trans with (Rabs k * (lam * norm e)); [apply Rmult_le_compat_l; auto using Rabs_pos|]. rewrite <- Rmult_assoc. apply Rmult_le_compat_r; auto. }
  lra.
Qed.
Lemma bnd2 : forall (L : V -> V) lam x, 0 <= lam -> bounded L lam -> norm (L (L x)) <= lam ^ 2 * norm x.
Proof. intros L lam x Hl HB. eapply Rle_trans; [apply HB|]. pose proof (HB x). cbn. rewrite Rmult_1_r, Rmult_assoc. apply Rmult_le_compat_l; auto. Qed.

Lemma taylor1 : forall (f L : V -> V) Q h, taylor 1 f L Q h = plus Q (scal h (f Q)).
Proof. intros. cbn [taylor power]. replace (h ^ 1 / INR (fact 1)) with h by (cbn; field). reflexivity. Qed.
Lemma taylor2 : forall (f L : V -> V) Q h, taylor 2 f L Q h = plus (plus Q (scal h (f Q))) (scal (h ^ 2 / 2) (L (f Q))).
Proof. intros. rewrite <- (taylor1 f L). cbn [taylor power]. replace (h ^ 2 / INR (fact 2)) with (h ^ 2 / 2) by (cbn; field). reflexivity. Qed.
Lemma taylor3 : forall (f L : V -> V) Q h,
  taylor 3 f L Q h = plus (plus (plus Q (scal h (f Q))) (scal (h ^ 2 / 2) (L (f Q)))) (scal (h ^ 3 / 6) (L (L (f Q)))).
Proof. intros. rewrite <- (taylor2 f L). cbn [taylor power]. replace (h ^ 3 / INR (fact 3)) with (h ^ 3 / 6) by (cbn; field). reflexivity. Qed.

Lemma euler_taylor : forall (f L : V -> V) Q h, euler1 (V := W) f Q h = taylor 1 f L Q h.
Proof. intros. rewrite (taylor1 f L). reflexivity. Qed.

Lemma tvdrk3_taylor : forall (f L : V -> V) Q h, affine f L -> tvdrk3 (V := W) f Q h = taylor 3 f L Q h.
Proof.
  intros f L Q h HA. pose proof HA as [[La Ls] _]. rewrite taylor3. unfold tvdrk3.
  set (Q1 := plus Q (scal h (f Q))).
  assert (E1 : f Q1 = plus (f Q) (scal h (L (f Q)))).
  { rewrite (aff_diff f L Q1 Q HA). f_equal. rewrite <- Ls. f_equal. unfold Q1. set (F := f Q). vec. }
  rewrite E1. set (Q2 := plus (plus (scal (V := W) (3 / 4) Q) (scal (V := W) (1 / 4) Q1)) (scal (V := W) h (scal (V := W) (1 / 4) (plus (f Q) (scal h (L (f Q))))))).
  assert (E2 : f Q2 = plus (f Q) (plus (scal (h / 2) (L (f Q))) (scal (h ^ 2 / 4) (L (L (f Q)))))).
  { rewrite (aff_diff f L Q2 Q HA). f_equal. rewrite <- (Ls (h / 2)), <- (Ls (h ^ 2 / 4) (L (f Q))), <- La. f_equal. unfold Q2, Q1. set (F := f Q). set (LF := L F). vec. }
  match goal with |- context [f (plus (plus ?a ?b) ?c)] => change (f (plus (plus a b) c)) with (f Q2) end. rewrite E2. unfold Q2, Q1. set (F := f Q). set (LF := L F). set (LLF := L LF). vec.
Qed.

Lemma tvdrk3_rk : forall (f : V -> V) Q h t,
  rk_step (V := W) 3 (fun i j => match i, j with 1%nat, 0%nat => 1 | 2%nat, 0%nat => 1 / 4 | 2%nat, 1%nat => 1 / 4 | _, _ => 0 end)
    (fun j => match j with 0%nat => 1 / 6 | 1%nat => 1 / 6 | 2%nat => 2 / 3 | _ => 0 end) (fun i => match i with 1%nat => 1 | 2%nat => 1 / 2 | _ => 0 end)
    (fun _ => f) t h Q (f Q) (tvdrk3 (V := W) f Q h).
Proof.
  intros f Q h t. unfold rk_step.
  set (K0 := f Q). set (K1 := f (plus Q (scal h K0))).
  set (K2 := f (plus (plus (scal (V := W) (3 / 4) Q) (scal (V := W) (1 / 4) (plus Q (scal h K0)))) (scal (V := W) h (scal (V := W) (1 / 4) K1)))).
  exists (fun i => match i with 0 => K0 | 1 => K1 | _ => K2 end)%nat. split; [reflexivity|]. split.
  - intros i Hi. assert (C : (i = 1 \/ i = 2)%nat) by lia. destruct C as [-> | ->]; cbn [vsum].
    + unfold K1. f_equal. fold K0. vec.
    + unfold K2. f_equal. vec.
  - change (tvdrk3 (V := W) f Q h) with (plus (plus (scal (V := W) (1 / 3) Q) (scal (V := W) (2 / 3) (plus (plus (scal (V := W) (3 / 4) Q) (scal (V := W) (1 / 4) (plus Q (scal (V := W) h K0))))
      (scal (V := W) h (scal (V := W) (1 / 4) K1))))) (scal (V := W) h (scal (V := W) (2 / 3) K2))).
    cbn [vsum]. clearbody K2. clearbody K1. clearbody K0. vec.
Qed.

Lemma cn_order : forall newton (f L : V -> V) Q h lam tol, affine f L -> 0 <= lam -> bounded L lam -> 0 < h -> h * lam <= 1 ->
  let q := crank_nicolson (V := W) newton f Q h in
  small (cn_fun (V := W) f Q h) q tol -> norm (minus q (taylor 2 f L Q h)) <= lam ^ 2 * norm (f Q) / 2 * h ^ 3 + 2 * h * tol.
Proof.
  intros newton f L Q h lam tol HA Hl HB Hh Hhl q HS. unfold small in HS. pose proof HA as [[La Ls] _]. rewrite taylor2.
  set (F := f Q) in *. set (r := cn_fun (V := W) f Q h q) in *. set (e := minus q (plus (plus Q (scal h F)) (scal (h ^ 2 / 2) (L F)))).
  match goal with |- norm _ <= ?B => change (norm e <= B) end.
  assert (Eq : minus q Q = plus e (plus (scal h F) (scal (h ^ 2 / 2) (L F)))) by (unfold e; set (LF := L F); vec).
  assert (EL : L (minus q Q) = plus (L e) (plus (scal h (L F)) (scal (h ^ 2 / 2) (L (L F))))) by (rewrite Eq, !La, !Ls; reflexivity).
  assert (Er : r = minus (scal (V := W) (/ h) (minus q Q)) (scal (V := W) (1 / 2) (plus (plus F (L (minus q Q))) F))).
  { unfold r, cn_fun. rewrite (aff_diff f L q Q HA). reflexivity. }
  rewrite EL, Eq in Er. clearbody e r. set (LF := L F) in *. set (LLF := L LF) in *.
  assert (X : minus e (scal (h / 2) (L e)) = plus (scal (h ^ 3 / 4) LLF) (scal h r)).
  { rewrite Er. set (Le := L e). vec. }
  assert (Hk : Rabs (h / 2) * lam <= / 2) by (rewrite Rabs_pos_eq by lra; lra).
  pose proof (absorb L lam (h / 2) e _ HB Hk X) as G. eapply Rle_trans; [exact G|].
  pose proof (nplus (scal (h ^ 3 / 4) LLF) (scal h r)) as N1. pose proof (nscal (h ^ 3 / 4) LLF) as N2. pose proof (nscal h r) as N3.
  assert (P3 : 0 < h ^ 3) by (apply pow_lt; auto). rewrite Rabs_pos_eq in N2, N3 by lra. pose proof (bnd2 L lam F Hl HB) as B. fold LF in B. fold LLF in B.
  assert (N4 : h ^ 3 / 4 * norm LLF <= h ^ 3 / 4 * (lam ^ 2 * norm F)) by (apply Rmult_le_compat_l; [lra|exact B]).
  assert (N5 : h * norm r <= h * tol) by (apply Rmult_le_compat_l; lra). inst. lra.
Qed.

Lemma be_order : forall newton (f L : V -> V) Q h lam tol, affine f L -> 0 <= lam -> bounded L lam -> 0 < h -> h * lam <= / 2 ->
  let q := backward_euler (V := W) newton f Q h in
  small (be_fun (V := W) f Q h) q tol -> norm (minus q (taylor 1 f L Q h)) <= 2 * lam * norm (f Q) * h ^ 2 + 2 * h * tol.
Proof.
  intros newton f L Q h lam tol HA Hl HB Hh Hhl q HS. unfold small in HS. pose proof HA as [[La Ls] _]. rewrite taylor1.
  set (F := f Q) in *. set (r := be_fun (V := W) f Q h q) in *. set (e := minus q (plus Q (scal h F))).
  match goal with |- norm _ <= ?B => change (norm e <= B) end.
  assert (Eq : minus q Q = plus e (scal h F)) by (unfold e; vec).
  assert (EL : L (minus q Q) = plus (L e) (scal h (L F))) by (rewrite Eq, !La, !Ls; reflexivity).
  assert (Er : r = minus (scal (V := W) (/ h) (minus q Q)) (plus F (L (minus q Q)))).
  { unfold r, be_fun. rewrite (aff_diff f L q Q HA). reflexivity. }
  rewrite EL, Eq in Er. clearbody e r. set (LF := L F) in *.
  assert (X : minus e (scal h (L e)) = plus (scal (h ^ 2) LF) (scal h r)).
  { rewrite Er. set (Le := L e). vec. }
  assert (Hk : Rabs h * lam <= / 2) by (rewrite Rabs_pos_eq by lra; lra).
  pose proof (absorb L lam h e _ HB Hk X) as G. eapply Rle_trans; [exact G|].
  pose proof (nplus (scal (h ^ 2) LF) (scal h r)) as N1. pose proof (nscal (h ^ 2) LF) as N2. pose proof (nscal h r) as N3.
  assert (P3 : 0 < h ^ 2) by (apply pow_lt; auto). rewrite Rabs_pos_eq in N2, N3 by lra. pose proof (HB F) as B. fold LF in B.
  assert (N4 : h ^ 2 * norm LF <= h ^ 2 * (lam * norm F)) by (apply Rmult_le_compat_l; [lra|exact B]).
  assert (N5 : h * norm r <= h * tol) by (apply Rmult_le_compat_l; lra). inst. lra.
Qed.

Lemma imex_order : forall newton (fe fi E I : V -> V) Q h lam tol, affine fe E -> affine fi I -> 0 <= lam -> bounded I lam -> bounded E lam -> 0 < h -> h * lam <= 1 ->
  let g := imex_fun (V := W) fe fi Q h in small g (newton g Q) tol ->
  norm (minus (imex2 (V := W) newton fe fi Q h) (taylor 2 (fun x => plus (fe x) (fi x)) (fun x => plus (E x) (I x)) Q h)) <=
    lam ^ 2 * (h * norm (plus (fe Q) (fi Q)) + 2 * tol) * h ^ 2 + 2 * lam * h * tol.
Proof.
  intros newton fe fi E I Q h lam tol HE HI Hl BI BE Hh Hhl g HS. unfold small in HS. pose proof HE as [[Ea Es] _]. pose proof HI as [[Ia Is] _].
  rewrite taylor2. unfold imex2. fold g. set (Y := newton g Q) in *. set (r := g Y) in *.
  set (Fe := fe Q). set (Fi := fi Q). set (F := plus Fe Fi). set (d := minus Y Q).
  assert (Ed : r = minus d (plus (scal (V := W) (h / 2) (I d)) (scal (V := W) (h / 2) F))).
  { unfold r, g, imex_fun. rewrite (aff_diff fi I Y Q HI). fold Fi Fe d. generalize (I d). intros Id. unfold F, d. vec. }
  assert (Xd : minus d (scal (h / 2) (I d)) = plus (scal (h / 2) F) r) by (rewrite Ed; set (Id := I d); vec).
  assert (Hk : Rabs (h / 2) * lam <= / 2) by (rewrite Rabs_pos_eq by lra; lra).
  pose proof (absorb I lam (h / 2) d _ BI Hk Xd) as Gd.
  pose proof (nplus (scal (h / 2) F) r) as M1. pose proof (nscal (h / 2) F) as M2. rewrite Rabs_pos_eq in M2 by lra. pose proof (npos F) as PF. pose proof (npos d) as Pd. pose proof (npos r) as Pr.
  assert (Nd : norm d <= h * norm F + 2 * tol) by (inst; lra).
  set (L := fun x => plus (E x) (I x)).
  assert (HL : bounded L (2 * lam)) by (intros x; unfold L; pose proof (nplus (E x) (I x)); pose proof (BI x); pose proof (BE x); lra).
  assert (La : forall x y, L (plus x y) = plus (L x) (L y)).
  { intros x y. unfold L. rewrite Ea, Ia. set (a := E x). set (b := E y). set (c := I x). set (d' := I y). vec. }
  assert (Ls : forall (k : R) x, L (scal k x) = scal k (L x)) by (intros k x; unfold L; rewrite Es, Is; symmetry; exact (scal_distr_l (V := W) k (E x) (I x))).
  assert (Ed2 : d = plus (plus (scal (V := W) (h / 2) (I d)) (scal (V := W) (h / 2) F)) r) by (rewrite Ed; set (Id := I d); vec).
  assert (EL : L d = plus (plus (scal (V := W) (h / 2) (L (I d))) (scal (V := W) (h / 2) (L F))) (L r)) by (rewrite Ed2 at 1; rewrite !La, !Ls; reflexivity).
  assert (X : minus (plus Q (scal h (plus (fi Y) (fe Y)))) (plus (plus Q (scal h F)) (scal (h ^ 2 / 2) (plus (E F) (I F)))) = plus (scal (h ^ 2 / 2) (L (I d))) (scal h (L r))).
  { rewrite (aff_diff fi I Y Q HI), (aff_diff fe E Y Q HE). fold Fi Fe d. unfold F. fold F.
    replace (plus (plus Fi (I d)) (plus Fe (E d))) with (plus F (L d)).
    - rewrite EL. change (plus (E F) (I F)) with (L F). set (LF := L F). set (a := L (I d)). set (b := L r). clearbody F. vec.
    - unfold F, L. set (a := E d). set (b := I d). vec. }
  match goal with |- norm _ <= ?B => change (norm (minus (plus Q (scal h (plus (fi Y) (fe Y)))) (plus (plus Q (scal h F)) (scal (h ^ 2 / 2) (plus (E F) (I F))))) <= B) end.
  rewrite X. pose proof (nplus (scal (h ^ 2 / 2) (L (I d))) (scal h (L r))) as N1. pose proof (nscal (h ^ 2 / 2) (L (I d))) as N2. pose proof (nscal h (L r)) as N3.
  assert (P2 : 0 < h ^ 2) by (apply pow_lt; auto). rewrite Rabs_pos_eq in N2, N3 by lra.
  pose proof (HL (I d)) as B1. pose proof (BI d) as B2. pose proof (HL r) as B3.
  assert (B4 : norm (L (I d)) <= 2 * lam * (lam * (h * norm F + 2 * tol))).
  { eapply Rle_trans; [exact B1|]. apply Rmult_le_compat_l; [lra|]. eapply Rle_trans; [exact B2|]. apply Rmult_le_compat_l; lra. }
  assert (B5 : norm (L r) <= 2 * lam * tol) by (eapply Rle_trans; [exact B3|]; apply Rmult_le_compat_l; lra).
  assert (N4 : h ^ 2 / 2 * norm (L (I d)) <= h ^ 2 / 2 * (2 * lam * (lam * (h * norm F + 2 * tol)))) by (apply Rmult_le_compat_l; lra).
  assert (N5 : h * norm (L r) <= h * (2 * lam * tol)) by (apply Rmult_le_compat_l; lra).
  eapply Rle_trans; [exact N1|]. eapply Rle_trans; [apply Rplus_le_compat; [eapply Rle_trans; [exact N2|exact N4]|eapply Rle_trans; [exact N3|exact N5]]|].
  unfold F, Fe, Fi. inst. right. field.
Qed.

Lemma bdf2_order : forall newton (f L : V -> V) n Q P h lam tol, affine f L -> 0 <= lam -> bounded L lam -> 0 < h -> h * lam <= 3 / 4 ->
  let q := snd (bdf2 (V := W) newton f n (Some P) Q h) in small (bdf2_fun (V := W) f Q P h) q tol ->
  norm (minus q (taylor 2 f L Q h)) <= 2 / 3 * lam ^ 2 * norm (f Q) * h ^ 3 + 2 / 3 * norm (minus P (taylor 2 f L Q (- h))) + 2 * h * tol.
Proof.
  intros newton f L n Q P h lam tol HA Hl HB Hh Hhl q HS. unfold small in HS. pose proof HA as [[La Ls] _]. rewrite !taylor2.
  set (F := f Q) in *. set (r := bdf2_fun (V := W) f Q P h q) in *. set (e := minus q (plus (plus Q (scal h F)) (scal (h ^ 2 / 2) (L F)))).
  set (p := minus P (plus (plus Q (scal (- h) F)) (scal ((- h) ^ 2 / 2) (L F)))).
  match goal with |- norm _ <= ?A + ?B * norm _ + ?C => change (norm e <= A + B * norm p + C) end.
  assert (Eq : minus q Q = plus e (plus (scal h F) (scal (h ^ 2 / 2) (L F)))) by (unfold e; set (LF := L F); vec).
  assert (EL : L (minus q Q) = plus (L e) (plus (scal h (L F)) (scal (h ^ 2 / 2) (L (L F))))) by (rewrite Eq, !La, !Ls; reflexivity).
  assert (Er : r = minus (scal (V := W) (/ h) (plus (minus (plus (minus q Q) Q) (scal (V := W) (4 / 3) Q)) (scal (V := W) (1 / 3) (plus p (plus (plus Q (scal (- h) F)) (scal ((- h) ^ 2 / 2) (L F)))))))
     (scal (V := W) (2 / 3) (plus F (L (minus q Q))))).
  { unfold r, bdf2_fun. rewrite (aff_diff f L q Q HA). fold F. unfold p. set (LF := L F). set (Lm := L (minus q Q)). vec. }
  rewrite EL, Eq in Er. clearbody e r p. set (LF := L F) in *. set (LLF := L LF) in *.
  assert (X : minus e (scal (2 / 3 * h) (L e)) = plus (plus (scal (h ^ 3 / 3) LLF) (scal (- 1 / 3) p)) (scal h r)).
  { rewrite Er. set (Le := L e). vec. }
  assert (Hk : Rabs (2 / 3 * h) * lam <= / 2) by (rewrite Rabs_pos_eq by lra; lra).
  pose proof (absorb L lam (2 / 3 * h) e _ HB Hk X) as G. eapply Rle_trans; [exact G|].
  pose proof (nplus (plus (scal (h ^ 3 / 3) LLF) (scal (- 1 / 3) p)) (scal h r)) as N0.
  pose proof (nplus (scal (h ^ 3 / 3) LLF) (scal (- 1 / 3) p)) as N1. pose proof (nscal (h ^ 3 / 3) LLF) as N2. pose proof (nscal h r) as N3. pose proof (nscal (- 1 / 3) p) as N6.
  assert (P3 : 0 < h ^ 3) by (apply pow_lt; auto). rewrite Rabs_pos_eq in N2, N3 by lra. rewrite (Rabs_left (- 1 / 3)) in N6 by lra.
  pose proof (bnd2 L lam F Hl HB) as B. fold LF in B. fold LLF in B.
  assert (N4 : h ^ 3 / 3 * norm LLF <= h ^ 3 / 3 * (lam ^ 2 * norm F)) by (apply Rmult_le_compat_l; [lra|exact B]).
  assert (N5 : h * norm r <= h * tol) by (apply Rmult_le_compat_l; lra). inst. lra.
Qed.

Lemma ros2_order : forall linear_solve (f L : V -> V) Q h lam tol, affine f L -> 0 <= lam -> bounded L lam -> 0 < h -> h * lam <= 1 ->
  let q := ros2 (V := W) linear_solve f Q h in norm (minus (ros2_b (V := W) f Q h) (ros2_A (V := W) f Q h q)) <= tol ->
  norm (minus q (taylor 2 f L Q h)) <= lam ^ 2 * norm (f Q) / 2 * h ^ 3 + 2 * tol.
Proof.
  intros ls f L Q h lam tol HA Hl HB Hh Hhl q HS. pose proof HA as [[La Ls] _]. rewrite taylor2.
  unfold ros2_b, ros2_A in HS. rewrite !(rat_affine f L _ Q h HA) in HS.
  set (F := f Q) in *. set (e := minus q (plus (plus Q (scal h F)) (scal (h ^ 2 / 2) (L F)))).
  match goal with |- norm _ <= ?B => change (norm e <= B) end.
  assert (Eq : q = plus Q (plus e (plus (scal h F) (scal (h ^ 2 / 2) (L F))))) by (unfold e; set (LF := L F); vec).
  set (r := minus _ _) in HS.
  assert (Er : r = minus (scal h F) (minus (minus q Q) (scal (V := W) (h / 2) (L (minus q Q))))).
  { transitivity (minus (scal h F) (minus (minus q Q) (scal (V := W) (h / 2) (minus (L q) (L Q))))).
    - unfold r. set (Lq := L q). set (LQ := L Q). vec.
    - do 3 f_equal. symmetry. apply (lin_minus L q Q (proj1 HA)). }
  assert (Eq' : minus q Q = plus e (plus (scal h F) (scal (h ^ 2 / 2) (L F)))) by (unfold e; set (LF := L F); vec).
  assert (EL : L (minus q Q) = plus (L e) (plus (scal h (L F)) (scal (h ^ 2 / 2) (L (L F))))) by (rewrite Eq', !La, !Ls; reflexivity).
  rewrite EL, Eq' in Er. clearbody e r. set (LF := L F) in *. set (LLF := L LF) in *.
  assert (X : minus e (scal (h / 2) (L e)) = minus (scal (h ^ 3 / 4) LLF) r).
  { rewrite Er. set (Le := L e). vec. }
  assert (Hk : Rabs (h / 2) * lam <= / 2) by (rewrite Rabs_pos_eq by lra; lra).
  pose proof (absorb L lam (h / 2) e _ HB Hk X) as G. eapply Rle_trans; [exact G|].
  pose proof (nminus (scal (h ^ 3 / 4) LLF) r) as N1. pose proof (nscal (h ^ 3 / 4) LLF) as N2.
  assert (P3 : 0 < h ^ 3) by (apply pow_lt; auto). rewrite Rabs_pos_eq in N2 by lra. pose proof (bnd2 L lam F Hl HB) as B. fold LF in B. fold LLF in B.
  assert (N4 : h ^ 3 / 4 * norm LLF <= h ^ 3 / 4 * (lam ^ 2 * norm F)) by (apply Rmult_le_compat_l; [lra|exact B]). inst. lra.
Qed.
End Order.
