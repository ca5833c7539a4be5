From Coq Require Import Reals List Lra Lia Psatz.
From Coquelicot Require Import Hierarchy.
From Verif Require Import StepModel StepSpec VecTac StepOrder.
Import ListNotations.
Local Open Scope R_scope.

(** call logs *)
Section Logs.
Context {V S1 S2 : Type}.
Variable step1 : S1 -> V -> R -> S1 * V.
Variable step2 : S2 -> V -> R -> S2 * V.
Lemma lie_calls : forall s1 l1 s2 l2 Q dt,
  let '((s1', l1'), (s2', l2')) := fst (lie (logged step1) (logged step2) (s1, l1) (s2, l2) Q dt) in l1' = dt :: l1 /\ l2' = dt :: l2.
Proof.
  intros. unfold lie, logged. cbn [fst snd]. destruct (step1 s1 Q dt) as [a q]. destruct (step2 s2 q dt) as [b q2]. cbn. auto.
Qed.
Lemma strang_calls : forall s1 l1 s2 l2 Q dt,
  let '((s1', l1'), (s2', l2')) := fst (strang (logged step1) (logged step2) (s1, l1) (s2, l2) Q dt) in l1' = dt / 2 :: dt / 2 :: l1 /\ l2' = dt :: l2.
Proof.
  intros. unfold strang, logged. cbn [fst snd]. destruct (step1 s1 Q (dt / 2)) as [a q]. destruct (step2 s2 q dt) as [b q2]. cbn [fst snd].
  destruct (step1 a q2 (dt / 2)) as [a' q3]. cbn. auto.
Qed.
Lemma os22_totals : forall p s1 l1 s2 l2 Q dt, p <> 1 ->
  let '((s1', l1'), (s2', l2')) := fst (os22 (logged step1) (logged step2) p (s1, l1) (s2, l2) Q dt) in
  total l1' = total l1 + dt /\ total l2' = total l2 + dt.
Proof.
  intros p s1 l1 s2 l2 Q dt Hp. assert (Hd : 2 * p - 2 <> 0) by (intros E; apply Hp; lra).
  unfold os22, os22_alpha. cbn [os22_loop]. unfold logged.
  repeat match goal with
  | |- context [Req_EM_T ?a ?b] => destruct (Req_EM_T a b)
  | |- context [step1 ?a ?b ?c] => destruct (step1 a b c)
  | |- context [step2 ?a ?b ?c] => destruct (step2 a b c)
  end; cbn [fst snd];
  repeat match goal with
  | |- context [Req_EM_T ?a ?b] => destruct (Req_EM_T a b)
  | |- context [step1 ?a ?b ?c] => destruct (step1 a b c)
  | |- context [step2 ?a ?b ?c] => destruct (step2 a b c)
  end; cbn [fst snd];
  repeat match goal with
  | |- context [step1 ?a ?b ?c] => destruct (step1 a b c)
  | |- context [step2 ?a ?b ?c] => destruct (step2 a b c)
  end; cbn [fst snd];
  repeat match goal with
  | |- context [step1 ?a ?b ?c] => destruct (step1 a b c)
  | |- context [step2 ?a ?b ?c] => destruct (step2 a b c)
  end; cbn [fst snd total fold_right].
  all: assert (C1 : (2 * p - 1) / (2 * p - 2) + - 1 / (2 * p - 2) = 1) by (field; lra).
  all: assert (Cd : (2 * p - 1) / (2 * p - 2) * dt + - 1 / (2 * p - 2) * dt = dt) by (rewrite <- Rmult_plus_distr_r, C1; ring).
  all: assert (Ce : (1 - p) * dt + p * dt = dt) by ring.
  all: repeat match goal with H : ?a = 0 |- _ => lazymatch a with _ * _ => fail | _ => assert (a * dt = 0) by (rewrite H; ring); clear H end end.
  all: unfold total in *; cbn [fold_right] in *; split; lra.
Qed.
Lemma strang_run : forall hs s1 l1 s2 l2 Q,
  let '((s1', l1'), (s2', l2')) := fst (run (strang (logged step1) (logged step2)) (s1, l1) (s2, l2) Q hs) in
  total l1' = total hs + total l1 /\ total l2' = total hs + total l2.
Proof.
  induction hs as [|h r IH]; intros s1 l1 s2 l2 Q; cbn [run].
  - cbn. lra.
  - pose proof (strang_calls s1 l1 s2 l2 Q h) as C. destruct (strang (logged step1) (logged step2) (s1, l1) (s2, l2) Q h) as [[[a la] [b lb]] q]. cbn [fst] in C. destruct C as [-> ->].
    specialize (IH a (h / 2 :: h / 2 :: l1) b (h :: l2) q).
    destruct (run (strang (logged step1) (logged step2)) (a, h / 2 :: h / 2 :: l1) (b, h :: l2) q r) as [[[a' la'] [b' lb']] q']. cbn [fst] in *.
    destruct IH as [-> ->]. cbn [total fold_right]. unfold total. cbn [fold_right]. split; field.
Qed.
Lemma lie_run : forall hs s1 l1 s2 l2 Q,
  let '((s1', l1'), (s2', l2')) := fst (run (lie (logged step1) (logged step2)) (s1, l1) (s2, l2) Q hs) in
  total l1' = total hs + total l1 /\ total l2' = total hs + total l2.
Proof.
  induction hs as [|h r IH]; intros s1 l1 s2 l2 Q; cbn [run].
  - cbn. lra.
  - pose proof (lie_calls s1 l1 s2 l2 Q h) as C. destruct (lie (logged step1) (logged step2) (s1, l1) (s2, l2) Q h) as [[[a la] [b lb]] q]. cbn [fst] in C. destruct C as [-> ->].
    specialize (IH a (h :: l1) b (h :: l2) q).
    destruct (run (lie (logged step1) (logged step2)) (a, h :: l1) (b, h :: l2) q r) as [[[a' la'] [b' lb']] q']. cbn [fst] in *.
    destruct IH as [-> ->]. unfold total. cbn [fold_right]. split; ring.
Qed.
Lemma strang_result : forall s1 s2 Q dt, exists s1',
  snd (strang step1 step2 s1 s2 Q dt) = snd (step1 s1' (snd (step2 s2 (snd (step1 s1 Q (dt / 2))) dt)) (dt / 2)).
Proof.
  intros. unfold strang. destruct (step1 s1 Q (dt / 2)) as [a q]. cbn [snd]. destruct (step2 s2 q dt) as [b q2]. cbn [snd]. exists a.
  destruct (step1 a q2 (dt / 2)) as [c q3]. reflexivity.
Qed.
Definition stage1 (k h : R) (x y : V) : Prop := if Req_EM_T k 0 then y = x else exists s, y = snd (step1 s x (k * h)).
Definition stage2 (k h : R) (x y : V) : Prop := if Req_EM_T k 0 then y = x else exists s, y = snd (step2 s x (k * h)).
Lemma os22_result : forall p s1 s2 Q h, exists q1 q2 q3, stage1 ((2 * p - 1) / (2 * p - 2)) h Q q1 /\ stage2 (1 - p) h q1 q2 /\
  stage1 (- 1 / (2 * p - 2)) h q2 q3 /\ stage2 p h q3 (snd (os22 step1 step2 p s1 s2 Q h)).
Proof.
  intros p s1 s2 Q h. unfold os22, os22_alpha. set (a := (2 * p - 1) / (2 * p - 2)). set (b := 1 - p). set (c := - 1 / (2 * p - 2)). cbn [os22_loop].
  assert (HA : forall k s q, stage1 k h q (snd (if Req_EM_T k 0 then (s, q) else step1 s q (k * h)))).
  { intros k s q. unfold stage1. destruct (Req_EM_T k 0); [reflexivity|exists s; reflexivity]. }
  assert (HB : forall k s q, stage2 k h q (snd (if Req_EM_T k 0 then (s, q) else step2 s q (k * h)))).
  { intros k s q. unfold stage2. destruct (Req_EM_T k 0); [reflexivity|exists s; reflexivity]. }
  pose proof (HA a s1 Q) as Ra. destruct (if Req_EM_T a 0 then (s1, Q) else step1 s1 Q (a * h)) as [t1 q1].
  pose proof (HB b s2 q1) as Rb. destruct (if Req_EM_T b 0 then (s2, q1) else step2 s2 q1 (b * h)) as [t2 q2].
  pose proof (HA c t1 q2) as Rc. destruct (if Req_EM_T c 0 then (t1, q2) else step1 t1 q2 (c * h)) as [t3 q3].
  pose proof (HB p t2 q3) as Rd. destruct (if Req_EM_T p 0 then (t2, q3) else step2 t2 q3 (p * h)) as [t4 q4].
  exists q1, q2, q3. auto.
Qed.
Lemma lie_result : forall s1 s2 Q dt, snd (lie step1 step2 s1 s2 Q dt) = snd (step2 s2 (snd (step1 s1 Q dt)) dt).
Proof. intros. unfold lie. destruct (step1 s1 Q dt) as [a q]. cbn [snd]. destruct (step2 s2 q dt) as [b q2]. reflexivity. Qed.
End Logs.

Section Words.
Context {V : NormedModule R_AbsRing}.
Notation W := (NormedModule.ModuleSpace R_AbsRing V).
Ltac inst := change (@plus (NormedModule.AbelianGroup R_AbsRing V)) with (@plus (ModuleSpace.AbelianGroup R_Ring W)) in *;
  change (@minus (NormedModule.AbelianGroup R_AbsRing V)) with (@minus (ModuleSpace.AbelianGroup R_Ring W)) in *.
Variables A B : V -> V.
Hypothesis LA : linear A.
Hypothesis LB : linear B.
Variable lam : R.
Hypothesis Hl : 0 <= lam.
Hypothesis BA : bounded A lam.
Hypothesis BB : bounded B lam.

(** words of length at most two in A and B *)
Record words := mkW { cA : R; cB : R; cAA : R; cAB : R; cBA : R; cBB : R }.
Definition op1 (t : words) (x : W) : W := plus (scal (V := W) (cA t) (A x)) (scal (V := W) (cB t) (B x)).
Definition op2 (t : words) (x : W) : W :=
  plus (plus (scal (V := W) (cAA t) (A (A x))) (scal (V := W) (cAB t) (A (B x)))) (plus (scal (V := W) (cBA t) (B (A x))) (scal (V := W) (cBB t) (B (B x)))).
Definition app (t : words) (h : R) (x : W) : W := plus (plus x (scal (V := W) h (op1 t x))) (scal (V := W) (h ^ 2) (op2 t x)).
Definition mul (t s : words) : words :=
  mkW (cA t + cA s) (cB t + cB s) (cAA t + cA t * cA s + cAA s) (cAB t + cA t * cB s + cAB s) (cBA t + cB t * cA s + cBA s) (cBB t + cB t * cB s + cBB s).

Lemma A_plus : forall x y : W, A (plus x y) = plus (A x) (A y). Proof. exact (proj1 LA). Qed.
Lemma B_plus : forall x y : W, B (plus x y) = plus (B x) (B y). Proof. exact (proj1 LB). Qed.
Lemma A_scal : forall (a : R) (x : W), A (scal (V := W) a x) = scal (V := W) a (A x). Proof. exact (proj2 LA). Qed.
Lemma B_scal : forall (a : R) (x : W), B (scal (V := W) a x) = scal (V := W) a (B x). Proof. exact (proj2 LB). Qed.
Ltac expand := repeat first [rewrite A_plus | rewrite B_plus | rewrite A_scal | rewrite B_scal].
Lemma op1_plus : forall t x y, op1 t (plus x y) = plus (op1 t x) (op1 t y).
Proof. intros. unfold op1. expand. generalize (A x) (A y) (B x) (B y). intros. vec. Qed.
Lemma op1_scal : forall t (a : R) x, op1 t (scal (V := W) a x) = scal (V := W) a (op1 t x).
Proof. intros. unfold op1. expand. generalize (A x) (B x). intros. vec. Qed.
Lemma op2_plus : forall t x y, op2 t (plus x y) = plus (op2 t x) (op2 t y).
Proof. intros. unfold op2. expand. generalize (A (A x)) (A (A y)) (A (B x)) (A (B y)) (B (A x)) (B (A y)) (B (B x)) (B (B y)). intros. vec. Qed.
Lemma op2_scal : forall t (a : R) x, op2 t (scal (V := W) a x) = scal (V := W) a (op2 t x).
Proof. intros. unfold op2. expand. generalize (A (A x)) (A (B x)) (B (A x)) (B (B x)). intros. vec. Qed.
Lemma op_mul : forall t s x, op1 (mul t s) x = plus (op1 t x) (op1 s x) /\ op2 (mul t s) x = plus (plus (op2 t x) (op1 t (op1 s x))) (op2 s x).
Proof.
  intros t s x. split; unfold op1, op2, mul; cbn [cA cB cAA cAB cBA cBB]; expand.
  - generalize (A x) (B x). intros. vec.
  - generalize (A (A x)) (A (B x)) (B (A x)) (B (B x)). intros. vec.
Qed.
Lemma app_app : forall t s h x, app t h (app s h x) =
  plus (app (mul t s) h x) (plus (scal (V := W) (h ^ 3) (plus (op1 t (op2 s x)) (op2 t (op1 s x)))) (scal (V := W) (h ^ 4) (op2 t (op2 s x)))).
Proof.
  intros. unfold app. rewrite !op1_plus, !op2_plus, !op1_scal, !op2_scal. destruct (op_mul t s x) as [-> ->].
  generalize (op1 t x) (op1 s x) (op2 t x) (op1 t (op1 s x)) (op2 s x) (op1 t (op2 s x)) (op2 t (op1 s x)) (op2 t (op2 s x)). intros. vec.
Qed.
Definition m1 (t : words) : R := (Rabs (cA t) + Rabs (cB t)) * lam.
Definition m2 (t : words) : R := (Rabs (cAA t) + Rabs (cAB t) + (Rabs (cBA t) + Rabs (cBB t))) * lam ^ 2.
Lemma m1_pos : forall t, 0 <= m1 t.
Proof. intros. unfold m1. apply Rmult_le_pos; auto. pose proof (Rabs_pos (cA t)). pose proof (Rabs_pos (cB t)). lra. Qed.
Lemma m2_pos : forall t, 0 <= m2 t.
Proof.
  intros. unfold m2. apply Rmult_le_pos; [|apply pow_le; auto]. pose proof (Rabs_pos (cAA t)). pose proof (Rabs_pos (cAB t)). pose proof (Rabs_pos (cBA t)). pose proof (Rabs_pos (cBB t)). lra.
Qed.
Definition nrm (x : W) : R := norm (V := V) x.
Lemma nrm_plus : forall x y : W, nrm (plus x y) <= nrm x + nrm y. Proof. intros. apply (nplus (V := V) x y). Qed.
Lemma nrm_scal : forall (a : R) (x : W), nrm (scal (V := W) a x) <= Rabs a * nrm x. Proof. intros. apply (nscal (V := V) a x). Qed.
Lemma nrm_pos : forall x : W, 0 <= nrm x. Proof. intros. apply (npos (V := V) x). Qed.
Lemma nrm_scal_le : forall (a : R) (x : W) b, nrm x <= b -> nrm (scal (V := W) a x) <= Rabs a * b.
Proof. intros. eapply Rle_trans; [apply nrm_scal|]. apply Rmult_le_compat_l; auto using Rabs_pos. Qed.
Lemma op1_bound : forall t x, nrm (op1 t x) <= m1 t * nrm x.
Proof.
  intros. unfold op1, m1. eapply Rle_trans; [apply nrm_plus|].
  pose proof (nrm_scal_le (cA t) (A x) _ (BA x)). pose proof (nrm_scal_le (cB t) (B x) _ (BB x)). unfold nrm in *. lra.
Qed.
Lemma op2_bound : forall t x, nrm (op2 t x) <= m2 t * nrm x.
Proof.
  intros. assert (T : forall X Y : V -> V, bounded X lam -> bounded Y lam -> nrm (X (Y x)) <= lam ^ 2 * nrm x).
  { intros X Y HX HY. unfold nrm. eapply Rle_trans; [apply HX|]. cbn. rewrite Rmult_1_r, Rmult_assoc. apply Rmult_le_compat_l; auto. }
  unfold op2, m2. eapply Rle_trans; [apply nrm_plus|]. eapply Rle_trans; [apply Rplus_le_compat; apply nrm_plus|].
  pose proof (nrm_scal_le (cAA t) _ _ (T A A BA BA)). pose proof (nrm_scal_le (cAB t) _ _ (T A B BA BB)).
  pose proof (nrm_scal_le (cBA t) _ _ (T B A BB BA)). pose proof (nrm_scal_le (cBB t) _ _ (T B B BB BB)). lra.
Qed.
Lemma app_bound : forall t h x, Rabs h <= 1 -> nrm (app t h x) <= (1 + m1 t + m2 t) * nrm x.
Proof.
  intros t h x Hh. unfold app. eapply Rle_trans; [apply nrm_plus|]. eapply Rle_trans; [apply Rplus_le_compat_r; apply nrm_plus|].
  pose proof (nrm_scal_le h _ _ (op1_bound t x)) as N1. pose proof (nrm_scal_le (h ^ 2) _ _ (op2_bound t x)) as N2.
  pose proof (Rabs_pos h). pose proof (Rabs_pos (h ^ 2)). assert (Rabs (h ^ 2) <= 1) by (rewrite <- RPow_abs; cbn; nra).
  pose proof (nrm_pos x). pose proof (m1_pos t). pose proof (m2_pos t).
  assert (0 <= m1 t * nrm x) by (apply Rmult_le_pos; auto). assert (0 <= m2 t * nrm x) by (apply Rmult_le_pos; auto). nra.
Qed.

(** a relation between the value before and after a step of size h is described by the words up to third order *)
Definition approx (Rel : R -> W -> W -> Prop) (t : words) : Prop :=
  exists K d, 0 <= K /\ 0 < d <= 1 /\ forall h x y, Rabs h <= d -> Rel h x y -> nrm (minus y (app t h x)) <= K * Rabs h ^ 3 * nrm x.
Definition compose (R1 R2 : R -> W -> W -> Prop) : R -> W -> W -> Prop := fun h x z => exists y, R1 h x y /\ R2 h y z.
Lemma app_minus : forall t h x y, app t h (minus x y) = minus (app t h x) (app t h y).
Proof.
  intros. replace (minus x y) with (plus x (scal (V := W) (-1) y)) by vec. unfold app. rewrite op1_plus, op2_plus, op1_scal, op2_scal.
  generalize (op1 t x) (op1 t y) (op2 t x) (op2 t y). intros. vec.
Qed.
Lemma approx_compose : forall R1 R2 s t, approx R1 s -> approx R2 t -> approx (compose R1 R2) (mul t s).
Proof.
  intros R1 R2 s t (K1 & d1 & HK1 & Hd1 & H1) (K2 & d2 & HK2 & Hd2 & H2).
  pose proof (m1_pos s). pose proof (m2_pos s). pose proof (m1_pos t). pose proof (m2_pos t).
  set (Ms := 1 + m1 s + m2 s). set (Mt := 1 + m1 t + m2 t).
  exists (K2 * (Ms + K1) + Mt * K1 + (m1 t * m2 s + m2 t * m1 s + m2 t * m2 s)), (Rmin d1 d2).
  assert (Q1 : 0 <= m1 t * m2 s) by (apply Rmult_le_pos; auto). assert (Q2 : 0 <= m2 t * m1 s) by (apply Rmult_le_pos; auto). assert (Q3 : 0 <= m2 t * m2 s) by (apply Rmult_le_pos; auto).
  assert (Q4 : 0 <= K2 * (Ms + K1)) by (apply Rmult_le_pos; unfold Ms; lra). assert (Q5 : 0 <= Mt * K1) by (apply Rmult_le_pos; unfold Mt; lra).
  split; [lra|]. split.
  - split; [apply Rmin_pos; lra|]. pose proof (Rmin_l d1 d2). lra.
  - intros h x z Hh (y & Hy & Hz). pose proof (Rmin_l d1 d2). pose proof (Rmin_r d1 d2).
    specialize (H1 h x y ltac:(lra) Hy). specialize (H2 h y z ltac:(lra) Hz).
    assert (Hh1 : Rabs h <= 1) by lra. set (a := Rabs h) in *. assert (Ha : 0 <= a) by apply Rabs_pos.
    assert (A3 : 0 <= a ^ 3 <= 1) by (split; [apply pow_le; auto|rewrite <- (pow1 3); apply pow_incr; lra]).
    pose proof (nrm_pos x) as Px. pose proof (nrm_pos y) as Py.
    assert (Ny : nrm y <= (Ms + K1) * nrm x).
    { replace y with (plus (app s h x) (minus y (app s h x))) by (generalize (app s h x); intros; vec).
      eapply Rle_trans; [apply nrm_plus|]. pose proof (app_bound s h x Hh1) as AB. fold Ms in AB.
      assert (K1 * a ^ 3 * nrm x <= K1 * nrm x) by (apply Rmult_le_compat_r; nra). lra. }
    assert (E : minus z (app (mul t s) h x) = plus (minus z (app t h y)) (plus (app t h (minus y (app s h x)))
       (plus (scal (V := W) (h ^ 3) (plus (op1 t (op2 s x)) (op2 t (op1 s x)))) (scal (V := W) (h ^ 4) (op2 t (op2 s x)))))).
    { rewrite app_minus, app_app. generalize (app (mul t s) h x) (app t h y) (op1 t (op2 s x)) (op2 t (op1 s x)) (op2 t (op2 s x)). intros. vec. }
    rewrite E. eapply Rle_trans; [apply nrm_plus|]. eapply Rle_trans; [apply Rplus_le_compat_l; apply nrm_plus|].
    eapply Rle_trans; [apply Rplus_le_compat_l; apply Rplus_le_compat_l; apply nrm_plus|].
    assert (T1 : nrm (minus z (app t h y)) <= K2 * (Ms + K1) * (a ^ 3 * nrm x)).
    { eapply Rle_trans; [exact H2|]. replace (K2 * (Ms + K1) * (a ^ 3 * nrm x)) with (K2 * a ^ 3 * ((Ms + K1) * nrm x)) by ring. apply Rmult_le_compat_l; [apply Rmult_le_pos; lra|exact Ny]. }
    assert (T2 : nrm (app t h (minus y (app s h x))) <= Mt * K1 * (a ^ 3 * nrm x)).
    { eapply Rle_trans; [apply (app_bound t h _ Hh1)|]. fold Mt. replace (Mt * K1 * (a ^ 3 * nrm x)) with (Mt * (K1 * a ^ 3 * nrm x)) by ring. apply Rmult_le_compat_l; [unfold Mt; lra|exact H1]. }
    assert (C1 : nrm (op1 t (op2 s x)) <= m1 t * m2 s * nrm x).
    { eapply Rle_trans; [apply op1_bound|]. rewrite Rmult_assoc. apply Rmult_le_compat_l; auto. apply op2_bound. }
    assert (C2 : nrm (op2 t (op1 s x)) <= m2 t * m1 s * nrm x).
    { eapply Rle_trans; [apply op2_bound|]. rewrite Rmult_assoc. apply Rmult_le_compat_l; auto. apply op1_bound. }
    assert (C3 : nrm (op2 t (op2 s x)) <= m2 t * m2 s * nrm x).
    { eapply Rle_trans; [apply op2_bound|]. rewrite Rmult_assoc. apply Rmult_le_compat_l; auto. apply op2_bound. }
    assert (C12 : nrm (plus (op1 t (op2 s x)) (op2 t (op1 s x))) <= (m1 t * m2 s + m2 t * m1 s) * nrm x) by (eapply Rle_trans; [apply nrm_plus|]; lra).
    pose proof (nrm_scal_le (h ^ 3) _ _ C12) as T3. pose proof (nrm_scal_le (h ^ 4) _ _ C3) as T4. rewrite <- RPow_abs in T3, T4. fold a in T3, T4.
    assert (T5 : a ^ 4 * (m2 t * m2 s * nrm x) <= a ^ 3 * (m2 t * m2 s * nrm x)).
    { apply Rmult_le_compat_r; [apply Rmult_le_pos; auto|]. change (a ^ 4) with (a * a ^ 3). nra. }
    eapply Rle_trans; [apply Rplus_le_compat; [exact T1|apply Rplus_le_compat; [exact T2|apply Rplus_le_compat; [exact T3|eapply Rle_trans; [exact T4|exact T5]]]]|].
    right. ring.
Qed.
Lemma approx_sub : forall (R1 R2 : R -> W -> W -> Prop) t, (forall h x y, R1 h x y -> R2 h x y) -> approx R2 t -> approx R1 t.
Proof. intros R1 R2 t H (K & d & HK & Hd & HR). exists K, d. split; auto. Qed.

Definition expA (a : R) : words := mkW a 0 (a ^ 2 / 2) 0 0 0.
Definition expB (b : R) : words := mkW 0 b 0 0 0 (b ^ 2 / 2).
Definition done {S} (step : S -> W -> R -> S * W) (a : R) : R -> W -> W -> Prop := fun h x y => exists s, y = snd (step s x (a * h)).
Lemma accurate_approx : forall {S} (step : S -> V -> R -> S * V) (L : V -> V) (t : words) a,
  accurate 2 step L -> (forall h x, app t h x = taylor 2 L L x (a * h)) -> approx (done step a) t.
Proof.
  intros S step L t a (K & d & Hd & H) E.
  exists (Rabs K * (Rabs a) ^ 3), (Rmin 1 (d / (Rabs a + 1))). pose proof (Rabs_pos a) as Pa.
  assert (Pd : 0 < d / (Rabs a + 1)) by (apply Rdiv_lt_0_compat; lra).
  split; [apply Rmult_le_pos; [apply Rabs_pos|apply pow_le; auto]|]. split; [split; [apply Rmin_pos; lra|apply Rmin_l]|].
  intros h x y Hh (s & ->). pose proof (Rmin_r 1 (d / (Rabs a + 1))) as Hr. assert (Hh' : Rabs h <= d / (Rabs a + 1)) by lra.
  assert (Hah : Rabs (a * h) <= d).
  { rewrite Rabs_mult. apply Rle_trans with (Rabs a * (d / (Rabs a + 1))); [apply Rmult_le_compat_l; auto|].
    apply Rle_trans with ((Rabs a + 1) * (d / (Rabs a + 1))); [apply Rmult_le_compat_r; lra|]. right. field. lra. }
  specialize (H s (a * h) x Hah). rewrite E. eapply Rle_trans; [exact H|]. change (2 + 1)%nat with 3%nat. rewrite Rabs_mult, Rpow_mult_distr.
  pose proof (Rle_abs K). pose proof (npos x). unfold nrm.
  replace (Rabs K * Rabs a ^ 3 * Rabs h ^ 3 * norm x) with (Rabs K * (Rabs a ^ 3 * Rabs h ^ 3 * norm x)) by ring.
  replace (K * (Rabs a ^ 3 * Rabs h ^ 3) * norm x) with (K * (Rabs a ^ 3 * Rabs h ^ 3 * norm x)) by ring.
  apply Rmult_le_compat_r; auto. apply Rmult_le_pos; [apply Rmult_le_pos; apply pow_le; apply Rabs_pos|auto].
Qed.
Lemma app_expA : forall a h x, app (expA a) h x = taylor 2 A A x (a * h).
Proof. intros. rewrite taylor2. unfold app, op1, op2, expA. cbn [cA cB cAA cAB cBA cBB]. generalize (A (A x)) (A (B x)) (B (A x)) (B (B x)) (A x) (B x). intros. vec. Qed.
Lemma app_expB : forall a h x, app (expB a) h x = taylor 2 B B x (a * h).
Proof. intros. rewrite taylor2. unfold app, op1, op2, expB. cbn [cA cB cAA cAB cBA cBB]. generalize (A (A x)) (A (B x)) (B (A x)) (B (B x)) (A x) (B x). intros. vec. Qed.

Definition expAB : words := mkW 1 1 (/ 2) (/ 2) (/ 2) (/ 2).
Lemma app_expAB : forall h x, app expAB h x = taylor 2 (fun y => plus (A y) (B y)) (fun y => plus (A y) (B y)) x h.
Proof.
  intros. rewrite taylor2. pose proof A_plus as Ap. pose proof B_plus as Bp. unfold app, op1, op2, expAB. cbn [cA cB cAA cAB cBA cBB].
  inst. rewrite Ap, Bp. generalize (A (A x)) (A (B x)) (B (A x)) (B (B x)) (A x) (B x). intros. vec.
Qed.
Lemma approx_accurate : forall {S} (step : S -> V -> R -> S * V), approx (done step 1) expAB -> accurate 2 step (fun y => plus (A y) (B y)).
Proof.
  intros S step (K & d & HK & Hd & H). exists K, d. split; [lra|]. intros s h Q Hh.
  specialize (H h Q (snd (step s Q h)) Hh). rewrite app_expAB in H. apply H. exists s. rewrite Rmult_1_l. reflexivity.
Qed.

Lemma strang_accurate : forall {S1 S2} (step1 : S1 -> V -> R -> S1 * V) (step2 : S2 -> V -> R -> S2 * V),
  accurate 2 step1 A -> accurate 2 step2 B -> accurate 2 (fun s Q h => strang step1 step2 (fst s) (snd s) Q h) (fun y => plus (A y) (B y)).
Proof.
  intros S1 S2 step1 step2 H1 H2. apply approx_accurate.
  pose proof (accurate_approx step1 A (expA (1 / 2)) (1 / 2) H1 (app_expA (1 / 2))) as G1.
  pose proof (accurate_approx step2 B (expB 1) 1 H2 (app_expB 1)) as G2.
  pose proof (approx_compose _ _ _ _ (approx_compose _ _ _ _ G1 G2) G1) as G.
  replace (mul (expA (1 / 2)) (mul (expB 1) (expA (1 / 2)))) with expAB in G.
  - eapply approx_sub; [|exact G]. intros h x y ([s1 s2] & ->). cbn [fst snd]. rewrite Rmult_1_l.
    destruct (strang_result step1 step2 s1 s2 x h) as (s1' & Es).
    exists (snd (step2 s2 (snd (step1 s1 x (h / 2))) h)). split.
    + exists (snd (step1 s1 x (h / 2))). split; [exists s1; replace (1 / 2 * h) with (h / 2) by field; reflexivity|].
      exists s2. rewrite Rmult_1_l. reflexivity.
    + exists s1'. replace (1 / 2 * h) with (h / 2) by field. exact Es.
  - unfold mul, expA, expB, expAB. cbn [cA cB cAA cAB cBA cBB]. f_equal; field.
Qed.
Lemma os22_accurate : forall {S1 S2} (step1 : S1 -> V -> R -> S1 * V) (step2 : S2 -> V -> R -> S2 * V) p, p <> 1 ->
  accurate 2 step1 A -> accurate 2 step2 B -> accurate 2 (fun s Q h => os22 step1 step2 p (fst s) (snd s) Q h) (fun y => plus (A y) (B y)).
Proof.
  intros S1 S2 step1 step2 p Hp H1 H2. assert (Hd : 2 * p - 2 <> 0) by (intros E; apply Hp; lra). apply approx_accurate.
  set (a := (2 * p - 1) / (2 * p - 2)). set (b := 1 - p). set (c := - 1 / (2 * p - 2)). set (d := p).
  pose (same := fun (h : R) (x y : W) => y = x).
  assert (S0 : forall t, (forall h x, app t h x = x) -> approx same t).
  { intros t Ht. exists 0, 1. split; [lra|]. split; [lra|]. intros h x y _ ->. rewrite Ht. replace (minus x x) with (zero : W) by (symmetry; apply minus_eq_zero).
    assert (N0 : nrm zero = 0) by exact (norm_zero (V := V)). rewrite N0. lra. }
  assert (E0 : forall h x, app (expA 0) h x = x).
  { intros. rewrite app_expA, taylor2. replace (0 * h) with 0 by ring. generalize (A (A x)) (A x). intros. vec. }
  assert (E1 : forall h x, app (expB 0) h x = x).
  { intros. rewrite app_expB, taylor2. replace (0 * h) with 0 by ring. generalize (B (B x)) (B x). intros. vec. }
  pose (RA := fun k h x y => if Req_EM_T k 0 then same h x y else done step1 k h x y).
  pose (RB := fun k h x y => if Req_EM_T k 0 then same h x y else done step2 k h x y).
  assert (GA : forall k, approx (RA k) (expA k)).
  { intros k. unfold RA. destruct (Req_EM_T k 0) as [->|N]; [apply S0; exact E0|]. apply (accurate_approx step1 A (expA k) k H1 (app_expA k)). }
  assert (GB : forall k, approx (RB k) (expB k)).
  { intros k. unfold RB. destruct (Req_EM_T k 0) as [->|N]; [apply S0; exact E1|]. apply (accurate_approx step2 B (expB k) k H2 (app_expB k)). }
  pose proof (approx_compose _ _ _ _ (approx_compose _ _ _ _ (approx_compose _ _ _ _ (GA a) (GB b)) (GA c)) (GB d)) as G.
  replace (mul (expB d) (mul (expA c) (mul (expB b) (expA a)))) with expAB in G.
  - eapply approx_sub; [|exact G]. intros h x y ([s1 s2] & ->). cbn [fst snd]. rewrite Rmult_1_l.
    destruct (os22_result step1 step2 p s1 s2 x h) as (q1 & q2 & q3 & Ra & Rb & Rc & Rd).
    exists q3. split; [|exact Rd]. exists q2. split; [|exact Rc]. exists q1. split; [exact Ra|exact Rb].
  - unfold mul, expA, expB, expAB, a, b, c, d. cbn [cA cB cAA cAB cBA cBB]. f_equal; field; lra.
Qed.

Lemma lie_accurate : forall {S1 S2} (step1 : S1 -> V -> R -> S1 * V) (step2 : S2 -> V -> R -> S2 * V),
  accurate 1 step1 A -> accurate 1 step2 B -> accurate 1 (fun s Q h => lie step1 step2 (fst s) (snd s) Q h) (fun y => plus (A y) (B y)).
Proof.
  intros S1 S2 step1 step2 (K1 & d1 & Hd1 & H1) (K2 & d2 & Hd2 & H2).
  exists (Rabs K2 * (1 + lam + Rabs K1) + (1 + lam) * Rabs K1 + lam ^ 2), (Rmin 1 (Rmin d1 d2)). split; [repeat apply Rmin_pos; lra|].
  intros [s1 s2] h x Hh. cbn [fst snd]. pose proof (Rmin_l 1 (Rmin d1 d2)). pose proof (Rmin_r 1 (Rmin d1 d2)). pose proof (Rmin_l d1 d2). pose proof (Rmin_r d1 d2).
  rewrite lie_result. set (y := snd (step1 s1 x h)). set (z := snd (step2 s2 y h)).
  pose proof (H1 s1 h x ltac:(lra)) as N1. pose proof (H2 s2 h y ltac:(lra)) as N2. fold y in N1. fold z in N2. change (1 + 1)%nat with 2%nat in *. rewrite taylor1 in N1, N2. rewrite taylor1.
  set (a := Rabs h) in *. assert (Ha : 0 <= a <= 1) by (split; [apply Rabs_pos|lra]). assert (A2 : 0 <= a ^ 2 <= a) by (cbn; nra).
  pose proof (npos x) as Px. pose proof (npos y) as Py. pose proof (Rle_abs K1) as L1. pose proof (Rle_abs K2) as L2. pose proof (Rabs_pos K1) as P1. pose proof (Rabs_pos K2) as P2.
  pose (e1 := minus y (plus x (scal (V := W) h (A x))) : W). change (nrm e1 <= K1 * a ^ 2 * nrm x) in N1.
  pose (e2 := minus z (plus y (scal (V := W) h (B y))) : W). change (nrm e2 <= K2 * a ^ 2 * nrm y) in N2.
  assert (N1' : nrm e1 <= Rabs K1 * a ^ 2 * nrm x) by (eapply Rle_trans; [exact N1|]; apply Rmult_le_compat_r; auto; apply Rmult_le_compat_r; lra).
  assert (N2' : nrm e2 <= Rabs K2 * a ^ 2 * nrm y) by (eapply Rle_trans; [exact N2|]; apply Rmult_le_compat_r; auto; apply Rmult_le_compat_r; lra).
  assert (NA : nrm (scal (V := W) h (A x)) <= a * (lam * nrm x)) by (apply nrm_scal_le; apply BA).
  assert (Lx : 0 <= lam * nrm x) by (apply Rmult_le_pos; auto).
  assert (Ny : nrm y <= (1 + lam + Rabs K1) * nrm x).
  { replace (y : W) with (plus (plus x (scal (V := W) h (A x))) e1) by (unfold e1; generalize (A x); intros; vec).
    eapply Rle_trans; [apply nrm_plus|]. eapply Rle_trans; [apply Rplus_le_compat_r; apply nrm_plus|].
    assert (a * (lam * nrm x) <= lam * nrm x) by nra. assert (Rabs K1 * a ^ 2 * nrm x <= Rabs K1 * nrm x) by (apply Rmult_le_compat_r; auto; nra). lra. }
  assert (EB : B y = plus (plus (B x) (scal (V := W) h (B (A x)))) (B e1)).
  { replace (y : W) with (plus (plus x (scal (V := W) h (A x))) e1) by (unfold e1; generalize (A x); intros; vec). rewrite !B_plus, B_scal. reflexivity. }
  assert (E : minus z (plus x (scal (V := W) h (plus (A x) (B x)))) = plus (plus e2 (plus e1 (scal (V := W) h (B e1)))) (scal (V := W) (h ^ 2) (B (A x)))).
  { unfold e2. rewrite EB. generalize (B e1). unfold e1. generalize (A x) (B x) (B (A x)). intros. vec. }
  change (nrm (minus z (plus x (scal (V := W) h (plus (A x) (B x))))) <= (Rabs K2 * (1 + lam + Rabs K1) + (1 + lam) * Rabs K1 + lam ^ 2) * a ^ 2 * nrm x).
  assert (Be : nrm (scal (V := W) h (B e1)) <= a * (lam * nrm e1)) by (apply nrm_scal_le; apply BB).
  assert (Bx : nrm (scal (V := W) (h ^ 2) (B (A x))) <= Rabs (h ^ 2) * (lam * (lam * nrm x))).
  { apply nrm_scal_le. eapply Rle_trans; [apply BB|]. apply Rmult_le_compat_l; [exact Hl|apply BA]. }
  rewrite <- RPow_abs in Bx. fold a in Bx.
  assert (T1 : Rabs K2 * a ^ 2 * nrm y <= Rabs K2 * a ^ 2 * ((1 + lam + Rabs K1) * nrm x)) by (apply Rmult_le_compat_l; [apply Rmult_le_pos; lra|exact Ny]).
  assert (T2 : a * (lam * nrm e1) <= lam * (Rabs K1 * a ^ 2 * nrm x)).
  { apply Rle_trans with (lam * nrm e1); [|apply Rmult_le_compat_l; auto]. pose proof (nrm_pos e1). assert (0 <= lam * nrm e1) by (apply Rmult_le_pos; auto). nra. }
  inst. rewrite E. eapply Rle_trans; [apply nrm_plus|]. eapply Rle_trans; [apply Rplus_le_compat_r; apply nrm_plus|].
  eapply Rle_trans; [apply Rplus_le_compat_r; apply Rplus_le_compat_l; apply nrm_plus|]. lra.
Qed.
End Words.
