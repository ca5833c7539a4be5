From Coq Require Import Reals List Lra Lia FunctionalExtensionality.
From Coquelicot Require Import Hierarchy Series Derive Complex ElemFct PSeries Rbar Lim_seq.
From Verif Require Import StepModel StepSpec StepProofs StepOrder StepSplit StepWords.
Import ListNotations.
Local Open Scope R_scope.
Notation space := NormedModule.ModuleSpace.

(** exact for functions of degree one *)
Definition secant (g : R -> R) (x0 : R) : R := x0 - g x0 / (g (x0 + 1) - g x0).
Definition linear_secant (A : R -> R) (b x0 : R) : R := x0 + (b - A x0) / (A (x0 + 1) - A x0).

Lemma secant_solves : solves_const (V := R_NormedModule) secant 1.
Proof.
  split; intros; unfold secant, g, bdf2_fun, bdf2_start_fun, plus, minus, scal, opp, zero, plus, mult; cbn; unfold mult; cbn; field; repeat split; auto; try lra.
  all: try (intros E; field_simplify_eq in E; auto; lra).
Qed.
Lemma bdf2_start_wrong : exists newton, solves_const (V := R_NormedModule) newton 1 /\ forall k n h, (1 <= k)%nat -> (1 <= n)%nat -> h <> 0 ->
  snd (iterate (bdf2 (V := space _ R_NormedModule) newton (fun _ => 1) k) n None 0 h) <> INR n * h.
Proof.
  exists secant. split; [exact secant_solves|]. intros k n h Hk Hn Hh E. rewrite (bdf2_const (V := R_NormedModule) secant 1 secant_solves k 0 h n Hk Hh) in E.
  unfold plus, scal in E; cbn in E. unfold mult in E; cbn in E. rewrite Rplus_0_l, Rmult_1_r in E. apply Rmult_eq_reg_r in E; auto.
  assert (P : (1 / 3) ^ n <= 1 / 3).
  { destruct n as [|m]; [lia|]. cbn [pow]. assert ((1 / 3) ^ m <= 1) by (pose proof (pow_incr (1 / 3) 1 m) as HH; rewrite pow1 in HH; apply HH; lra). lra. }
  lra.
Qed.
Lemma bdf2_change_wrong : exists newton, solves_const (V := R_NormedModule) newton 1 /\ forall k Q h1 h2, h2 <> 0 -> h1 <> h2 ->
  snd (bdf2 (V := space _ R_NormedModule) newton (fun _ => 1) k (Some (Q - h1)) Q h2) <> Q + h2.
Proof.
  exists secant. split; [exact secant_solves|]. intros k Q h1 h2 H2 NE E. pose proof (f_equal snd (bdf2_step_const (V := R_NormedModule) secant 1 secant_solves k Q (Q - h1) h2 H2)) as G. cbn [snd] in G.
  pose proof (eq_trans (eq_sym G) E) as E'. clear E; rename E' into E.
  unfold plus, scal, minus, plus, opp in E; cbn in E. unfold mult in E; cbn in E. apply NE. lra.
Qed.
Lemma ex_affine : affine (V := R_NormedModule) (fun x => 1 - x) (fun x => - x) /\ bounded (V := R_NormedModule) (fun x => - x) 1 /\
  complexified (V := R_NormedModule) (fun x => 1 - x) (fun x => - x) (fun z => (1 - fst z, - snd z)).
Proof.
  split; [|split].
  - split; [split|].
    + intros x y. unfold plus; cbn. ring.
    + intros a x. unfold scal; cbn. unfold mult; cbn. ring.
    + exists 1. intros x. unfold plus; cbn. ring.
  - intros x. unfold norm; cbn. unfold abs; cbn. rewrite Rabs_Ropp. lra.
  - intros x y. reflexivity.
Qed.
Lemma secant_affine : forall (g : R -> R) a b Q, (forall x, g x = a * x + b) -> a <> 0 -> g (secant g Q) = 0.
Proof. intros g a b Q H Ha. unfold secant. rewrite !H. replace (a * (Q + 1) + b - (a * Q + b)) with a by ring. field. auto. Qed.
Lemma norm0 : forall x : R, x = 0 -> norm (V := R_NormedModule) x <= 0.
Proof. intros x ->. unfold norm; cbn. unfold abs; cbn. rewrite Rabs_R0. lra. Qed.
Ltac unf := unfold small, secant, linear_secant, crank_nicolson, backward_euler, cn_fun, be_fun, imex_fun, bdf2_fun, ros2, ros2_A, ros2_b, matvec_rat, plus, minus, scal, opp, mult; cbn; unfold mult, plus; cbn.
Lemma ex_solvers : forall Q h, 0 < h -> h <= / 2 ->
  small (V := R_NormedModule) (cn_fun (V := space _ R_NormedModule) (fun x => 1 - x) Q h) (crank_nicolson (V := space _ R_NormedModule) secant (fun x => 1 - x) Q h) 0 /\
  small (V := R_NormedModule) (be_fun (V := space _ R_NormedModule) (fun x => 1 - x) Q h) (backward_euler (V := space _ R_NormedModule) secant (fun x => 1 - x) Q h) 0 /\
  (let g := imex_fun (V := space _ R_NormedModule) (fun _ => 1) (fun x => - x) Q h in small (V := R_NormedModule) g (secant g Q) 0) /\
  (forall P, let g := bdf2_fun (V := space _ R_NormedModule) (fun x => 1 - x) Q P h in small (V := R_NormedModule) g (secant g Q) 0) /\
  (let f := fun x => 1 - x in norm (V := R_NormedModule) (minus (ros2_b (V := space _ R_NormedModule) f Q h) (ros2_A (V := space _ R_NormedModule) f Q h
     (ros2 (V := space _ R_NormedModule) linear_secant f Q h))) <= 0).
Proof.
  intros Q h H0 H1. pose proof eps_fd_pos as Pe. split; [|split; [|split; [|split]]].
  - apply norm0. unfold crank_nicolson. apply secant_affine with (a := / h + 1 / 2) (b := - / h * Q - 1 + Q / 2); [intros x; unf; field; lra|]. pose proof (Rinv_0_lt_compat h H0). lra.
  - apply norm0. unfold backward_euler. apply secant_affine with (a := / h + 1) (b := - / h * Q - 1); [intros x; unf; field; lra|]. pose proof (Rinv_0_lt_compat h H0). lra.
  - apply norm0. apply secant_affine with (a := 1 + h / 2) (b := - (Q + h / 2)); [intros x; unf; field; lra|]. lra.
  - intros P. apply norm0. apply secant_affine with (a := / h + 2 / 3) (b := / h * (1 / 3 * P - 4 / 3 * Q) - 2 / 3); [intros x; unf; field; lra|]. pose proof (Rinv_0_lt_compat h H0). lra.
  - apply norm0.
    assert (EA : forall v, ros2_A (V := space _ R_NormedModule) (fun x => 1 - x) Q h v = v * (1 + h / 2)) by (intros v; unf; field; lra).
    unfold ros2, ros2_b. unfold linear_secant. rewrite !EA. unf. field. lra.
Qed.
Lemma ex_accurate : accurate (V := R_NormedModule) (S := unit) 2 (fun s Q h => (s, Q - h * Q + h ^ 2 / 2 * Q)) (fun x => - x) /\
  accurate (V := R_NormedModule) (S := unit) 1 (fun s Q h => (s, Q - h * Q)) (fun x => - x).
Proof.
  assert (Z : forall h x p y, y = 0 -> norm (V := R_NormedModule) y <= 0 * Rabs h ^ p * norm (V := R_NormedModule) x).
  { intros h x p y ->. rewrite !Rmult_0_l. apply norm0. reflexivity. }
  split; exists 0, 1; (split; [lra|]); intros s h Q _; cbn [snd].
  - rewrite (taylor2 (V := R_NormedModule) (fun x => - x) (fun x => - x)). apply Z. unf. field.
  - rewrite (taylor1 (V := R_NormedModule) (fun x => - x) (fun x => - x)). apply Z. unf. ring.
Qed.
Lemma ex_phi : forall Q h, phi (V := R_NormedModule) 1 (fun v => h * (- v - - v)) (1 - Q) (1 - Q).
Proof.
  intros Q h. unfold phi, is_series. set (a := fun j : nat => _).
  apply filterlim_ext with (fun _ : nat => 1 - Q).
  - intros n. induction n as [|n IH].
    + rewrite sum_O. unfold a. cbn. unfold scal; cbn. unfold mult; cbn. field.
    + rewrite sum_Sn, <- IH. unfold a. cbn [power]. unfold scal, plus; cbn. unfold mult; cbn. ring.
  - apply filterlim_const.
Qed.
(** the exponential solver for real numbers *)
Definition exp_solver (J : R -> R) (a b : R) : R := exp (J 1) * a + (exp (J 1) - 1) / J 1 * b.
Lemma power_scal : forall k j (x : R), power (V := R_NormedModule) (fun v => k * v) j x = k ^ j * x.
Proof. intros k j x. induction j as [|j IH]; cbn [power pow]; [symmetry; apply Rmult_1_l|]. rewrite IH. symmetry; apply Rmult_assoc. Qed.
Lemma ex_exponential : forall h, h <> 0 -> exponential (V := R_NormedModule) exp_solver (fun v => h * (- v - 0 * v)) 0.
Proof.
  intros h Hh J a b EJ. set (k := - h). assert (E : J = fun v => k * v) by (apply functional_extensionality; intros v; rewrite EJ; unfold k; change (h * (- v - 0 * v) = - h * v); ring). subst J. clear EJ.
  assert (Hk : k <> 0) by (unfold k; lra). exists (exp k * a), ((exp k - 1) / k * b).
  pose proof (is_exp_Reals k) as P.  unfold PSeries.is_pseries in P. split; [|split].
  - unfold phi. apply (is_series_ext (fun j => scal (scal (pow_n k j) (/ INR (fact j))) a)).
    + intros j. rewrite Nat.add_0_r. rewrite power_scal. rewrite pow_n_pow. change (k ^ j * / INR (fact j) * a = / INR (fact j) * (k ^ j * a)). ring.
    + apply (is_series_scal_r a) in P. eapply is_series_ext; [|exact P]. intros j. rewrite pow_n_pow. change (k ^ j * / INR (fact j) * a = k ^ j * / INR (fact j) * a). reflexivity.
  - unfold phi. assert (P1 : is_series (fun j => scal (pow_n k (S j)) (/ INR (fact (S j)))) (exp k - 1)).
    { apply (is_series_incr_1 (K := R_AbsRing) (V := R_NormedModule) (fun j => scal (pow_n k j) (/ INR (fact j))) (exp k - 1)).
      replace (plus (exp k - 1) _) with (exp k); [exact P|]. unfold plus, scal; cbn. unfold mult, one; cbn. field. }
    apply (is_series_scal_r (/ k * b)) in P1. unfold Rdiv. replace ((exp k - 1) * / k * b) with ((exp k - 1) * (/ k * b)) by ring.
    eapply is_series_ext; [|exact P1]. intros j. cbv beta. rewrite power_scal, pow_n_pow. replace (j + 1)%nat with (S j) by lia. change (k ^ S j * / INR (fact (S j)) * (/ k * b) = / INR (fact (S j)) * (k ^ j * b)). cbn [pow].
    field. split; auto. apply INR_fact_neq_0.
  - unfold exp_solver. rewrite Rmult_1_r. match goal with |- norm ?x <= 0 => replace x with (zero (G := R_NormedModule)) end; [rewrite norm_zero; lra|].
    symmetry. apply minus_eq_zero.
Qed.
