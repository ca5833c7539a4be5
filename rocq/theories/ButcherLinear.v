(** The step of a Runge-Kutta method on a linear problem with polynomial forcing, expanded in powers of the step size.  Proofs for C30. *)
From Coq Require Import Reals List Lra Lia Arith.
From Coquelicot Require Import Hierarchy.
From Verif Require Import RkModel RkSpec RkProofs VecTac ButcherTables ButcherModel ButcherSpec ButcherCheck.
Import ListNotations.
Local Open Scope R_scope.

Ltac asR := match goal with |- ?x = ?y => change (x = y :> R) end.
Section Sums.
Context {V : ModuleSpace R_Ring}.
Implicit Types (f g : nat -> V).

Lemma vsum_plus : forall n f g, vsum n (fun i => plus (f i) (g i)) = plus (vsum n f) (vsum n g).
Proof. induction n; intros f g; cbn [vsum]; [rewrite plus_zero_l; reflexivity|]. rewrite IHn. vec. Qed.
Lemma vsum_scal : forall n (k : R) f, vsum n (fun i => scal (V := V) k (f i)) = scal (V := V) k (vsum n f).
Proof. induction n; intros k f; cbn [vsum]; [rewrite (scal_zero_r (V := V) k); reflexivity|]. rewrite IHn. vec. Qed.
Lemma vsum_scal_l : forall n (r : nat -> R) (x : V), vsum n (fun i => scal (V := V) (r i) x) = scal (V := V) (rsum n r) x.
Proof.
  induction n; intros r x; cbn [vsum rsum]; [symmetry; exact (scal_zero_l x)|]. rewrite IHn. vec.
Qed.
Lemma vsum_zero : forall n f, (forall i, (i < n)%nat -> f i = zero) -> vsum n f = zero.
Proof. induction n; intros f H; cbn [vsum]; [reflexivity|]. rewrite IHn, H by auto with arith. apply plus_zero_l. Qed.
Lemma vsum_app : forall n m f, vsum (n + m) f = plus (vsum n f) (vsum m (fun i => f (n + i)%nat)).
Proof.
  induction m; intros f; cbn [vsum]; [rewrite Nat.add_0_r, plus_zero_r; reflexivity|].
  rewrite Nat.add_succ_r. cbn [vsum]. rewrite IHm. rewrite <- plus_assoc. reflexivity.
Qed.
Lemma vsum_longer : forall n m f, (n <= m)%nat -> (forall i, (n <= i < m)%nat -> f i = zero) -> vsum m f = vsum n f.
Proof.
  intros n m f L H. replace m with (n + (m - n))%nat by lia. rewrite vsum_app.
  rewrite (vsum_zero (m - n)); [apply plus_zero_r|]. intros i Hi. apply H. lia.
Qed.
Lemma vsum_swap : forall n m (f : nat -> nat -> V), vsum n (fun i => vsum m (f i)) = vsum m (fun j => vsum n (fun i => f i j)).
Proof.
  induction n; intros m f; cbn [vsum]; [symmetry; apply vsum_zero; reflexivity|]. rewrite IHn. symmetry. apply vsum_plus.
Qed.
Lemma vsum_tri : forall M (f : nat -> nat -> V), vsum M (fun n => vsum (S n) (fun k => f k (n - k)%nat)) = vsum M (fun k => vsum (M - k) (f k)).
Proof.
  induction M; intros f; [reflexivity|].
  change (vsum (S M) (fun n => vsum (S n) (fun k => f k (n - k)%nat))) with
    (plus (vsum M (fun n => vsum (S n) (fun k => f k (n - k)%nat))) (vsum (S M) (fun k => f k (M - k)%nat))).
  rewrite IHM.
  transitivity (plus (vsum (S M) (fun k => vsum (M - k) (f k))) (vsum (S M) (fun k => f k (M - k)%nat))).
  - f_equal. change (vsum (S M) (fun k => vsum (M - k) (f k))) with (plus (vsum M (fun k => vsum (M - k) (f k))) (vsum (M - M) (f M))).
    rewrite Nat.sub_diag. cbn [vsum]. rewrite plus_zero_r. reflexivity.
  - rewrite <- vsum_plus. apply vsum_ext. intros k Hk. replace (S M - k)%nat with (S (M - k)) by lia. reflexivity.
Qed.
End Sums.

Lemma rsum_sum : forall n (g : nat -> R), rsum (S n) g = sum_f_R0 g n.
Proof. induction n; intros g; [cbn; lra|]. cbn [rsum] in *. rewrite tech5, <- IHn. reflexivity. Qed.
Lemma pow_over_fact : forall q t s, (t + s) ^ q / INR (fact q) = rsum (S q) (fun j => s ^ j / INR (fact j) * (t ^ (q - j) / INR (fact (q - j)))).
Proof.
  intros q t s. rewrite Rplus_comm, binomial, <- rsum_sum. unfold Rdiv. rewrite Rmult_comm.
  assert (X : forall n (k : R) g, k * rsum n g = rsum n (fun i => k * g i)) by (induction n; intros; cbn [rsum]; [ring|rewrite Rmult_plus_distr_l, IHn; reflexivity]).
  rewrite X. apply rsum_ext. intros j Hj. unfold Binomial.C. pose proof (INR_fact_neq_0 j). pose proof (INR_fact_neq_0 (q - j)). pose proof (INR_fact_neq_0 q).
  field. auto.
Qed.

Section Linear.
Context {V : ModuleSpace R_Ring}.
Variables (A : V -> V) (u : list V) (tt : R) (yy : V).
Hypothesis LinA : linear_map A.

Lemma A_zero : A zero = zero.
Proof.
  destruct LinA as [_ H]. pose proof (H 0 zero) as E. rewrite (scal_zero_r (V := V)) in E. rewrite E. exact (scal_zero_l _).
Qed.
Lemma A_vsum : forall n f, A (vsum n f) = vsum n (fun i => A (f i)).
Proof. destruct LinA as [H _]. induction n; intros f; cbn [vsum]; [apply A_zero|]. rewrite H, IHn. reflexivity. Qed.
Lemma iter_zero : forall k, Nat.iter k A zero = zero.
Proof. induction k; [reflexivity|]. change (Nat.iter (S k) A zero) with (A (Nat.iter k A zero)). rewrite IHk. apply A_zero. Qed.

Notation q := (length u - 1)%nat.
Lemma forcing_zero : forall j, (q <= j)%nat -> forcing u tt j = zero.
Proof. intros j H. unfold forcing. replace (q - j)%nat with 0%nat by lia. reflexivity. Qed.

Lemma forcing_taylor : forall s, vsum q (fun j => scal (V := V) ((tt + s) ^ j / INR (fact j)) (nth (j + 1) u zero)) =
  vsum (S q) (fun j => scal (V := V) (s ^ j / INR (fact j)) (forcing u tt j)).
Proof.
  intros s. cbn [vsum]. rewrite (forcing_zero q) by lia. rewrite (scal_zero_r (V := V)), plus_zero_r. unfold forcing.
  transitivity (vsum q (fun n => vsum (S n) (fun j => scal (V := V) (s ^ j / INR (fact j) * (tt ^ (n - j) / INR (fact (n - j)))) (nth (j + (n - j) + 1) u zero)))).
  - apply vsum_ext. intros n _. rewrite pow_over_fact. rewrite <- vsum_scal_l. apply vsum_ext. intros j Hj. do 2 f_equal. lia.
  - rewrite (vsum_tri q (fun j i => scal (V := V) (s ^ j / INR (fact j) * (tt ^ i / INR (fact i))) (nth (j + i + 1) u zero))).
    apply vsum_ext. intros j _. rewrite <- vsum_scal. apply vsum_ext. intros i _. apply scal_Rmult.
Qed.

(** The slope and the derivatives of the forcing *)
Notation g' := (fun j => part A u tt yy 0 j).
Lemma slope_split : phi_problem A u tt yy = plus (A yy) (forcing u tt 0).
Proof. unfold phi_problem, forcing. rewrite Nat.sub_0_r. reflexivity. Qed.
Lemma part_S : forall k j, part A u tt yy (S k) j = A (part A u tt yy k j).
Proof. reflexivity. Qed.
Lemma part_zero : forall k j, (S q <= j)%nat -> part A u tt yy k j = zero.
Proof. intros k [|j] H; [lia|]. unfold part. rewrite forcing_zero by lia. apply iter_zero. Qed.

Lemma problem_at : forall s d, phi_problem A u (tt + s) (plus yy d) = plus (A d) (vsum (S q) (fun j => scal (V := V) (s ^ j / INR (fact j)) (g' j))).
Proof.
  intros s d. unfold phi_problem at 1. rewrite forcing_taylor. destruct LinA as [HA _]. rewrite HA, !vsum_shift.
  set (r := vsum q (fun j => scal (V := V) (s ^ S j / INR (fact (S j))) (forcing u tt (S j)))).
  assert (E : vsum q (fun j => scal (V := V) (s ^ S j / INR (fact (S j))) (part A u tt yy 0 (S j))) = r) by reflexivity.
  rewrite E. change (part A u tt yy 0 0) with (phi_problem A u tt yy). rewrite slope_split.
  change (s ^ 0 / INR (fact 0)) with (1 / 1). replace (1 / 1) with 1 by field. vec.
Qed.

(** Stages of a method with N stages *)
Section Stages.
Variables (N : nat) (a : nat -> nat -> R) (c : nat -> R) (K : nat -> V) (h : R).
Hypothesis Lower : forall i j, (i < N)%nat -> (i <= j)%nat -> a i j = 0.
Hypothesis HK : forall i, (i < N)%nat ->
  K i = phi_problem A u (tt + c i * h) (plus yy (scal (V := V) h (vsum i (fun j => scal (V := V) (a i j) (K j))))).

Fixpoint pw (k j i : nat) : R := match k with O => c i ^ j | S k' => rsum N (fun l => a i l * pw k' j l) end.
Lemma pw_lower : forall k j i, (i < N)%nat -> pw (S k) j i = rsum i (fun l => a i l * pw k j l).
Proof.
  intros k j i Hi. cbn [pw]. replace N with (i + (N - i))%nat by lia.
  assert (X : forall n m g, (forall l, (n <= l)%nat -> g l = 0) -> rsum (n + m) g = rsum n g).
  { intros n m g H. induction m; [rewrite Nat.add_0_r; reflexivity|]. rewrite Nat.add_succ_r. cbn [rsum]. rewrite IHm, H by lia. lra. }
  rewrite X; [reflexivity|]. intros l Hl. rewrite Lower by lia. ring.
Qed.
Lemma pw_nilpotent : forall k j i, (i < N)%nat -> (i < k)%nat -> pw k j i = 0.
Proof.
  induction k; intros j i Hi Hk; [lia|]. rewrite pw_lower by exact Hi. apply rsum_0. intros l Hl. rewrite IHk by lia. ring.
Qed.

Definition term (w : nat -> nat -> R) (k j : nat) : V := scal (V := V) (h ^ (k + j) * (w k j / INR (fact j))) (part A u tt yy k j).

Lemma stage_expand : forall M i, (i < N)%nat -> (i < M)%nat -> K i = vsum M (fun k => vsum (S q) (fun j => term (fun k j => pw k j i) k j)).
Proof.
  induction M; intros i Hi HM; [lia|]. rewrite HK by exact Hi. rewrite problem_at, (vsum_shift M). rewrite plus_comm. f_equal.
  - apply vsum_ext. intros j _. unfold term. cbn [pw]. rewrite Rpow_mult_distr, Nat.add_0_l. f_equal. asR. field. apply INR_fact_neq_0.
  - destruct LinA as [_ HS]. rewrite HS, A_vsum.
    transitivity (scal (V := V) h (vsum i (fun l => vsum M (fun k => vsum (S q) (fun j =>
       scal (V := V) (a i l * (h ^ (k + j) * (pw k j l / INR (fact j)))) (part A u tt yy (S k) j)))))).
    + f_equal. apply vsum_ext. intros l Hl. rewrite HS. rewrite (IHM l) by lia. rewrite A_vsum, <- vsum_scal. apply vsum_ext. intros k _.
      rewrite A_vsum, <- vsum_scal. apply vsum_ext. intros j _. unfold term. rewrite HS, part_S. symmetry. apply scal_Rmult.
    + rewrite vsum_swap, <- vsum_scal. apply vsum_ext. intros k _. rewrite vsum_swap, <- vsum_scal. apply vsum_ext. intros j _.
      rewrite vsum_scal_l. unfold term. rewrite pw_lower by exact Hi. rewrite <- scal_Rmult. f_equal.
      assert (X : forall n (e r : R) f, rsum n (fun l => f l * (e * (pw k j l / r))) = e * (rsum n (fun l => f l * pw k j l) / r)).
      { induction n; intros e r f; cbn [rsum]; [unfold Rdiv; ring|]. rewrite IHn. unfold Rdiv. ring. }
      asR. rewrite X. cbn [Nat.add pow]. ring.
Qed.

(** A linear combination of the stages *)
Lemma combination : forall (w : nat -> R) p,
  let W := fun k j => rsum N (fun i => w i * pw k j i) in
  scal (V := V) h (vsum N (fun i => scal (V := V) (w i) (K i))) =
  plus (vsum p (fun n => scal (V := V) (h ^ S n) (perturbed A u tt yy (fun k j => W k j / INR (fact j)) n)))
       (higher (S p) (N + S q) (fun i => perturbed A u tt yy (fun k j => W k j / INR (fact j)) (p + i)) h).
Proof.
  intros w p W. set (M := (p + (N + S q))%nat).
  assert (E1 : vsum N (fun i => scal (V := V) (w i) (K i)) = vsum N (fun k => vsum (S q) (fun j => term W k j))).
  { transitivity (vsum N (fun i => vsum N (fun k => vsum (S q) (fun j => scal (V := V) (w i * (h ^ (k + j) * (pw k j i / INR (fact j)))) (part A u tt yy k j))))).
    - apply vsum_ext. intros i Hi. rewrite (stage_expand N i Hi Hi), <- vsum_scal. apply vsum_ext. intros k _. rewrite <- vsum_scal.
      apply vsum_ext. intros j _. unfold term. symmetry. apply scal_Rmult.
    - rewrite vsum_swap. apply vsum_ext. intros k _. rewrite vsum_swap. apply vsum_ext. intros j _. rewrite vsum_scal_l. unfold term, W. f_equal.
      generalize (h ^ (k + j)). intros e. generalize (INR (fact j)). intros r.
      assert (X : forall n, rsum n (fun i => w i * (e * (pw k j i / r))) = e * (rsum n (fun i => w i * pw k j i) / r)).
      { induction n; cbn [rsum]; [unfold Rdiv; ring|]. rewrite IHn. unfold Rdiv. ring. }
      apply X. }
  assert (E2 : vsum N (fun k => vsum (S q) (fun j => term W k j)) = vsum M (fun k => vsum (M - k) (fun j => term W k j))).
  { symmetry. rewrite (vsum_longer N M); [|unfold M; lia|].
    - apply vsum_ext. intros k Hk. apply vsum_longer; [unfold M; lia|]. intros j Hj. unfold term. rewrite part_zero by lia. apply scal_zero_r.
    - intros k Hk. apply vsum_zero. intros j _. unfold term.
      assert (Z : W k j = 0). { unfold W. apply rsum_0. intros i Hi. rewrite pw_nilpotent by lia. ring. }
      rewrite Z. unfold Rdiv. rewrite Rmult_0_l, Rmult_0_r. exact (scal_zero_l _). }
  assert (E3 : vsum M (fun k => vsum (M - k) (fun j => term W k j)) = vsum M (fun n => scal (V := V) (h ^ n) (perturbed A u tt yy (fun k j => W k j / INR (fact j)) n))).
  { rewrite <- vsum_tri. apply vsum_ext. intros n _. unfold perturbed. rewrite <- vsum_scal. apply vsum_ext. intros k Hk. unfold term.
    rewrite <- scal_Rmult. replace (k + (n - k))%nat with n by lia. reflexivity. }
  rewrite E1, E2, E3. unfold M. rewrite <- vsum_scal, vsum_app. f_equal.
  - apply vsum_ext. intros n _. rewrite <- scal_Rmult. reflexivity.
  - unfold higher. apply vsum_ext. intros i _. rewrite <- scal_Rmult. reflexivity.
Qed.
End Stages.

Lemma derivative_parts : forall n, derivative A u tt yy (S n) = perturbed A u tt yy (fun _ _ => 1) n.
Proof.
  unfold perturbed. induction n.
  - cbn [derivative vsum]. rewrite plus_zero_l. rewrite (scal_one (V := V)). symmetry. apply slope_split.
  - change (derivative A u tt yy (S (S n))) with (plus (A (derivative A u tt yy (S n))) (forcing u tt (S n))). rewrite IHn, (vsum_shift (S n)), plus_comm. f_equal.
    + symmetry. exact (scal_one (V := V) _).
    + rewrite A_vsum. apply vsum_ext. intros k _. destruct LinA as [_ HS]. rewrite HS. reflexivity.
Qed.
Lemma taylor_parts : forall p h, taylor A u tt yy p h = plus yy (vsum p (fun n => scal (V := V) (h ^ S n / INR (fact (S n))) (derivative A u tt yy (S n)))).
Proof.
  intros p h. unfold taylor. rewrite vsum_shift. f_equal. cbn [pow fact derivative INR]. replace (1 / 1) with 1 by field. exact (scal_one (V := V) _).
Qed.
Lemma perturbed_split : forall (d : nat -> nat -> R) (e : nat -> nat -> R) n, (forall k j, (k + j = n)%nat -> e k j = / INR (fact (S n)) + d k j) ->
  perturbed A u tt yy e n = plus (scal (V := V) (/ INR (fact (S n))) (derivative A u tt yy (S n))) (perturbed A u tt yy d n).
Proof.
  intros d e n H. rewrite derivative_parts. unfold perturbed. rewrite <- vsum_scal, <- vsum_plus. apply vsum_ext. intros k Hk.
  rewrite H by lia. rewrite scal_Rplus. f_equal. rewrite <- scal_Rmult, Rmult_1_r. reflexivity.
Qed.
End Linear.
