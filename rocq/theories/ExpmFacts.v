(** The square of the exponential of a half *)
From Coq Require Import Reals Arith Lra Lia.
From Coquelicot Require Import Coquelicot.
From Verif Require Import FgmresModel FgmresFacts PmexSpec.
Local Open Scope R_scope.

Lemma sum_to_rsum : forall n f, sum_to n f = rsum n f.
Proof. induction n as [|n IH]; intros; cbn; [reflexivity|now rewrite IH]. Qed.
Lemma mat_pow_ext : forall n H G, (forall i k, (i < n)%nat -> (k < n)%nat -> H i k = G i k) -> forall k i l, (i < n)%nat -> mat_pow n H k i l = mat_pow n G k i l.
Proof. intros n H G E. induction k as [|k IH]; intros i l I; cbn [mat_pow]; [reflexivity|]. rewrite !sum_to_rsum. apply rsum_ext. intros q Q. rewrite E, IH by assumption. reflexivity. Qed.
Lemma is_expm_ext : forall n H G F, (forall i k, (i < n)%nat -> (k < n)%nat -> H i k = G i k) -> is_expm n H F -> is_expm n G F.
Proof. intros n H G F E X i l I J. apply is_series_ext with (2 := X i l I J). intros k. now rewrite (mat_pow_ext n H G E). Qed.
Lemma mat_pow_scale : forall n c H k i l, mat_pow n (fun i k => c * H i k) k i l = c ^ k * mat_pow n H k i l.
Proof.
  intros n c H. induction k as [|k IH]; intros i l; cbn [mat_pow pow]; [ring|]. rewrite !sum_to_rsum, <- rsum_scal. apply rsum_ext. intros q _. rewrite IH. ring.
Qed.
Lemma rsum_swap : forall n m (f : nat -> nat -> R), rsum n (fun i => rsum m (f i)) = rsum m (fun k => rsum n (fun i => f i k)).
Proof.
  induction n as [|n IH]; intros m f; cbn [rsum]; [symmetry; now apply rsum_zero|]. rewrite IH, <- rsum_plus. reflexivity.
Qed.
Lemma mat_pow_add : forall n H a b i l, (i < n)%nat -> mat_pow n H (a + b) i l = rsum n (fun q => mat_pow n H a i q * mat_pow n H b q l).
Proof.
  intros n H a b. induction a as [|a IH]; intros i l I; cbn [mat_pow Nat.add].
  - rewrite (rsum_delta n i) by (auto; intros q _ N; replace (i =? q)%nat with false by (symmetry; apply Nat.eqb_neq; auto); ring). rewrite Nat.eqb_refl. ring.
  - rewrite sum_to_rsum. rewrite (rsum_ext n _ (fun q => rsum n (fun t => H i q * (mat_pow n H a q t * mat_pow n H b t l)))) by (intros q Q; now rewrite IH, <- rsum_scal).
    rewrite rsum_swap. apply rsum_ext. intros t _. change (sum_to n ?f) with (rsum n f). symmetry. rewrite Rmult_comm, <- rsum_scal. apply rsum_ext. intros. ring.
Qed.
Lemma rsum_abs : forall n f, Rabs (rsum n f) <= rsum n (fun i => Rabs (f i)).
Proof. induction n as [|n IH]; intros; cbn [rsum]; [rewrite Rabs_R0; lra|]. specialize (IH f). pose proof (Rabs_triang (rsum n f) (f n)). lra. Qed.
Lemma rsum_le : forall n f g, (forall i, (i < n)%nat -> f i <= g i) -> rsum n f <= rsum n g.
Proof. induction n as [|n IH]; intros f g L; cbn [rsum]; [lra|]. specialize (IH f g (fun i I => L i (Nat.lt_trans _ _ _ I (Nat.lt_succ_diag_r n)))). specialize (L n (Nat.lt_succ_diag_r n)). lra. Qed.
Lemma rsum_item : forall n f i, (forall k, 0 <= f k) -> (i < n)%nat -> f i <= rsum n f.
Proof.
  induction n as [|n IH]; intros f i P I; [lia|]. cbn [rsum]. destruct (Nat.eq_dec i n) as [->|N].
  - pose proof (rsum_pos n f (fun k _ => P k)). lra.
  - specialize (IH f i P ltac:(lia)). specialize (P n). lra.
Qed.
(** the sum of all absolute values bounds the powers *)
Definition size (n : nat) (H : nat -> nat -> R) : R := rsum n (fun i => rsum n (fun k => Rabs (H i k))).
Lemma size_row : forall n H i, (i < n)%nat -> rsum n (fun k => Rabs (H i k)) <= size n H.
Proof. intros n H i I. unfold size. apply (rsum_item n (fun i => rsum n (fun k => Rabs (H i k)))); [|exact I]. intros k. apply rsum_pos. intros. apply Rabs_pos. Qed.
Lemma mat_pow_bound : forall n H k i l, (i < n)%nat -> Rabs (mat_pow n H k i l) <= size n H ^ k.
Proof.
  intros n H. induction k as [|k IH]; intros i l I; cbn [mat_pow pow].
  - destruct (i =? l)%nat; [rewrite Rabs_R1; lra|rewrite Rabs_R0; lra].
  - rewrite sum_to_rsum. apply Rle_trans with (1 := rsum_abs _ _). apply Rle_trans with (rsum n (fun q => size n H ^ k * Rabs (H i q))).
    + apply rsum_le. intros q Q. rewrite Rabs_mult, Rmult_comm. apply Rmult_le_compat_r; [apply Rabs_pos|now apply IH].
    + rewrite rsum_scal, Rmult_comm. apply Rmult_le_compat_r; [|now apply size_row]. apply pow_le. unfold size. apply rsum_pos. intros. apply rsum_pos. intros. apply Rabs_pos.
Qed.
Lemma ex_exp : forall x, ex_series (fun k => / INR (fact k) * x ^ k).
Proof. intros x. exists (exp x). apply is_pseries_R. apply is_exp_Reals. Qed.
Lemma ex_expm_abs : forall n H i l, (i < n)%nat -> ex_series (fun k => Rabs (/ INR (fact k) * mat_pow n H k i l)).
Proof.
  intros n H i l I. apply (ex_series_le (K := R_AbsRing) (V := R_CompleteNormedModule) _ (fun k => / INR (fact k) * size n H ^ k)); [|apply ex_exp].
  intros k. change (norm (Rabs (/ INR (fact k) * mat_pow n H k i l))) with (Rabs (Rabs (/ INR (fact k) * mat_pow n H k i l))). rewrite Rabs_Rabsolu, Rabs_mult.
  pose proof (Rinv_0_lt_compat _ (INR_fact_lt_0 k)). rewrite (Rabs_pos_eq (/ INR (fact k))) by lra. apply Rmult_le_compat_l; [lra|now apply mat_pow_bound].
Qed.
(** an exponential exists *)
Lemma expm_exists : forall n H, exists F, is_expm n H F.
Proof.
  intros n H. exists (fun i l => Series (fun k => / INR (fact k) * mat_pow n H k i l)). intros i l I _. apply Series_correct. apply ex_series_Rabs, ex_expm_abs, I.
Qed.
Lemma is_series_rsum : forall n (a : nat -> nat -> R) (s : nat -> R), (forall q, (q < n)%nat -> is_series (a q) (s q)) -> is_series (fun k => rsum n (fun q => a q k)) (rsum n s).
Proof.
  induction n as [|n IH]; intros a s H; cbn [rsum].
  - change (filterlim (sum_n (fun _ => 0)) eventually (locally 0)). apply filterlim_ext with (fun _ => 0); [|apply filterlim_const]. intros k. rewrite sum_n_const. now rewrite Rmult_0_r.
  - apply (is_series_plus (K := R_AbsRing) (V := R_NormedModule) (fun k => rsum n (fun q => a q k)) (a n) (rsum n s) (s n)); [apply IH; intros; apply H; lia|apply H; lia].
Qed.
Lemma sum_f_rsum : forall n k (f : nat -> nat -> R), rsum n (fun q => sum_f_R0 (f q) k) = sum_f_R0 (fun m => rsum n (fun q => f q m)) k.
Proof. intros n. induction k as [|k IH]; intros f; cbn [sum_f_R0]; [reflexivity|]. rewrite rsum_plus, IH. reflexivity. Qed.
Lemma halves : forall k, sum_f_R0 (fun m => / INR (fact m) * / INR (fact (k - m)) * (1 / 2) ^ k) k = / INR (fact k).
Proof.
  intros k. pose proof (binomial (1 / 2) (1 / 2) k) as B. replace (1 / 2 + 1 / 2) with 1 in B by field. rewrite pow1 in B.
  apply Rmult_eq_reg_l with (INR (fact k)); [|apply INR_fact_neq_0]. rewrite Rinv_r by apply INR_fact_neq_0. rewrite scal_sum. etransitivity; [|symmetry; exact B]. apply sum_eq. intros m M. unfold Binomial.C.
  replace ((1 / 2) ^ k) with ((1 / 2) ^ m * (1 / 2) ^ (k - m)) by (rewrite <- pow_add; f_equal; lia). generalize ((1 / 2) ^ m) ((1 / 2) ^ (k - m)). intros y z. field. split; apply INR_fact_neq_0.
Qed.
Theorem expm_square : forall n H G, is_expm n (fun i k => 1 / 2 * H i k) G -> is_expm n H (fun i k => rsum n (fun q => G i q * G q k)).
Proof.
  intros n H G E i l I J.
  set (t := fun q m => / INR (fact m) * mat_pow n (fun i k => 1 / 2 * H i k) m i q).
  set (r := fun q m => / INR (fact m) * mat_pow n (fun i k => 1 / 2 * H i k) m q l).
  apply is_series_ext with (fun k => rsum n (fun q => sum_f_R0 (fun m => t q m * r q (k - m)%nat) k)).
  - intros k. rewrite (sum_f_rsum n k (fun q m => t q m * r q (k - m)%nat)). rewrite <- halves, Rmult_comm, scal_sum. apply sum_eq. intros m M. unfold t, r.
    rewrite (rsum_ext n _ (fun q => / INR (fact m) * / INR (fact (k - m)) * (1 / 2) ^ k * (mat_pow n H m i q * mat_pow n H (k - m) q l))).
    + rewrite rsum_scal, <- mat_pow_add by exact I. replace (m + (k - m))%nat with k by lia. reflexivity.
    + intros q _. rewrite !mat_pow_scale. replace ((1 / 2) ^ k) with ((1 / 2) ^ m * (1 / 2) ^ (k - m)) by (rewrite <- pow_add; f_equal; lia). ring.
  - apply is_series_rsum. intros q Q. apply is_series_mult; [apply E; assumption|apply E; assumption|apply ex_expm_abs, I|apply ex_expm_abs, Q].
Qed.
(** the row and the column added for the error estimate do not matter for the first column *)
Lemma mat_pow_block : forall h H k, (forall q, (q <= h)%nat -> H h q = 0) -> (1 <= h)%nat -> mat_pow (S h) H k h 0 = 0 /\ (forall i, (i < h)%nat -> mat_pow (S h) H k i 0 = mat_pow h H k i 0).
Proof.
  intros h H k Z Hh. induction k as [|k [IH1 IH2]].
  - split; [cbn; destruct h; [lia|reflexivity]|reflexivity].
  - split; intros; cbn [mat_pow]; rewrite !sum_to_rsum.
    + apply rsum_zero. intros q Q. rewrite Z by lia. ring.
    + cbn [rsum]. rewrite IH1, Rmult_0_r, Rplus_0_r. apply rsum_ext. intros q Q. now rewrite IH2.
Qed.
Lemma is_expm_block : forall h H F, (1 <= h)%nat -> (forall q, (q <= h)%nat -> H h q = 0) -> is_expm (S h) H F -> forall i, (i < h)%nat -> is_series (fun k => / INR (fact k) * mat_pow h H k i 0) (F i 0%nat).
Proof. intros h H F Hh Z E i I. apply is_series_ext with (2 := E i 0%nat ltac:(lia) ltac:(lia)). intros k. destruct (mat_pow_block h H k Z Hh) as [_ B]. now rewrite B. Qed.
(** the exponential as a function *)
Definition series_expm (n : nat) (H : nat -> nat -> R) (i l : nat) : R := Series (fun k => / INR (fact k) * mat_pow n H k i l).
Lemma series_expm_ok : forall n H, is_expm n H (series_expm n H).
Proof. intros n H i l I _. apply Series_correct. apply ex_series_Rabs, ex_expm_abs, I. Qed.
