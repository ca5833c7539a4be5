(** The exponential of a matrix as a function of time, and its integral *)
From Coq Require Import Reals Arith Lra Lia.
From Coquelicot Require Import Coquelicot.
From Verif Require Import FgmresModel FgmresFacts PmexSpec ExpmFacts.
Local Open Scope R_scope.
Ltac req := match goal with |- ?a = ?b => change (@eq R a b) end.

(** the first column does not depend on an added column, when the added row is zero before the diagonal *)
Lemma mat_pow_corner : forall h H k, (forall q, (q < h)%nat -> H h q = 0) -> (1 <= h)%nat -> mat_pow (S h) H k h 0 = 0 /\ (forall i, (i < h)%nat -> mat_pow (S h) H k i 0 = mat_pow h H k i 0).
Proof.
  intros h H k Z Hh. induction k as [|k [IH1 IH2]].
  - split; [cbn; destruct h; [lia|reflexivity]|reflexivity].
  - split; intros; cbn [mat_pow]; rewrite !sum_to_rsum; cbn [rsum]; rewrite IH1.
    + rewrite rsum_zero; [ring|]. intros q Q. rewrite Z by lia. ring.
    + rewrite Rmult_0_r, Rplus_0_r. apply rsum_ext. intros q Q. now rewrite IH2.
Qed.
Lemma is_expm_corner : forall h H F, (1 <= h)%nat -> (forall q, (q < h)%nat -> H h q = 0) -> is_expm (S h) H F -> exp_column h H (fun i => F i 0%nat).
Proof. intros h H F Hh Z E i I. apply is_series_ext with (2 := E i 0%nat ltac:(lia) ltac:(lia)). intros k. destruct (mat_pow_corner h H k Z Hh) as [_ B]. now rewrite B. Qed.
(** with t e_1 in the added column, its entries are the integrals of the first column *)
Lemma mat_pow_last : forall h H t k, (1 <= h)%nat -> (forall q, (q <= h)%nat -> H h q = 0) -> (forall i, (i < h)%nat -> H i h = if Nat.eqb i 0 then t else 0) ->
  mat_pow (S h) H (S k) h h = 0 /\ forall i, (i < h)%nat -> mat_pow (S h) H (S k) i h = t * mat_pow h H k i 0.
Proof.
  intros h H t k Hh Z C. assert (B : forall k, mat_pow (S h) H (S k) h h = 0).
  { intros n. cbn [mat_pow]. rewrite sum_to_rsum. apply rsum_zero. intros q Q. rewrite Z by lia. ring. }
  split; [apply B|]. induction k as [|k IH]; intros i I.
  - cbn [mat_pow]. rewrite sum_to_rsum. cbn [rsum]. rewrite Nat.eqb_refl, C by exact I. rewrite rsum_zero; [destruct (Nat.eqb i 0); ring|]. intros q Q. replace (q =? h)%nat with false by (symmetry; apply Nat.eqb_neq; lia). ring.
  - change (mat_pow (S h) H (S (S k)) i h) with (sum_to (S h) (fun q => H i q * mat_pow (S h) H (S k) q h)). change (mat_pow h H (S k) i 0) with (sum_to h (fun q => H i q * mat_pow h H k q 0)).
    rewrite !sum_to_rsum. change (rsum (S h) ?f) with (rsum h f + f h). cbv beta. rewrite B, Rmult_0_r, Rplus_0_r, <- rsum_scal. apply rsum_ext. intros q Q. rewrite IH by exact Q. ring.
Qed.

Lemma shift_series : forall (a : nat -> R) l, a 0%nat = 0 -> is_series a l -> is_series (fun k => a (S k)) l.
Proof. intros a l Z E. apply (is_series_incr_1 (K := R_AbsRing) (V := R_NormedModule) a l). rewrite Z. change (plus l 0) with (l + 0). now rewrite Rplus_0_r. Qed.
Section Column.
Variable h : nat.
Variable H : nat -> nat -> R.
(** entry i of exp(t H) e_1 *)
Definition coefficient (i k : nat) : R := / INR (fact k) * mat_pow h H k i 0.
Definition column (t : R) (i : nat) : R := PSeries (coefficient i) t.
Lemma coefficient_abs : forall i t, (i < h)%nat -> ex_series (fun k => Rabs (t ^ k * coefficient i k)).
Proof.
  intros i t I. apply ex_series_ext with (2 := ex_expm_abs h (fun i k => t * H i k) i 0 I). intros k. f_equal. rewrite mat_pow_scale. unfold coefficient. ring.
Qed.
Lemma everywhere : forall i t, (i < h)%nat -> Rbar_lt (Rabs t) (CV_radius (coefficient i)).
Proof.
  intros i t I. destruct (Rbar_lt_dec (Rabs t) (CV_radius (coefficient i))) as [L|L]; [exact L|exfalso].
  assert (P : 0 <= Rabs t) by apply Rabs_pos.
  apply (CV_disk_outside (coefficient i) (Rabs t + 1)).
  - apply Rbar_not_lt_le in L. apply Rbar_le_lt_trans with (1 := L). cbn. rewrite (Rabs_pos_eq (Rabs t + 1)) by lra. lra.
  - apply ex_series_lim_0. apply ex_series_ext with (fun k => (Rabs t + 1) ^ k * coefficient i k); [intros; req; ring|]. apply ex_series_Rabs. now apply coefficient_abs.
Qed.
Lemma column_ok : forall t, exp_column h (fun i k => t * H i k) (column t).
Proof.
  intros t i I. unfold column, PSeries. apply is_series_ext with (fun k => coefficient i k * t ^ k); [intros k; rewrite mat_pow_scale; unfold coefficient; req; ring|].
  apply Series_correct. apply ex_series_ext with (fun k => t ^ k * coefficient i k); [intros; req; ring|]. apply ex_series_Rabs. now apply coefficient_abs.
Qed.
Lemma column_unique : forall t F i, exp_column h (fun i k => t * H i k) F -> (i < h)%nat -> F i = column t i.
Proof. intros t F i E I. rewrite <- (is_series_unique _ _ (E i I)). apply is_series_unique. now apply column_ok. Qed.
Lemma column_derive : forall t i, (i < h)%nat -> is_derive (fun t => column t i) t (sum_to h (fun k => H i k * column t k)).
Proof.
  intros t i I. pose proof (is_derive_PSeries (coefficient i) t (everywhere i t I)) as D. unfold column at 1.
  replace (sum_to h (fun k => H i k * column t k)) with (PSeries (PS_derive (coefficient i)) t); [exact D|].
  rewrite sum_to_rsum. unfold PSeries at 1. apply is_series_unique.
  apply is_series_ext with (fun n => rsum h (fun k => H i k * (/ INR (fact n) * mat_pow h (fun i k => t * H i k) n k 0))).
  - intros n. unfold PS_derive, coefficient. cbn [mat_pow]. change (sum_to h ?f) with (rsum h f). rewrite fact_simpl, mult_INR. rewrite <- !rsum_scal, (Rmult_comm _ (t ^ n)), <- rsum_scal. apply rsum_ext. intros k _. rewrite mat_pow_scale.
    field. split; [apply INR_fact_neq_0|apply not_0_INR; lia].
  - apply is_series_rsum. intros k K. apply (is_series_scal (K := R_AbsRing) (V := R_NormedModule)). now apply column_ok.
Qed.
(** the integral, and the exponential that the code takes *)
Lemma column_integral : forall t i, (i < h)%nat -> exists G, is_RInt (fun t => column t i) 0 t G /\ is_series (fun k => / INR (fact (S k)) * (t * mat_pow h (fun i k => t * H i k) k i 0)) G.
Proof.
  intros t i I. exists (PSeries (PS_Int (coefficient i)) t). split; [apply is_RInt_PSeries, everywhere, I|].
  assert (E : is_series (fun k => PS_Int (coefficient i) k * t ^ k) (PSeries (PS_Int (coefficient i)) t)).
  { apply Series_correct. apply ex_series_Rabs. apply CV_disk_inside. rewrite CV_radius_Int. now apply everywhere. }
  apply (shift_series _ _ (Rmult_0_l _)) in E. cbn [PS_Int] in E.
  apply is_series_ext with (2 := E). intros k. cbn [pow]. rewrite mat_pow_scale, fact_simpl, mult_INR. unfold coefficient. req. field. split; [apply INR_fact_neq_0|]. apply not_0_INR. lia.
Qed.
End Column.
Lemma is_expm_last : forall h H M t F, (1 <= h)%nat -> (forall q, (q <= h)%nat -> M h q = 0) -> (forall i, (i < h)%nat -> M i h = if Nat.eqb i 0 then t else 0) ->
  (forall i k, (i < h)%nat -> (k < h)%nat -> M i k = t * H i k) -> is_expm (S h) M F -> forall i, (i < h)%nat -> is_RInt (fun t => column h H t i) 0 t (F i h).
Proof.
  intros h H M t F Hh Z C HM E i I. destruct (column_integral h H t i I) as (G & R1 & S1). replace (F i h) with G; [exact R1|].
  pose proof (E i h ltac:(lia) ltac:(lia)) as E1. apply shift_series in E1; [|cbn; replace (i =? h)%nat with false by (symmetry; apply Nat.eqb_neq; lia); ring].
  rewrite <- (is_series_unique _ _ S1), <- (is_series_unique _ _ E1). apply Series_ext. intros k. destruct (mat_pow_last h M t k Hh Z C) as [_ P]. rewrite P by exact I.
  do 2 f_equal. symmetry. apply mat_pow_ext; [|exact I]. intros; now apply HM.
Qed.
