(** The coefficients of the projection for vectors that are not orthogonal, as they are after rounding *)
From Coq Require Import Reals List Arith Lra Lia Bool.
From Coquelicot Require Import Coquelicot.
From Verif Require Import InnerSpec FgmresModel PmexSpec PmexModel PmexKrylov LowsyncModel LowsyncSpec LowsyncProofs.
Import ListNotations.
Local Open Scope R_scope.

Lemma vsum_same : forall (W : ModuleSpace R_Ring) n (f h : nat -> W), (forall i, (i < n)%nat -> f i = h i) -> vsum n f = vsum n h.
Proof. induction n as [|n IH]; intros f h H; [reflexivity|]. cbn [vsum]. rewrite (IH f h), (H n) by auto. reflexivity. Qed.
Section Gs.
Context {W : ModuleSpace R_Ring}.
Variable lp : W -> W -> R.
Hypothesis lp_sym : forall x y, lp x y = lp y x.
Hypothesis lp_plus : forall x y z, lp (plus x y) z = lp x z + lp y z.
Hypothesis lp_scal : forall a x z, lp (scal (V := W) a x) z = a * lp x z.
Variable V : nat -> W.
Notation rows_of := (rows_of lp V).
Notation cols_of := (cols_of lp V).
Lemma lp_minus_r : forall x y z, lp x (plus y (opp z)) = lp x y - lp x z.
Proof. intros x y z. rewrite lp_sym, lp_plus, (lp_sym y). rewrite <- (scal_opp_one z), lp_scal, (lp_sym z). unfold Rminus. f_equal. change (opp one) with (- (1)). ring. Qed.
Lemma lp_scal_right : forall x a z, lp x (scal (V := W) a z) = a * lp x z.
Proof. intros x a z. rewrite lp_sym, lp_scal, lp_sym. reflexivity. Qed.
Lemma sum_same : forall n f g, (forall i, (i < n)%nat -> f i = g i) -> rsum n f = rsum n g.
Proof. induction n as [|n IH]; intros f g H; [reflexivity|]. cbn [rsum]. rewrite (IH f g), (H n); auto. Qed.
Lemma sum_lin : forall n f c, c * rsum n f = rsum n (fun i => c * f i).
Proof. induction n as [|n IH]; intros f c; cbn [rsum]; [ring|]. rewrite <- IH. ring. Qed.
Lemma sum_add : forall n f g, rsum n (fun i => f i + g i) = rsum n f + rsum n g.
Proof. induction n as [|n IH]; intros f g; cbn [rsum]; [ring|]. rewrite IH. ring. Qed.
Lemma sum_swap : forall n m (f : nat -> nat -> R), rsum n (fun i => rsum m (f i)) = rsum m (fun k => rsum n (fun i => f i k)).
Proof.
  induction n as [|n IH]; intros m f; cbn [rsum].
  - induction m as [|m IHm]; cbn [rsum]; [reflexivity|rewrite <- IHm; ring].
  - rewrite IH, sum_add. reflexivity.
Qed.
Lemma sum_long : forall n m f, (n <= m)%nat -> (forall i, (n <= i < m)%nat -> f i = 0) -> rsum m f = rsum n f.
Proof. intros n m f H Z. replace m with (n + (m - n))%nat in * by lia. revert Z. generalize (m - n)%nat. clear H. intros d. induction d as [|d IH]; intros Z; [now rewrite Nat.add_0_r|]. rewrite Nat.add_succ_r. cbn [rsum]. rewrite IH by (intros; apply Z; lia). rewrite Z by lia. ring. Qed.
(** the rows *)
Lemma rows_kept : forall k j i q, (i < j)%nat -> rows_of k j i q = rows_of k (S i) i q.
Proof.
  intros k j i q H. induction j as [|j IH]; [lia|]. destruct (Nat.eq_dec i j) as [->|N]; [reflexivity|]. rewrite <- IH by lia. cbn [LowsyncModel.rows_of]. unfold new_row. destruct (Nat.ltb 1 (S j)); [|reflexivity].
  replace (Nat.eqb i (S j - 1)) with false by (symmetry; apply Nat.eqb_neq; lia). reflexivity.
Qed.
Lemma rows_shape : forall k j i q, (i <= q)%nat -> rows_of k j i q = if Nat.eqb i q then 1 else 0.
Proof.
  intros k j. induction j as [|j IH]; intros i q H; [reflexivity|]. cbn [LowsyncModel.rows_of]. unfold new_row. destruct (Nat.ltb 1 (S j)); [|now apply IH].
  destruct (Nat.eqb i (S j - 1) && Nat.ltb q (S j - 1))%bool eqn:E; [|now apply IH]. apply andb_prop in E. destruct E as [E1 E2]. apply Nat.eqb_eq in E1. apply Nat.ltb_lt in E2. lia.
Qed.
Lemma rows_below : forall k j i q, (i < j)%nat -> (q < i)%nat -> rows_of k j i q = match k with Inverse_compact => - lp (V q) (V i) | _ => - rsum i (fun r => lp (V r) (V i) * rows_of k j r q) end.
Proof.
  intros k j i q Hi Hq. rewrite rows_kept by exact Hi. cbn [LowsyncModel.rows_of]. unfold new_row. replace (Nat.ltb 1 (S i)) with true by (symmetry; apply Nat.ltb_lt; lia). replace (S i - 1)%nat with i by lia. rewrite Nat.eqb_refl. replace (Nat.ltb q i) with true by (symmetry; apply Nat.ltb_lt; lia). cbn [andb].
  destruct k; try reflexivity; f_equal; apply sum_same; intros r R; f_equal; rewrite (rows_kept _ j) by lia; rewrite (rows_kept _ i) by lia; reflexivity.
Qed.
Lemma cols_kept : forall j q i, (q < j)%nat -> cols_of j i q = cols_of (S q) i q.
Proof.
  intros j q i H. induction j as [|j IH]; [lia|]. destruct (Nat.eq_dec q j) as [->|N]; [reflexivity|]. rewrite <- IH by lia. cbn [LowsyncModel.cols_of]. unfold new_col, set_col. destruct (Nat.ltb 1 (S j)); [|reflexivity]. replace (Nat.eqb q (S j - 1)) with false by (symmetry; apply Nat.eqb_neq; lia). reflexivity.
Qed.
Lemma cols_zero : forall j i q, (j <= q)%nat -> cols_of j i q = 0.
Proof. induction j as [|j IH]; intros i q H; [reflexivity|]. cbn [LowsyncModel.cols_of]. unfold new_col, set_col. destruct (Nat.ltb 1 (S j)); [|apply IH; lia]. replace (Nat.eqb q (S j - 1)) with false by (symmetry; apply Nat.eqb_neq; lia). apply IH. lia. Qed.
Lemma cols_val : forall j i q, (q < j)%nat -> cols_of j i q = if Nat.ltb i q then - lp (V i) (V q) else 0.
Proof.
  intros j i q H. rewrite cols_kept by exact H. cbn [LowsyncModel.cols_of]. unfold new_col, set_col. replace (S q - 1)%nat with q by lia. destruct (Nat.ltb 1 (S q)) eqn:E.
  - rewrite Nat.eqb_refl. cbn [andb]. destruct (Nat.ltb i q); [reflexivity|]. now apply cols_zero.
  - rewrite cols_zero by lia. replace q with 0%nat by (apply Nat.ltb_ge in E; lia). reflexivity.
Qed.
(** the recursion of the process *)
Variable w : W.
Notation c := (sweep lp V w).
Notation g := (fun i => lp (V i) w).
Lemma swept_sum : forall i, swept lp V w i = plus w (opp (vsum i (fun r => scal (V := W) (c r) (V r)))).
Proof.
  induction i as [|i IH]; cbn [swept vsum].
  - assert (opp (zero : W) = zero) as -> by (rewrite <- (plus_zero_l (opp zero)); apply plus_opp_r). now rewrite plus_zero_r.
  - fold (c i). change (lp (V i) (swept lp V w i)) with (c i). rewrite IH at 1. rewrite opp_plus, plus_assoc. reflexivity.
Qed.
Lemma lp_vsum_r : forall x n (f : nat -> W), lp x (vsum n f) = rsum n (fun i => lp x (f i)).
Proof.
  intros x n f. induction n as [|n IH]; cbn [vsum rsum].
  - rewrite lp_sym. rewrite <- (scal_zero_l (zero : W)), lp_scal. change (@zero R_Ring) with 0. ring.
  - rewrite lp_sym, lp_plus, (lp_sym _ x), (lp_sym _ x), IH. reflexivity.
Qed.
Lemma sweep_rec : forall i, c i = g i - rsum i (fun r => lp (V r) (V i) * c r).
Proof. intros i. unfold sweep at 1. rewrite swept_sum, lp_minus_r, lp_vsum_r. f_equal. apply sum_same. intros r R. rewrite lp_scal_right, (lp_sym (V i)). ring. Qed.
(** the rows of the compact matrix applied to the products *)
Lemma compact_sweep : forall k j i, k <> Inverse_compact -> (i < j)%nat -> rsum j (fun q => rows_of k j i q * g q) = c i.
Proof.
  intros k j i Hk. induction i as [i IH] using lt_wf_ind. intros Hi. rewrite (sum_long (i + 1) j) by (try lia; intros q Q; rewrite rows_shape by lia; replace (Nat.eqb i q) with false by (symmetry; apply Nat.eqb_neq; lia); ring).
  rewrite Nat.add_1_r. cbn [rsum]. rewrite (rows_shape k j i i) by lia. rewrite Nat.eqb_refl, sweep_rec.
  assert (E : rsum i (fun q => rows_of k j i q * g q) = - rsum i (fun r => lp (V r) (V i) * c r)); [|rewrite E; ring].
  transitivity (- rsum i (fun q => rsum i (fun r => lp (V r) (V i) * (rows_of k j r q * g q)))).
  - replace (- rsum i (fun q => rsum i (fun r => lp (V r) (V i) * (rows_of k j r q * g q)))) with ((-1) * rsum i (fun q => rsum i (fun r => lp (V r) (V i) * (rows_of k j r q * g q)))) by ring. rewrite sum_lin. apply sum_same. intros q Q.
    rewrite (rows_below k j i q Hi Q). destruct k; [|contradiction|]; cbv beta; rewrite Ropp_mult_distr_l_reverse, (Rmult_comm (rsum i _)), sum_lin; rewrite (sum_same i _ (fun r => lp (V r) (V i) * (rows_of _ j r q * g q))) by (intros r R; ring); ring.
  - f_equal. rewrite sum_swap. apply sum_same. intros r R. rewrite <- sum_lin. f_equal. rewrite <- (IH r R ltac:(lia)). symmetry. apply sum_long; [lia|]. intros q Q. rewrite rows_shape by lia. replace (Nat.eqb r q) with false by (symmetry; apply Nat.eqb_neq; lia). ring.
Qed.
Theorem compact_ok : forall j N I i, (i < j)%nat -> coefficients Compact (rows_of Compact j) N I j g i = c i.
Proof. intros j N I i Hi. apply compact_sweep; [discriminate|exact Hi]. Qed.
Theorem inverse_ok : forall j N I i, (i < j)%nat -> coefficients Inverse_compact (rows_of Inverse_compact j) N I j g i = c i - rsum i (fun q => lp (V i) (V q) * rsum q (fun r => lp (V q) (V r) * c r)).
Proof.
  intros j N I i Hi. unfold coefficients. rewrite (sum_long (i + 1) j) by (try lia; intros q Q; rewrite rows_shape by lia; replace (Nat.eqb i q) with false by (symmetry; apply Nat.eqb_neq; lia); ring).
  rewrite Nat.add_1_r. cbn [rsum]. rewrite (rows_shape _ j i i) by lia. rewrite Nat.eqb_refl, sweep_rec.
  rewrite (sum_same i (fun q => rows_of Inverse_compact j i q * g q) (fun q => (-1) * (lp (V q) (V i) * c q) + (-1) * (lp (V i) (V q) * rsum q (fun r => lp (V q) (V r) * c r)))).
  - rewrite sum_add, <- !sum_lin. ring.
  - intros q Q. rewrite (rows_below _ j i q Hi Q). rewrite (sweep_rec q). rewrite (sum_same q (fun r => lp (V q) (V r) * c r) (fun r => lp (V r) (V q) * c r)) by (intros r _; now rewrite (lp_sym (V q))). rewrite (lp_sym (V i) (V q)). ring.
Qed.
Theorem gauss_ok : forall j T i, (i < j)%nat -> coefficients Gauss_Seidel T (cols_of j) (rows_of Gauss_Seidel j) j g i = g i - rsum j (fun r => if Nat.ltb i r then lp (V i) (V r) * c r else 0).
Proof.
  intros j T i Hi. unfold coefficients. replace (g i - rsum j (fun r => if Nat.ltb i r then lp (V i) (V r) * c r else 0)) with (g i + (-1) * rsum j (fun r => if Nat.ltb i r then lp (V i) (V r) * c r else 0)) by ring. f_equal. rewrite sum_lin.
  transitivity (rsum j (fun q => rsum j (fun r => cols_of j i r * (rows_of Gauss_Seidel j r q * g q)))).
  - apply sum_same. intros q Q. rewrite (Rmult_comm (rsum j _)), sum_lin. apply sum_same. intros r R. ring.
  - rewrite sum_swap. apply sum_same. intros r R. rewrite <- sum_lin. rewrite (compact_sweep Gauss_Seidel j r) by (try discriminate; exact R). rewrite (cols_val j i r R). destruct (Nat.ltb i r); ring.
Qed.
(** the vector that is left *)
Lemma reduce_product : forall (V' : nat -> W) j x a, (forall i, (i < j)%nat -> V' i = V i) -> V' j = w -> lp x (reduce V' j a) = lp x w - rsum j (fun i => a i * lp x (V i)).
Proof. intros V' j x a H E. unfold reduce. rewrite E, lp_minus_r, lp_vsum_r. f_equal. apply sum_same. intros i I. rewrite (H i I). apply lp_scal_right. Qed.
Theorem compact_left : forall (V' : nat -> W) j N I, (forall i, (i < j)%nat -> V' i = V i) -> V' j = w -> reduce V' j (coefficients Compact (rows_of Compact j) N I j g) = swept lp V w j.
Proof.
  intros V' j N I H E. unfold reduce. rewrite E, swept_sum. f_equal. f_equal. apply vsum_same. intros i L. rewrite (H i L). rewrite compact_ok by exact L. reflexivity.
Qed.
Lemma swept_last : forall j, lp (V j) (V j) = 1 -> lp (V j) (swept lp V w (S j)) = 0.
Proof. intros j U. cbn [swept]. rewrite lp_minus_r, lp_scal_right, U. ring. Qed.
(** pmex: what is left has the product of the last vector with the part that was taken off, with the wrong sign *)
Theorem gauss_left : forall (V' : nat -> W) j T, (forall i, (i <= j)%nat -> V' i = V i) -> V' (S j) = w -> lp (V j) (V j) = 1 ->
  let a := coefficients Gauss_Seidel T (cols_of (S j)) (rows_of Gauss_Seidel (S j)) (S j) g in lp (V j) (reduce V' (S j) a) = - rsum j (fun i => lp (V j) (V i) * a i).
Proof.
  intros V' j T H E U a. rewrite (reduce_product V' (S j) (V j) a) by (try exact E; intros i I; apply H; lia). cbn [rsum]. rewrite U. unfold a at 2. rewrite gauss_ok by lia. rewrite (sum_long 0 (S j)) by (try lia; intros i I; replace (Nat.ltb j i) with false by (symmetry; apply Nat.ltb_ge; lia); reflexivity). cbn [rsum].
  rewrite (sum_same j (fun i => a i * lp (V j) (V i)) (fun i => lp (V j) (V i) * a i)) by (intros; ring). ring.
Qed.
End Gs.

(** three vectors of the plane: V_0 and V_1 have the product e *)
Definition plane : ModuleSpace R_Ring := prod_ModuleSpace R_Ring (Ring_ModuleSpace R_Ring) (Ring_ModuleSpace R_Ring).
Definition pdot (x y : plane) : R := fst x * fst y + snd x * snd y.
Definition nearly (e : R) (i : nat) : plane := match i with O => (1, 0) | 1%nat => (e, sqrt (1 - e ^ 2)) | _ => (1, 0) end.
Lemma pdot_sym : forall x y, pdot x y = pdot y x. Proof. intros [a b] [c d]. unfold pdot. cbn. ring. Qed.
Lemma pdot_plus : forall x y z, pdot (plus x y) z = pdot x z + pdot y z.
Proof. intros [a b] [c d] [e f]. unfold pdot. change (fst (plus (a, b) (c, d) : plane)) with (a + c). change (snd (plus (a, b) (c, d) : plane)) with (b + d). cbn [fst snd]. ring. Qed.
Lemma pdot_scal : forall s x z, pdot (scal (V := plane) s x) z = s * pdot x z.
Proof. intros s [a b] [e f]. unfold pdot. change (fst (scal (V := plane) s (a, b))) with (s * a). change (snd (scal (V := plane) s (a, b))) with (s * b). cbn [fst snd]. ring. Qed.
Lemma nearly_unit : forall e, e ^ 2 <= 1 -> pdot (nearly e 0) (nearly e 0) = 1 /\ pdot (nearly e 1) (nearly e 1) = 1 /\ pdot (nearly e 1) (nearly e 0) = e.
Proof. intros e H. unfold pdot, nearly. cbn [fst snd]. rewrite sqrt_sqrt by lra. repeat split; ring. Qed.
Lemma nearly_left : forall e, e ^ 2 <= 1 ->
  pdot (nearly e 1) (reduce (nearly e) 2 (coefficients Gauss_Seidel (fun _ _ => 0) (cols_of pdot (nearly e) 2) (rows_of pdot (nearly e) Gauss_Seidel 2) 2 (fun i => pdot (nearly e i) (nearly e 2)))) = - e /\
  pdot (nearly e 1) (reduce (nearly e) 2 (coefficients Compact (rows_of pdot (nearly e) Compact 2) (fun _ _ => 0) (fun _ _ => 0) 2 (fun i => pdot (nearly e i) (nearly e 2)))) = 0.
Proof.
  intros e H. destruct (nearly_unit e H) as (U0 & U1 & U2). split.
  - pose proof (gauss_left pdot pdot_sym pdot_plus pdot_scal (nearly e) (nearly e 2) (nearly e) 1 (fun _ _ => 0) (fun _ _ => eq_refl) eq_refl U1) as G. cbv zeta in G. rewrite G. cbn [rsum]. rewrite U2.
    rewrite (gauss_ok pdot pdot_sym pdot_plus pdot_scal (nearly e) (nearly e 2) 2 (fun _ _ => 0) 0) by lia. cbn [rsum Nat.ltb Nat.leb]. rewrite (sweep_rec pdot pdot_sym pdot_plus pdot_scal (nearly e) (nearly e 2) 1). cbn [rsum]. unfold sweep. cbn [swept]. change (nearly e 2) with (nearly e 0). rewrite (pdot_sym (nearly e 0) (nearly e 1)), U0, U2. ring.
  - rewrite (compact_left pdot pdot_sym pdot_plus pdot_scal (nearly e) (nearly e 2) (nearly e) 2 _ _ (fun _ _ => eq_refl) eq_refl). apply (swept_last pdot pdot_sym pdot_plus pdot_scal). exact U1.
Qed.
