From Coq Require Import Reals ZArith List Bool Lia Lra.
From Verif Require Import KiopsModel KiopsSpec KiopsProofs PmexModel.
Import ListNotations.
Local Open Scope R_scope.

Lemma p_decide_spec : forall a delta s j1 h p d, 1 <= delta -> good a -> inv a s -> tau_now s < tau_end a -> (1 <= j1 <= m s)%Z -> (h = false -> j1 = m s) -> p_decide a delta s j1 h p = Some d ->
  (mmin a <= d_m d <= mmax a)%Z /\
  (delta < d_omega d -> h = false /\ 0 < d_tau d <= tau_end a - tau_now s /\ (j1 <= d_m d)%Z /\ ((j1 < mmax a)%Z -> (j1 < d_m d)%Z /\ d_tau d = tau s)) /\
  (d_omega d <= delta -> tau_now s + tau s < tau_end a -> 0 < d_tau d <= tau_end a - (tau_now s + tau s)) /\
  (1 < d_kest d \/ d_kestold d = true).
Proof.
  intros a delta s j1 h p d DL (GN & GT & GM) (IN & IT & IM & IJ & IS & IF & IK) Lt J JH H. specialize (IT Lt). unfold p_decide in H. destruct h.
  - injection H as <-. cbn [d_m d_omega d_tau d_kest d_kestold]. split; [lia|split; [lra|split; [|exact IK]]]. intros _ R. split; [apply Rmin_case; lra|apply Rmin_l].
  - specialize (JH eq_refl). cbv zeta in H. set (om := tau_end a * Rabs (p_full p) / (tau s * tol a)) in *. destruct (exponent _ _) as [e|]; [|discriminate].
    pose proof (estimate_k_gt s om IK) as K. destruct (estimate_k s om) as [k ko]. cbn [fst] in K.
    assert (G : 0 < gamma a < 1) by (unfold gamma; destruct (Rlt_dec _ _); lra).
    assert (MO : forall raw, (mmin a <= m_opt a (m s) raw <= mmax a)%Z) by (intros raw; unfold m_opt; lia).
    destruct (ltR delta om) eqn:D.
    + apply ltR_true in D. destruct (Z.eqb_spec j1 (mmax a)) as [E|E]; injection H as <-; cbn [d_m d_omega d_tau d_kest d_kestold].
      * split; [lia|]. split; [|split; [lra|now left]]. intros _. split; [reflexivity|]. split; [|split; [lia|intros; lia]].
        split; [|apply Rmin_l]. apply Rmin_case; [lra|]. apply Rlt_le_trans with (tau s / 5); [lra|apply Rmax_l].
      * assert (RM : Rmin (tau_end a - tau_now s) (tau s) = tau s) by (apply Rmin_right; lra). rewrite RM. replace (ltR (tau s) (tau s)) with false by (symmetry; apply ltR_false; lra).
        split; [apply MO|]. split; [|split; [lra|now left]]. intros _. split; [reflexivity|]. destruct (raw_m_gt j1 om (gamma a) k) as (r & R & RL); try lra. unfold raw_m in R. destruct (Rlt_dec 0 om) as [_|]; [|lra]. injection R as R. rewrite R.
        assert (M1 : (m s + 1 <= - (- (4 * m s) / 3))%Z). { assert (Q : (- (4 * m s) / 3 < - m s)%Z); [|lia]. apply Z.div_lt_upper_bound; lia. }
        assert (L : (j1 < m_opt a (m s) (Some r))%Z) by (unfold m_opt; lia). split; [lra|]. split; [lia|]. intros _. now split.
    + apply ltR_false in D. destruct (Z.eqb_spec j1 (mmax a)) as [E|E]; injection H as <-; cbn [d_m d_omega d_tau d_kest d_kestold].
      * split; [lia|]. split; [lra|]. split; [|now left]. intros _ R. unfold tau_opt. split; [|apply Rmin_l]. apply Rmin_case; [lra|]. apply Rlt_le_trans with (tau s / 5); [lra|apply Rmax_l].
      * split; [destruct (ltR _ _); [lia|apply MO]|]. split; [lra|]. split; [|now left]. intros _ R. split; [|apply Rmin_l]. apply Rmin_case; lra.
Qed.

Lemma p_inv_pass : forall a delta s p s', 1 <= delta -> good a -> inv a s -> tau_now s < tau_end a -> p_pass a delta s p = Some s' -> inv a s'.
Proof.
  intros a delta s p s' DL G I Lt H. pose proof I as (IN & IT & IM & IJ & IS & IF & IK). pose proof G as (GN & GT & GM). unfold p_pass in H. destruct (arnoldi s (p_breakdown p)) as [j1 h] eqn:A.
  destruct (arnoldi_spec s _ j1 h IJ ltac:(lia) A) as [J JH]. destruct (p_decide a delta s j1 h p) as [d|] eqn:D; [|discriminate].
  destruct (p_decide_spec a delta s j1 h _ d DL G I Lt J JH D) as (DM & DR & DA & DK). specialize (IT Lt).
  destruct (ltR delta (d_omega d)) eqn:E; injection H as <-; unfold inv; cbn [tau_now tau m j substeps kest kestold].
  - apply ltR_true in E. destruct (DR E) as (_ & T & JM & _). repeat split; try lra; try lia; auto.
  - apply ltR_false in E. split; [lra|]. split; [intros R; now apply DA|]. split; [lia|]. split; [lia|]. split; [cbn [total fold_right]; fold (total (substeps s)); lra|]. split; [constructor; [lra|exact IF]|exact DK].
Qed.
Lemma p_inv_run : forall a delta ps s s', 1 <= delta -> good a -> inv a s -> p_run a delta ps s = Some s' -> inv a s'.
Proof.
  intros a delta ps. induction ps as [|p ps IH]; intros s s' DL G I H; cbn [p_run] in H; [now injection H as <-|].
  destruct (Rlt_dec _ _) as [L|L]; [|now injection H as <-]. destruct (p_pass a delta s p) as [s1|] eqn:P; [|discriminate]. apply IH with s1; auto. now apply p_inv_pass with delta s p.
Qed.

Lemma p_outs_pass : forall a delta s p s', good a -> positive a -> inv a s -> outs a s -> tau_now s < tau_end a -> p_pass a delta s p = Some s' -> outs a s'.
Proof.
  intros a delta s p s' G P I O Lt H. unfold p_pass in H. destruct (arnoldi s (p_breakdown p)) as [j1 h].
  destruct (p_decide a delta s j1 h p) as [d|]; [|discriminate]. destruct (ltR delta (d_omega d)); injection H as <-; [exact O|].
  now apply outs_accept with s.
Qed.
Lemma p_outs_run : forall a delta ps s s', 1 <= delta -> good a -> positive a -> inv a s -> outs a s -> p_run a delta ps s = Some s' -> outs a s'.
Proof.
  intros a delta ps. induction ps as [|p ps IH]; intros s s' DL G P I O H; cbn [p_run] in H; [now injection H as <-|].
  destruct (Rlt_dec _ _) as [L|L]; [|now injection H as <-]. destruct (p_pass a delta s p) as [s1|] eqn:E; [|discriminate]. apply IH with s1; auto; [now apply p_inv_pass with delta s p|now apply p_outs_pass with delta s p].
Qed.

(** ** What is claimed of the control *)
Theorem p_substeps_ok : forall a delta ps s, 1 <= delta -> good a -> p_run a delta ps (start a) = Some s ->
  List.Forall (fun t => 0 < t) (substeps s) /\ total (substeps s) = tau_now s /\ tau_now s <= tau_end a /\ (tau_now s < tau_end a -> 0 < tau s /\ tau_now s + tau s <= tau_end a) /\
  (~ tau_now s < tau_end a -> total (substeps s) = tau_end a).
Proof.
  intros a delta ps s DL G H. pose proof (p_inv_run a delta ps _ _ DL G (inv_start a G) H) as (IN & IT & IM & IJ & IS & IF & IK). repeat split; auto; try lra; intros L; specialize (IT L); lra.
Qed.
Theorem p_basis_ok : forall a delta ps s, 1 <= delta -> good a -> p_run a delta ps (start a) = Some s -> (mmin a <= m s <= mmax a /\ 0 <= j s <= m s)%Z.
Proof. intros a delta ps s DL G H. pose proof (p_inv_run a delta ps _ _ DL G (inv_start a G) H) as (IN & IT & IM & IJ & _). now split. Qed.
Theorem p_outputs_ok : forall a delta ps s, 1 <= delta -> good a -> 0 < last_out a -> output_times (tau_out a) -> p_run a delta ps (start a) = Some s -> ~ tau_now s < tau_end a ->
  forall k, (k < length (tau_out a))%nat -> times s k = nth k (tau_out a) 0.
Proof.
  intros a delta ps s DL G P0 O0 H F k K. pose proof (conj P0 O0 : positive a) as P. pose proof (p_inv_run a delta ps _ _ DL G (inv_start a G) H) as (IN & _).
  pose proof (p_outs_run a delta ps _ _ DL G P (inv_start a G) (outs_start a G P) H) as O. now apply outs_done.
Qed.
