From Coq Require Import Reals ZArith List Bool Lia Lra.
From Verif Require Import KiopsModel KiopsSpec.
Import ListNotations.
Local Open Scope R_scope.

Lemma ltR_true : forall a b, ltR a b = true <-> a < b.
Proof. intros a b. unfold ltR. destruct (Rlt_dec a b); split; intros; auto; try discriminate; contradiction. Qed.
Lemma ltR_false : forall a b, ltR a b = false <-> b <= a.
Proof. intros a b. unfold ltR. destruct (Rlt_dec a b); split; intros; auto; try discriminate; lra. Qed.

Lemma ceil_up : forall x n, IZR n < x -> (n < ceil x)%Z.
Proof.
  intros x n H. unfold ceil. destruct (base_Int_part (- x)) as [_ B]. assert (IZR (Int_part (- x)) <= - x) by (destruct (base_Int_part (- x)); assumption).
  assert (IZR (Int_part (- x)) < IZR (- n)) by (rewrite opp_IZR; lra). apply lt_IZR in H1. lia.
Qed.

(** the invariant of the loop that does not concern the output times *)
Definition inv (a : args) (s : state) : Prop :=
  (0 <= tau_now s <= tau_end a) /\ (tau_now s < tau_end a -> 0 < tau s <= tau_end a - tau_now s) /\ (mmin a <= m s <= mmax a)%Z /\ (0 <= j s <= m s)%Z /\
  total (substeps s) = tau_now s /\ List.Forall (fun t => 0 < t) (substeps s) /\
  (1 < kest s \/ kestold s = true).

Lemma gamma_pos : forall a, 0 < gamma a < delta.
Proof. intros a. unfold gamma, delta. destruct (Rlt_dec _ _); lra. Qed.

Lemma inv_start : forall a, good a -> inv a (start a).
Proof.
  intros a (N & T & M). unfold inv, start. cbn. assert (0 <= tau_end a) by (unfold tau_end; apply Rabs_pos). repeat split; try lra; try lia; auto; now right.
Qed.

Lemma arnoldi_spec : forall s b j1 h, (0 <= j s <= m s)%Z -> (1 <= m s)%Z -> arnoldi s b = (j1, h) -> (1 <= j1 <= m s)%Z /\ (h = false -> j1 = m s).
Proof.
  intros s b j1 h J M. unfold arnoldi. destruct b as [k|].
  - destruct (Z.ltb_spec (j s) k); cbn [andb]; [|intros [= <- <-]; split; [lia|intros; lia]].
    destruct (Z.leb_spec k (m s)); intros [= <- <-]; split; try lia; intros; try discriminate; lia.
  - intros [= <- <-]. split; [lia|intros; lia].
Qed.

Lemma estimate_k_gt : forall s om, 1 < kest s \/ kestold s = true -> 1 < fst (estimate_k s om).
Proof.
  intros s om K. unfold estimate_k. destruct (_ && _).
  - destruct (omega s); [|cbn; lra]. destruct (Rlt_dec _ _); cbn; [|lra]. apply Rlt_le_trans with 1.1; [lra|apply Rmax_l].
  - destruct (_ || _) eqn:E; cbn [fst]; [lra|]. apply orb_false_iff in E as [E _]. destruct K as [K|K]; [exact K|congruence].
Qed.

Lemma raw_m_gt : forall j1 om g k, 0 < g -> g < om -> 1 < k -> exists r, raw_m j1 om g k = Some r /\ (j1 < r)%Z.
Proof.
  intros j1 om g k G O K. unfold raw_m. destruct (Rlt_dec 0 om); [|lra]. eexists. split; [reflexivity|]. apply ceil_up.
  assert (0 < ln (om / g)). { rewrite <- ln_1. apply ln_increasing; [lra|]. apply Rmult_lt_reg_r with g; [lra|]. unfold Rdiv. rewrite Rmult_assoc, Rinv_l by lra. lra. }
  assert (0 < ln k) by (rewrite <- ln_1; apply ln_increasing; lra). assert (0 < ln (om / g) / ln k) by (now apply Rdiv_lt_0_compat). lra.
Qed.

(** the decision keeps the substep and the basis size in their bounds; a rejection enlarges the basis or happens with the largest one *)
Lemma decide_spec : forall a s j1 h est d, good a -> inv a s -> tau_now s < tau_end a -> (1 <= j1 <= m s)%Z -> (h = false -> j1 = m s) -> decide a s j1 h est = Some d ->
  (mmin a <= d_m d <= mmax a)%Z /\
  (delta < d_omega d -> h = false /\ 0 < d_tau d <= tau_end a - tau_now s /\ (j1 <= d_m d)%Z /\ ((j1 < mmax a)%Z -> (j1 < d_m d)%Z /\ d_tau d = tau s)) /\
  (d_omega d <= delta -> tau_now s + tau s < tau_end a -> 0 < d_tau d <= tau_end a - (tau_now s + tau s)) /\
  (1 < d_kest d \/ d_kestold d = true).
Proof.
  intros a s j1 h est d (GN & GT & GM) (IN & IT & IM & IJ & IS & IF & IK) Lt J JH H. specialize (IT Lt). unfold decide in H. destruct h.
  - injection H as <-. cbn [d_m d_omega d_tau d_kest d_kestold]. split; [lia|split; [unfold delta; lra|split; [|exact IK]]]. intros _ R. split; [apply Rmin_case; lra|apply Rmin_l].
  - specialize (JH eq_refl). cbv zeta in H. set (om := tau_end a * Rabs est / (tau s * tol a)) in *. destruct (estimate_order s j1 om) as [[ord oo]|]; [|discriminate].
    pose proof (estimate_k_gt s om IK) as K. destruct (estimate_k s om) as [k ko]. cbn [fst] in K.
    pose proof (gamma_pos a) as G.
    assert (MO : forall raw, (mmin a <= m_opt a (m s) raw <= mmax a)%Z) by (intros raw; unfold m_opt; lia).
    destruct (ltR delta om) eqn:D.
    + apply ltR_true in D. destruct (Z.eqb_spec j1 (mmax a)) as [E|E]; injection H as <-; cbn [d_m d_omega d_tau d_kest d_kestold].
      * split; [lia|]. split; [|split; [lra|now left]]. intros _. split; [reflexivity|]. split; [|split; [lia|intros; lia]].
        split; [|apply Rmin_l]. apply Rmin_case; [lra|]. unfold raw_tau. destruct (Rlt_dec 0 om); [|lra]. apply Rlt_le_trans with (tau s / 5); [lra|apply Rmax_l].
      * split; [apply MO|]. split; [|split; [lra|now left]]. intros _. split; [reflexivity|]. destruct (raw_m_gt j1 om (gamma a) k) as (r & R & RL); try lra. rewrite R.
        assert (M1 : (m s + 1 <= - (- (4 * m s) / 3))%Z). { assert (Q : (- (4 * m s) / 3 < - m s)%Z); [|lia]. apply Z.div_lt_upper_bound; lia. }
        assert (L : (j1 < m_opt a (m s) (Some r))%Z) by (unfold m_opt; lia). rewrite Rmin_right by lra. split; [lra|]. split; [lia|]. intros _. now split.
    + apply ltR_false in D. destruct (Z.eqb_spec j1 (mmax a)) as [E|E]; injection H as <-; cbn [d_m d_omega d_tau d_kest d_kestold].
      * split; [lia|]. split; [lra|]. split; [|now left]. intros _ R. unfold tau_opt. split; [|apply Rmin_l]. apply Rmin_case; [lra|]. apply Rlt_le_trans with (tau s / 5); [lra|apply Rmax_l].
      * split; [apply MO|]. split; [lra|]. split; [|now left]. intros _ R. split; [|apply Rmin_l]. apply Rmin_case; lra.
Qed.

Lemma inv_pass : forall a s p s', good a -> inv a s -> tau_now s < tau_end a -> pass a s p = Some s' -> inv a s'.
Proof.
  intros a s p s' G I Lt H. pose proof I as (IN & IT & IM & IJ & IS & IF & IK). pose proof G as (GN & GT & GM). unfold pass in H. destruct (arnoldi s (breakdown p)) as [j1 h] eqn:A.
  destruct (arnoldi_spec s _ j1 h IJ ltac:(lia) A) as [J JH]. destruct (decide a s j1 h (estimate p)) as [d|] eqn:D; [|discriminate].
  destruct (decide_spec a s j1 h _ d G I Lt J JH D) as (DM & DR & DA & DK). specialize (IT Lt).
  destruct (ltR delta (d_omega d)) eqn:E; injection H as <-; unfold inv; cbn [tau_now tau m j substeps kest kestold].
  - apply ltR_true in E. destruct (DR E) as (_ & T & JM & _). repeat split; try lra; try lia; auto.
  - apply ltR_false in E. split; [lra|]. split; [intros R; now apply DA|]. split; [lia|]. split; [lia|]. split; [cbn [total fold_right]; fold (total (substeps s)); lra|]. split; [constructor; [lra|exact IF]|exact DK].
Qed.

Lemma inv_run : forall a ps s s', good a -> inv a s -> run a ps s = Some s' -> inv a s'.
Proof.
  intros a ps. induction ps as [|p ps IH]; intros s s' G I H; cbn [run] in H; [now injection H as <-|].
  destruct (Rlt_dec _ _) as [L|L]; [|now injection H as <-]. destruct (pass a s p) as [s1|] eqn:P; [|discriminate]. apply IH with s1; auto. now apply inv_pass with s p.
Qed.

(** ** The output times *)
Lemma count_sorted : forall (f : nat -> R) T n i, (forall x y, (i <= x < y)%nat -> (y < i + n)%nat -> f x <= f y) ->
  let b := length (filter (fun k => ltR (f k) T) (seq i n)) in (b <= n)%nat /\ forall k, (i <= k < i + n)%nat -> (f k < T <-> (k < i + b)%nat).
Proof.
  intros f T n. induction n as [|n IH]; intros i S b; [cbn in *; split; [lia|intros; lia]|]. subst b. cbn [seq filter]. destruct (ltR (f i) T) eqn:E.
  - destruct (IH (Datatypes.S i)) as [B C]; [intros; apply S; lia|]. cbn [length]. split; [lia|]. intros k K. destruct (Nat.eq_dec k i) as [->|N].
    + apply ltR_true in E. split; [lia|auto].
    + rewrite (C k) by lia. lia.
  - apply ltR_false in E. assert (Z : filter (fun k => ltR (f k) T) (seq (Datatypes.S i) n) = []).
    { clear IH. assert (G : forall k, In k (seq (Datatypes.S i) n) -> ltR (f k) T = false). { intros k K. apply in_seq in K. apply ltR_false. apply Rle_trans with (f i); [exact E|apply S; lia]. }
      revert G. generalize (seq (Datatypes.S i) n) as ks. induction ks as [|k ks IHk]; intros G; [reflexivity|]. cbn [filter]. rewrite G by now left. apply IHk. intros x X. apply G. now right. }
    rewrite Z. cbn [length]. split; [lia|]. intros k K. assert (f i <= f k) by (destruct (Nat.eq_dec k i) as [->|N]; [lra|apply S; lia]). split; [lra|lia].
Qed.

Definition positive (a : args) : Prop := 0 < last_out a /\ output_times (tau_out a).

(** rows before l are done, row l holds the present time, and the remaining output times are not passed *)
Definition outs (a : args) (s : state) : Prop :=
  (l s < length (tau_out a))%nat /\ (forall k, (k < l s)%nat -> times s k = nth k (tau_out a) 0) /\ times s (l s) = tau_now s /\
  (forall k, (l s <= k < length (tau_out a))%nat -> tau_now s <= nth k (tau_out a) 0).

Lemma nonneg : forall a k, positive a -> (k < length (tau_out a))%nat -> 0 <= nth k (tau_out a) 0 <= last_out a.
Proof.
  intros a k [P O] K. destruct (Nat.eq_dec k (length (tau_out a) - 1)) as [->|N].
  - fold (last_out a). lra.
  - destruct (O k (length (tau_out a) - 1)%nat) as (A & B & _); [lia|]. now split.
Qed.
Lemma end_is_last : forall a, positive a -> tau_end a = last_out a /\ sgn a = 1.
Proof. intros a [P _]. unfold tau_end, sgn, sign. destruct (Rlt_dec 0 (last_out a)); [|lra]. rewrite Rabs_pos_eq by lra. now split. Qed.

Lemma outs_start : forall a, good a -> positive a -> outs a (start a).
Proof.
  intros a (N & _) P. unfold outs, start. cbn. destruct (tau_out a) eqn:E; [contradiction|]. rewrite <- E. repeat split; try (rewrite E; cbn; lia); try (intros; lia).
  intros k K. apply nonneg; [exact P|lia].
Qed.

Lemma outs_accept : forall a s s', positive a -> inv a s -> outs a s -> tau_now s < tau_end a -> l s' = (l s + blown a s)%nat -> times s' = write_rows a s -> tau_now s' = tau_now s + tau s -> outs a s'.
Proof.
  intros a s s' P I O Lt L1 L2 L3. pose proof I as (IN & IT & _). pose proof O as (OL & OD & OT & OR).
  destruct (end_is_last a P) as [EL ES]. specialize (IT Lt). unfold outs. rewrite L1, L2, L3.
  destruct (count_sorted (fun k => Rabs (nth k (tau_out a) 0)) (Rabs (tau_now s + tau s)) (length (tau_out a) - l s) (l s)) as [B C].
  { intros x y X Y. rewrite !Rabs_pos_eq by (apply nonneg; [exact P|lia]). destruct P as [_ P]. apply (P x y). lia. }
  fold (blown a s) in B, C. set (b := blown a s) in *. cbv beta in C.
  assert (C' : forall k, (l s <= k < length (tau_out a))%nat -> (nth k (tau_out a) 0 < tau_now s + tau s <-> (k < l s + b)%nat)).
  { intros k K. rewrite <- (C k) by lia. rewrite (Rabs_pos_eq (nth _ _ _)) by (apply nonneg; [exact P|lia]). rewrite Rabs_pos_eq by lra. reflexivity. }
  assert (BL : (l s + b < length (tau_out a))%nat).
  { destruct (Nat.lt_ge_cases (l s + b) (length (tau_out a))) as [Q|Q]; [exact Q|]. exfalso. assert (X := proj2 (C' (length (tau_out a) - 1)%nat ltac:(lia)) ltac:(lia)). fold (last_out a) in X. lra. }
  repeat split.
  - exact BL.
  - intros k K. unfold write_rows. fold b. destruct (Nat.eqb_spec k (l s + b)); [lia|]. destruct (Nat.leb_spec (l s) k) as [Q|Q]; cbn [andb].
    + destruct (Nat.ltb_spec k (l s + b)); [|lia]. rewrite ES. lra.
    + apply OD. lia.
  - unfold write_rows. fold b. rewrite Nat.eqb_refl, ES. lra.
  - intros k K. destruct (Rle_or_lt (tau_now s + tau s) (nth k (tau_out a) 0)) as [Q|Q]; [exact Q|]. apply C' in Q; lia.
Qed.

Lemma outs_pass : forall a s p s', good a -> positive a -> inv a s -> outs a s -> tau_now s < tau_end a -> pass a s p = Some s' -> outs a s'.
Proof.
  intros a s p s' G P I O Lt H. unfold pass in H. destruct (arnoldi s (breakdown p)) as [j1 h].
  destruct (decide a s j1 h (estimate p)) as [d|]; [|discriminate]. destruct (ltR delta (d_omega d)); injection H as <-; [exact O|]. now apply outs_accept with s.
Qed.

Lemma outs_run : forall a ps s s', good a -> positive a -> inv a s -> outs a s -> run a ps s = Some s' -> outs a s'.
Proof.
  intros a ps. induction ps as [|p ps IH]; intros s s' G P I O H; cbn [run] in H; [now injection H as <-|].
  destruct (Rlt_dec _ _) as [L|L]; [|now injection H as <-]. destruct (pass a s p) as [s1|] eqn:E; [|discriminate]. apply IH with s1; auto; [now apply inv_pass with s p|now apply outs_pass with s p].
Qed.

(** ** What is claimed *)
Theorem substeps_ok : forall a ps s, good a -> run a ps (start a) = Some s ->
  List.Forall (fun t => 0 < t) (substeps s) /\ total (substeps s) = tau_now s /\ tau_now s <= tau_end a /\ (tau_now s < tau_end a -> 0 < tau s /\ tau_now s + tau s <= tau_end a) /\
  (~ tau_now s < tau_end a -> total (substeps s) = tau_end a).
Proof.
  intros a ps s G H. pose proof (inv_run a ps _ _ G (inv_start a G) H) as (IN & IT & IM & IJ & IS & IF & IK). repeat split; auto; try lra; intros L; specialize (IT L); lra.
Qed.
Theorem basis_ok : forall a ps s, good a -> run a ps (start a) = Some s -> (mmin a <= m s <= mmax a /\ 0 <= j s <= m s)%Z.
Proof. intros a ps s G H. pose proof (inv_run a ps _ _ G (inv_start a G) H) as (IN & IT & IM & IJ & _). now split. Qed.

Lemma outs_done : forall a s, positive a -> 0 <= tau_now s <= tau_end a -> outs a s -> ~ tau_now s < tau_end a -> forall k, (k < length (tau_out a))%nat -> times s k = nth k (tau_out a) 0.
Proof.
  intros a s P IN (OL & OD & OT & OR) F k K. pose proof P as [P0 O0]. destruct (end_is_last a P) as [EL _].
  assert (L : l s = (length (tau_out a) - 1)%nat).
  { destruct (Nat.eq_dec (l s) (length (tau_out a) - 1)) as [E|E]; [exact E|]. exfalso. destruct (O0 (l s) (length (tau_out a) - 1)%nat) as (_ & _ & Q); [lia|].
    specialize (Q eq_refl). specialize (OR (l s) ltac:(lia)). fold (last_out a) in Q. lra. }
  destruct (Nat.eq_dec k (l s)) as [->|N]; [|apply OD; lia]. rewrite OT, L. fold (last_out a). lra.
Qed.
Theorem outputs_ok : forall a ps s, good a -> 0 < last_out a -> output_times (tau_out a) -> run a ps (start a) = Some s -> ~ tau_now s < tau_end a ->
  forall k, (k < length (tau_out a))%nat -> times s k = nth k (tau_out a) 0.
Proof.
  intros a ps s G P0 O0 H F k K. pose proof (conj P0 O0 : positive a) as P. pose proof (inv_run a ps _ _ G (inv_start a G) H) as (IN & _).
  pose proof (outs_run a ps _ _ G P (inv_start a G) (outs_start a G P) H) as O. now apply outs_done.
Qed.

(** ** A rejected pass enlarges the basis or, when it is the largest, shortens the substep *)
Definition ord_ok (s : state) : Prop := 0 < order s \/ orderold s = true.
Lemma estimate_order_pos : forall s j1 om ord oo, ord_ok s -> (1 <= j1)%Z -> estimate_order s j1 om = Some (ord, oo) -> 0 < ord.
Proof.
  intros s j1 om ord oo K J. unfold estimate_order. assert (0 < IZR j1 / 4) by (assert (IZR 1 <= IZR j1) by (now apply IZR_le); lra). destruct (_ && _).
  - destruct (omega s); [|intros [= <- <-]; lra]. destruct (oldtau s); [|intros [= <- <-]; lra]. destruct (Rlt_dec _ _); [|discriminate]. intros [= <- <-]. apply Rlt_le_trans with 1; [lra|apply Rmax_l].
  - destruct (_ || _) eqn:E; intros [= <- <-]; [assumption|]. apply orb_false_iff in E as [E _]. destruct K as [K|K]; [exact K|congruence].
Qed.
Lemma decide_ord : forall a s j1 h est d, ord_ok s -> (1 <= j1)%Z -> decide a s j1 h est = Some d -> 0 < d_order d \/ d_orderold d = true.
Proof.
  intros a s j1 h est d K J H. unfold decide in H. destruct h; [injection H as <-; exact K|]. cbv zeta in H. destruct (estimate_order s j1 _) as [[ord oo]|] eqn:E; [|discriminate]. apply estimate_order_pos in E; auto.
  destruct (estimate_k _ _). destruct (if (j1 =? mmax a)%Z then _ else _) as [mn tn]. injection H as <-. now left.
Qed.
Lemma ord_run : forall a ps s s', good a -> inv a s -> ord_ok s -> run a ps s = Some s' -> ord_ok s'.
Proof.
  intros a ps. induction ps as [|p ps IH]; intros s s' G I O H; cbn [run] in H; [now injection H as <-|].
  destruct (Rlt_dec _ _) as [L|L]; [|now injection H as <-]. destruct (pass a s p) as [s1|] eqn:P; [|discriminate]. apply IH with s1; auto; [now apply inv_pass with s p|].
  pose proof I as (IN & IT & IM & IJ & _). pose proof G as (GN & GT & GM). unfold pass in P. destruct (arnoldi s (breakdown p)) as [j1 h] eqn:A. destruct (arnoldi_spec s _ j1 h IJ ltac:(lia) A) as [J JH].
  destruct (decide a s j1 h (estimate p)) as [d|] eqn:D; [|discriminate]. apply decide_ord in D; [|exact O|lia]. destruct (ltR _ _); injection P as <-; exact D.
Qed.
Lemma power_below_1 : forall x e, 0 < x < 1 -> 0 < e -> Rpower x e < 1.
Proof.
  intros x e X E. unfold Rpower. rewrite <- exp_0. apply exp_increasing. assert (ln x < 0) by (rewrite <- ln_1; apply ln_increasing; lra). nra.
Qed.
Theorem progress : forall a ps s p s', good a -> run a ps (start a) = Some s -> tau_now s < tau_end a -> pass a s p = Some s' -> tau_now s' = tau_now s ->
  ((m s < m s')%Z /\ tau s' = tau s) \/ (m s = mmax a /\ m s' = mmax a /\ tau s' < tau s).
Proof.
  intros a ps s p s' G H Lt P N. pose proof (inv_run a ps _ _ G (inv_start a G) H) as I. pose proof (ord_run a ps _ _ G (inv_start a G) (or_intror eq_refl) H) as O.
  pose proof I as (IN & IT & IM & IJ & _). pose proof G as (GN & GT & GM). unfold pass in P. destruct (arnoldi s (breakdown p)) as [j1 h] eqn:A.
  destruct (arnoldi_spec s _ j1 h IJ ltac:(lia) A) as [J JH]. destruct (decide a s j1 h (estimate p)) as [d|] eqn:D; [|discriminate].
  destruct (decide_spec a s j1 h _ d G I Lt J JH D) as (DM & DR & DA & DK). specialize (IT Lt).
  destruct (ltR delta (d_omega d)) eqn:E; injection P as <-; cbn [tau_now tau m] in *; [|lra]. apply ltR_true in E. destruct (DR E) as (H1 & DT & _ & Q). specialize (JH H1).
  destruct (Z.lt_ge_cases j1 (mmax a)) as [W|W]; [left; destruct (Q W); split; [lia|assumption]|]. right. assert (M : j1 = mmax a) by lia. split; [lia|].
  unfold decide in D. rewrite H1 in D. cbv zeta in D. destruct (estimate_order s j1 _) as [[ord oo]|] eqn:EO; [|discriminate]. apply estimate_order_pos in EO; [|exact O|lia]. destruct (estimate_k _ _) as [k ko].
  set (om := tau_end a * Rabs (estimate p) / (tau s * tol a)) in *. destruct (Z.eqb_spec j1 (mmax a)); [|lia]. destruct (ltR delta om) eqn:F; injection D as <-; cbn [d_omega d_m d_tau] in *; [|apply ltR_false in F; lra]. split; [exact M|].
  unfold raw_tau. assert (0 < delta) by (unfold delta; lra). destruct (Rlt_dec 0 om) as [OP|]; [|lra].
  assert (GM2 : 0 < gamma_mmax a < delta) by (unfold gamma_mmax, delta; destruct (Rlt_dec _ _); lra).
  assert (PW : Rpower (gamma_mmax a / om) (1 / ord) < 1). { apply power_below_1; [|apply Rdiv_lt_0_compat; lra]. split; [apply Rdiv_lt_0_compat; lra|]. apply Rmult_lt_reg_r with om; [lra|]. unfold Rdiv. rewrite Rmult_assoc, Rinv_l by lra. lra. }
  eapply Rle_lt_trans; [apply Rmin_r|]. apply Rmax_case; nra.
Qed.
