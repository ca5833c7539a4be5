(** The statistics of kiops and pmex *)
From Coq Require Import Reals ZArith List Bool Lia Lra.
From Verif Require Import KiopsModel KiopsSpec KiopsProofs PmexModel PmexProofs.
Import ListNotations.
Local Open Scope R_scope.

Lemma pass_stats : forall a s p s', good a -> inv a s -> pass a s p = Some s' ->
  exps s' = S (exps s) /\ krystep s' = (krystep s + match breakdown p with Some h => if ((j s <? h) && (h <=? m s))%Z then h - 1 - j s else m s - j s | None => m s - j s end)%Z /\
  ((step s' = step s /\ substeps s' = substeps s /\ reject s' = reject s /\ ireject s' = S (ireject s) /\ conv s' = conv s /\ tau_now s' = tau_now s) \/
   (step s' = S (step s) /\ substeps s' = tau s :: substeps s /\ reject s' = (reject s + ireject s)%nat /\ ireject s' = 0%nat /\ tau_now s' = tau_now s + tau s /\
    conv s' = conv s + match breakdown p with Some h => if ((j s <? h) && (h <=? m s))%Z then 0 else Rabs (estimate p) | None => Rabs (estimate p) end)).
Proof.
  intros a s p s' G (_ & _ & IM & IJ & _) H. unfold pass, arnoldi in H.
  assert (MX : Z.max (j s) (m s) = m s) by lia.
  destruct (breakdown p) as [h|]; [destruct ((j s <? h) && (h <=? m s))%Z eqn:B|]; rewrite ?MX in H.
  - destruct (decide a s h true (estimate p)) as [d|] eqn:E; [|discriminate]. unfold decide in E. injection E as <-. cbn [d_omega d_err] in H. destruct (ltR delta 0) eqn:LT; [apply ltR_true in LT; unfold delta in LT; lra|].
    injection H as <-. unfold new_krylov. cbn. repeat split; try lia. right. repeat split.
  - destruct (decide a s (m s) false (estimate p)) as [d|] eqn:E; [|discriminate]. assert (ER : d_err d = Rabs (estimate p)).
    { unfold decide in E. cbv zeta in E. destruct (estimate_order _ _ _) as [[o oo]|]; [|discriminate]. destruct (estimate_k _ _). destruct (if (m s =? mmax a)%Z then _ else _) as [mn tn]. now injection E as <-. }
    destruct (ltR delta (d_omega d)); injection H as <-; unfold new_krylov; cbn; repeat split; try lia; [left|right]; repeat split. now rewrite ER.
  - destruct (decide a s (m s) false (estimate p)) as [d|] eqn:E; [|discriminate]. assert (ER : d_err d = Rabs (estimate p)).
    { unfold decide in E. cbv zeta in E. destruct (estimate_order _ _ _) as [[o oo]|]; [|discriminate]. destruct (estimate_k _ _). destruct (if (m s =? mmax a)%Z then _ else _) as [mn tn]. now injection E as <-. }
    destruct (ltR delta (d_omega d)); injection H as <-; unfold new_krylov; cbn; repeat split; try lia; [left|right]; repeat split. now rewrite ER.
Qed.
Lemma p_pass_stats : forall a delta s p s', 1 <= delta -> good a -> inv a s -> p_pass a delta s p = Some s' ->
  exps s' = S (exps s) /\ krystep s' = (krystep s + match p_breakdown p with Some h => if ((j s <? h) && (h <=? m s))%Z then h - 1 - j s else m s - j s | None => m s - j s end)%Z /\
  ((step s' = step s /\ substeps s' = substeps s /\ reject s' = reject s /\ ireject s' = S (ireject s) /\ conv s' = conv s /\ tau_now s' = tau_now s) \/
   (step s' = S (step s) /\ substeps s' = tau s :: substeps s /\ reject s' = (reject s + ireject s)%nat /\ ireject s' = 0%nat /\ tau_now s' = tau_now s + tau s /\
    conv s' = conv s + match p_breakdown p with Some h => if ((j s <? h) && (h <=? m s))%Z then 0 else Rabs (p_full p) | None => Rabs (p_full p) end)).
Proof.
  intros a delta s p s' DL G (_ & _ & IM & IJ & _) H. unfold p_pass, arnoldi in H.
  assert (MX : Z.max (j s) (m s) = m s) by lia.
  destruct (p_breakdown p) as [h|]; [destruct ((j s <? h) && (h <=? m s))%Z eqn:B|]; rewrite ?MX in H.
  - destruct (p_decide a delta s h true p) as [d|] eqn:E; [|discriminate]. unfold p_decide in E. injection E as <-. cbn [d_omega d_err] in H. destruct (ltR delta 0) eqn:LT; [apply ltR_true in LT; lra|].
    injection H as <-. unfold new_krylov. cbn. repeat split; try lia. right. repeat split.
  - destruct (p_decide a delta s (m s) false p) as [d|] eqn:E; [|discriminate]. assert (ER : d_err d = Rabs (p_full p)).
    { unfold p_decide in E. cbv zeta in E. destruct (exponent _ _) as [o|]; [|discriminate]. destruct (estimate_k _ _). destruct (if (m s =? mmax a)%Z then _ else _) as [mn tn]. now injection E as <-. }
    destruct (ltR delta (d_omega d)); injection H as <-; unfold new_krylov; cbn; repeat split; try lia; [left|right]; repeat split. now rewrite ER.
  - destruct (p_decide a delta s (m s) false p) as [d|] eqn:E; [|discriminate]. assert (ER : d_err d = Rabs (p_full p)).
    { unfold p_decide in E. cbv zeta in E. destruct (exponent _ _) as [o|]; [|discriminate]. destruct (estimate_k _ _). destruct (if (m s =? mmax a)%Z then _ else _) as [mn tn]. now injection E as <-. }
    destruct (ltR delta (d_omega d)); injection H as <-; unfold new_krylov; cbn; repeat split; try lia; [left|right]; repeat split. now rewrite ER.
Qed.

(** the counters of a state *)
Definition counted (a : args) (s : state) : Prop := step s = length (substeps s) /\ exps s = (step s + reject s + ireject s)%nat /\ (~ tau_now s < tau_end a -> ireject s = 0%nat).
Lemma counted_start : forall a, counted a (start a). Proof. intros a. repeat split. Qed.

(** kiops: the number of passes made with the probes ps, and those of them that were accepted *)
Theorem stats_ok : forall a ps s, good a -> run a ps (start a) = Some s ->
  step s = length (substeps s) /\ exps s = (step s + reject s + ireject s)%nat /\ (~ tau_now s < tau_end a -> exps s = (step s + reject s)%nat) /\ (tau_now s < tau_end a -> exps s = length ps) /\ (exps s <= length ps)%nat.
Proof.
  intros a ps s G H.
  assert (R : forall ps s0 s, inv a s0 -> counted a s0 -> run a ps s0 = Some s -> counted a s /\ (exps s0 <= exps s <= exps s0 + length ps)%nat /\ (tau_now s < tau_end a -> exps s = (exps s0 + length ps)%nat)).
  { clear ps s H. induction ps as [|p ps IH]; intros s0 s I C H; cbn [run length] in *; [injection H as <-; split; [exact C|]; split; intros; lia|].
    destruct (Rlt_dec (tau_now s0) (tau_end a)) as [T|T]; [|injection H as <-; split; [exact C|]; split; intros; [lia|lra]].
    destruct (pass a s0 p) as [s1|] eqn:P; [|discriminate]. pose proof (inv_pass a s0 p s1 G I T P) as I1. destruct (pass_stats a s0 p s1 G I P) as (E & _ & S1). destruct C as (C1 & C2 & C3).
    assert (Q : counted a s1).
    { destruct S1 as [(A1 & A2 & A3 & A4 & _ & A6)|(A1 & A2 & A3 & A4 & A5 & _)]; unfold counted; rewrite A1, A2, A3, A4, E; cbn [length]; (split; [lia|]; split; [lia|]); rewrite ?A6; [contradiction|reflexivity]. }
    destruct (IH s1 s I1 Q H) as (Q1 & Q2 & Q3). split; [exact Q1|]. split; [lia|]. intros L. specialize (Q3 L). lia. }
  destruct (R ps _ _ (inv_start a G) (counted_start a) H) as ((C1 & C2 & C3) & B & L). cbn [exps start] in *. split; [exact C1|]. split; [exact C2|]. split; [intros N; rewrite C2, (C3 N); lia|]. split; [intros T; specialize (L T); lia|lia].
Qed.
Theorem p_stats_ok : forall a delta ps s, 1 <= delta -> good a -> p_run a delta ps (start a) = Some s ->
  step s = length (substeps s) /\ exps s = (step s + reject s + ireject s)%nat /\ (~ tau_now s < tau_end a -> exps s = (step s + reject s)%nat) /\ (tau_now s < tau_end a -> exps s = length ps) /\ (exps s <= length ps)%nat.
Proof.
  intros a delta ps s DL G H.
  assert (R : forall ps s0 s, inv a s0 -> counted a s0 -> p_run a delta ps s0 = Some s -> counted a s /\ (exps s0 <= exps s <= exps s0 + length ps)%nat /\ (tau_now s < tau_end a -> exps s = (exps s0 + length ps)%nat)).
  { clear ps s H. induction ps as [|p ps IH]; intros s0 s I C H; cbn [p_run length] in *; [injection H as <-; split; [exact C|]; split; intros; lia|].
    destruct (Rlt_dec (tau_now s0) (tau_end a)) as [T|T]; [|injection H as <-; split; [exact C|]; split; intros; [lia|lra]].
    destruct (p_pass a delta s0 p) as [s1|] eqn:P; [|discriminate]. pose proof (p_inv_pass a delta s0 p s1 DL G I T P) as I1. destruct (p_pass_stats a delta s0 p s1 DL G I P) as (E & _ & S1). destruct C as (C1 & C2 & C3).
    assert (Q : counted a s1).
    { destruct S1 as [(A1 & A2 & A3 & A4 & _ & A6)|(A1 & A2 & A3 & A4 & A5 & _)]; unfold counted; rewrite A1, A2, A3, A4, E; cbn [length]; (split; [lia|]; split; [lia|]); rewrite ?A6; [contradiction|reflexivity]. }
    destruct (IH s1 s I1 Q H) as (Q1 & Q2 & Q3). split; [exact Q1|]. split; [lia|]. intros L. specialize (Q3 L). lia. }
  destruct (R ps _ _ (inv_start a G) (counted_start a) H) as ((C1 & C2 & C3) & B & L). cbn [exps start] in *. split; [exact C1|]. split; [exact C2|]. split; [intros N; rewrite C2, (C3 N); lia|]. split; [intros T; specialize (L T); lia|lia].
Qed.
(** what one more pass adds *)
Theorem added_ok : forall a ps s p s', good a -> run a ps (start a) = Some s -> tau_now s < tau_end a -> pass a s p = Some s' ->
  (breakdown p = None -> krystep s' = (krystep s + (m s - j s))%Z /\ conv s' = conv s + (if Rlt_dec (tau_now s) (tau_now s') then Rabs (estimate p) else 0)) /\
  (forall h, breakdown p = Some h -> (j s < h <= m s)%Z -> krystep s' = (krystep s + (h - 1 - j s))%Z /\ conv s' = conv s).
Proof.
  intros a ps s p s' G R T P. pose proof (inv_run a ps _ _ G (inv_start a G) R) as I. destruct (pass_stats a s p s' G I P) as (_ & K & S1). pose proof I as (IN & IT & _). specialize (IT T). split.
  - intros B. rewrite B in K, S1. split; [exact K|]. destruct S1 as [(_ & _ & _ & _ & C & N)|(_ & _ & _ & _ & N & C)]; rewrite C, N; destruct (Rlt_dec _ _); lra.
  - intros h B H. rewrite B in K, S1. replace ((j s <? h) && (h <=? m s))%Z with true in K, S1 by (symmetry; apply andb_true_intro; split; [apply Z.ltb_lt|apply Z.leb_le]; lia).
    split; [exact K|]. destruct S1 as [(_ & _ & _ & _ & C & _)|(_ & _ & _ & _ & _ & C)]; rewrite C; ring.
Qed.
Theorem p_added_ok : forall a delta ps s p s', 1 <= delta -> good a -> p_run a delta ps (start a) = Some s -> tau_now s < tau_end a -> p_pass a delta s p = Some s' ->
  (p_breakdown p = None -> krystep s' = (krystep s + (m s - j s))%Z /\ conv s' = conv s + (if Rlt_dec (tau_now s) (tau_now s') then Rabs (p_full p) else 0)) /\
  (forall h, p_breakdown p = Some h -> (j s < h <= m s)%Z -> krystep s' = (krystep s + (h - 1 - j s))%Z /\ conv s' = conv s).
Proof.
  intros a delta ps s p s' DL G R T P. pose proof (p_inv_run a delta ps _ _ DL G (inv_start a G) R) as I. destruct (p_pass_stats a delta s p s' DL G I P) as (_ & K & S1). pose proof I as (IN & IT & _). specialize (IT T). split.
  - intros B. rewrite B in K, S1. split; [exact K|]. destruct S1 as [(_ & _ & _ & _ & C & N)|(_ & _ & _ & _ & N & C)]; rewrite C, N; destruct (Rlt_dec _ _); lra.
  - intros h B H. rewrite B in K, S1. replace ((j s <? h) && (h <=? m s))%Z with true in K, S1 by (symmetry; apply andb_true_intro; split; [apply Z.ltb_lt|apply Z.leb_le]; lia).
    split; [exact K|]. destruct S1 as [(_ & _ & _ & _ & C & _)|(_ & _ & _ & _ & _ & C)]; rewrite C; ring.
Qed.

(** ** The last statistic is the size proposed for a substep that does not take place *)
Definition sargs : args := Args [1] (1 / 10) 20 10 128.
Lemma sgood : good sargs. Proof. unfold good; cbn; repeat split; try lra; try lia; discriminate. Qed.
Lemma ceil_le : forall x n, x <= IZR n -> (ceil x <= n)%Z.
Proof.
  intros x n H. unfold ceil. destruct (base_Int_part (- x)) as [_ B]. apply Z.lt_succ_r. apply lt_IZR. rewrite opp_IZR, succ_IZR. lra.
Qed.
Lemma small_m : forall om, 0 < om <= 9 / 320 -> (ceil (IZR 20 + ln (om / (9 / 10)) / ln 2) <= 15)%Z.
Proof.
  intros om O. apply ceil_le. assert (L2 : 0 < ln 2) by (rewrite <- ln_1; apply ln_increasing; lra).
  assert (E : ln (1 / 32) = - 5 * ln 2). { replace (1 / 32) with (/ (2 ^ 5)) by (simpl; lra). rewrite ln_Rinv by (apply pow_lt; lra). rewrite ln_pow by lra. simpl. ring. }
  assert (Q : ln (om / (9 / 10)) <= - 5 * ln 2). { rewrite <- E. apply Rcomplements.ln_le; [apply Rdiv_lt_0_compat; lra|]. apply Rmult_le_reg_r with (9 / 10); [lra|]. unfold Rdiv at 1. rewrite Rmult_assoc, Rinv_l by lra. lra. }
  assert (ln (om / (9 / 10)) / ln 2 <= -5). { apply Rmult_le_reg_r with (ln 2); [exact L2|]. unfold Rdiv. rewrite Rmult_assoc, Rinv_l by lra. lra. } lra.
Qed.
Theorem last_size : exists ps s, run sargs ps (start sargs) = Some s /\ ~ tau_now s < tau_end sargs /\ step s = 1%nat /\ krystep s = 20%Z /\ m s = 15%Z.
Proof.
  assert (TE : tau_end sargs = 1) by (unfold tau_end, last_out; cbn; apply Rabs_R1).
  exists [Probe None (1 / 400)]. unfold run. change (tau_now (start sargs)) with 0. rewrite TE. destruct (Rlt_dec 0 1) as [_|N]; [|lra].
  unfold pass. cbn [breakdown estimate]. change (arnoldi (start sargs) None) with (20%Z, false). unfold decide. change (tau (start sargs)) with (tau_end sargs). rewrite TE, (Rabs_pos_eq (1 / 400)) by lra.
  set (om := 1 * (1 / 400) / (1 * tol sargs)). assert (OM : om = 1 / 40) by (unfold om; cbn; field).
  change (estimate_order (start sargs) 20 om) with (Some (IZR 20 / 4, true)). change (estimate_k (start sargs) om) with (2, true). cbv iota zeta. change (20 =? mmax sargs)%Z with false. cbv iota.
  cbn [d_omega]. replace (ltR delta om) with false by (symmetry; apply ltR_false; unfold delta; lra). eexists. split; [reflexivity|]. cbn [tau_now step krystep m d_m].
  split; [cbn; lra|]. split; [reflexivity|]. split; [reflexivity|].
  assert (GA : gamma sargs = 9 / 10) by (unfold gamma; rewrite TE; destruct (Rlt_dec 1 1); lra). unfold raw_m. destruct (Rlt_dec 0 om) as [_|N]; [|lra]. rewrite GA.
  pose proof (small_m om ltac:(lra)) as S. unfold m_opt. change (m (start sargs)) with 20%Z. cbn [mmin mmax sargs]. set (r := ceil _) in *. clearbody r. change (3 * 20 / 4)%Z with 15%Z. change (- (- (4 * 20) / 3))%Z with 27%Z. lia.
Qed.
(** pmex keeps the size when it shortens the substep, so the size it returns is that of the last substep *)
Theorem p_size_ok : forall a delta ps s p s', 1 <= delta -> good a -> p_run a delta ps (start a) = Some s -> tau_now s < tau_end a -> p_pass a delta s p = Some s' -> ~ tau_now s' < tau_end a -> m s' = m s.
Proof.
  intros a delta ps s p s' DL G RN T P N. pose proof (p_inv_run a delta ps _ _ DL G (inv_start a G) RN) as I. pose proof I as (IN & IT & _). specialize (IT T).
  unfold p_pass in P. destruct (arnoldi s (p_breakdown p)) as [j1 h]. destruct (p_decide a delta s j1 h p) as [d|] eqn:E; [|discriminate].
  destruct (ltR delta (d_omega d)) eqn:L; injection P as <-; cbn [tau_now m] in *; [contradiction|].
  unfold p_decide in E. destruct h; [now injection E as <-|]. cbv zeta in E. destruct (exponent _ _) as [e|]; [|discriminate]. destruct (estimate_k _ _) as [k ko].
  destruct (j1 =? mmax a)%Z.
  - destruct (ltR delta (tau_end a * Rabs (p_full p) / (tau s * tol a))) eqn:Q; injection E as <-; cbn [d_omega d_m] in *; [congruence|reflexivity].
  - injection E as <-. cbn [d_omega d_m] in *. rewrite L. replace (ltR (Rmin _ _) _) with true; [reflexivity|]. symmetry. apply ltR_true. eapply Rle_lt_trans; [apply Rmin_l|]. lra.
Qed.

(** the reported error against the tolerance *)
Lemma pass_error : forall a s p s', good a -> inv a s -> tau_now s < tau_end a -> pass a s p = Some s' ->
  (tau_now s' = tau_now s /\ conv s' = conv s) \/ (tau_now s' = tau_now s + tau s /\ exists e, 0 <= e /\ conv s' = conv s + e /\ e * tau_end a <= KiopsModel.delta * tol a * tau s).
Proof.
  intros a s p s' G I T H. pose proof I as (_ & _ & IM & IJ & _). assert (TP : 0 < tau s) by (destruct I as (_ & IT & _); apply (IT T)). assert (TL : 0 < tol a) by apply G. unfold pass, arnoldi in H.
  assert (Z0 : 0 * tau_end a <= KiopsModel.delta * tol a * tau s) by (unfold KiopsModel.delta; pose proof (Rmult_lt_0_compat _ _ TL TP); lra).
  assert (MX : Z.max (j s) (m s) = m s) by lia.
  assert (OK : forall d, decide a s (m s) false (estimate p) = Some d -> d_err d = Rabs (estimate p) /\ d_omega d = tau_end a * Rabs (estimate p) / (tau s * tol a)).
  { intros d E. unfold decide in E. cbv zeta in E. destruct (estimate_order _ _ _) as [[o oo]|]; [|discriminate]. destruct (estimate_k _ _). destruct (if (m s =? mmax a)%Z then _ else _) as [mn tn]. now injection E as <-. }
  assert (BD : forall x, tau_end a * x / (tau s * tol a) <= KiopsModel.delta -> x * tau_end a <= KiopsModel.delta * tol a * tau s).
  { intros x Q. apply (Rmult_le_compat_r (tau s * tol a)) in Q; [|apply Rlt_le; now apply Rmult_lt_0_compat]. unfold Rdiv in Q. rewrite Rmult_assoc, Rinv_l in Q by (apply Rgt_not_eq; now apply Rmult_lt_0_compat). lra. }
  destruct (breakdown p) as [h|]; [destruct ((j s <? h) && (h <=? m s))%Z eqn:B|]; rewrite ?MX in H.
  - destruct (decide a s h true (estimate p)) as [d|] eqn:E; [|discriminate]. unfold decide in E. injection E as <-. cbn [d_omega d_err] in H. destruct (ltR KiopsModel.delta 0) eqn:LT; [apply ltR_true in LT; unfold KiopsModel.delta in LT; lra|].
    injection H as <-. cbn. right. split; [reflexivity|]. exists 0. split; [lra|]. split; [reflexivity|exact Z0].
  - destruct (decide a s (m s) false (estimate p)) as [d|] eqn:E; [|discriminate]. destruct (OK d eq_refl) as [ER OM]. destruct (ltR KiopsModel.delta (d_omega d)) eqn:LT; injection H as <-; cbn; [left; now split|right]. split; [reflexivity|]. apply ltR_false in LT. rewrite OM in LT. exists (Rabs (estimate p)). split; [apply Rabs_pos|]. rewrite ER. split; [reflexivity|now apply BD].
  - destruct (decide a s (m s) false (estimate p)) as [d|] eqn:E; [|discriminate]. destruct (OK d eq_refl) as [ER OM]. destruct (ltR KiopsModel.delta (d_omega d)) eqn:LT; injection H as <-; cbn; [left; now split|right]. split; [reflexivity|]. apply ltR_false in LT. rewrite OM in LT. exists (Rabs (estimate p)). split; [apply Rabs_pos|]. rewrite ER. split; [reflexivity|now apply BD].
Qed.
Lemma p_pass_error' : forall a delta s p s', 1 <= delta -> good a -> inv a s -> tau_now s < tau_end a -> p_pass a delta s p = Some s' ->
  (tau_now s' = tau_now s /\ conv s' = conv s) \/ (tau_now s' = tau_now s + tau s /\ exists e, 0 <= e /\ conv s' = conv s + e /\ e * tau_end a <= delta * tol a * tau s).
Proof.
  intros a delta s p s' DL G I T H. pose proof I as (_ & _ & IM & IJ & _). assert (TP : 0 < tau s) by (destruct I as (_ & IT & _); apply (IT T)). assert (TL : 0 < tol a) by apply G. unfold p_pass, arnoldi in H.
  assert (Z0 : 0 * tau_end a <= delta * tol a * tau s) by (pose proof (Rmult_lt_0_compat _ _ (Rmult_lt_0_compat delta _ ltac:(lra) TL) TP); lra).
  assert (MX : Z.max (j s) (m s) = m s) by lia.
  assert (OK : forall d, p_decide a delta s (m s) false p = Some d -> d_err d = Rabs (p_full p) /\ d_omega d = tau_end a * Rabs (p_full p) / (tau s * tol a)).
  { intros d E. unfold p_decide in E. cbv zeta in E. destruct (exponent _ _) as [o|]; [|discriminate]. destruct (estimate_k _ _). destruct (if (m s =? mmax a)%Z then _ else _) as [mn tn]. now injection E as <-. }
  assert (BD : forall x, tau_end a * x / (tau s * tol a) <= delta -> x * tau_end a <= delta * tol a * tau s).
  { intros x Q. apply (Rmult_le_compat_r (tau s * tol a)) in Q; [|apply Rlt_le; now apply Rmult_lt_0_compat]. unfold Rdiv in Q. rewrite Rmult_assoc, Rinv_l in Q by (apply Rgt_not_eq; now apply Rmult_lt_0_compat). lra. }
  destruct (p_breakdown p) as [h|]; [destruct ((j s <? h) && (h <=? m s))%Z eqn:B|]; rewrite ?MX in H.
  - destruct (p_decide a delta s h true p) as [d|] eqn:E; [|discriminate]. unfold p_decide in E. injection E as <-. cbn [d_omega d_err] in H. destruct (ltR delta 0) eqn:LT; [apply ltR_true in LT; lra|].
    injection H as <-. cbn. right. split; [reflexivity|]. exists 0. split; [lra|]. split; [reflexivity|exact Z0].
  - destruct (p_decide a delta s (m s) false p) as [d|] eqn:E; [|discriminate]. destruct (OK d eq_refl) as [ER OM]. destruct (ltR delta (d_omega d)) eqn:LT; injection H as <-; cbn; [left; now split|right]. split; [reflexivity|]. apply ltR_false in LT. rewrite OM in LT. exists (Rabs (p_full p)). split; [apply Rabs_pos|]. rewrite ER. split; [reflexivity|now apply BD].
  - destruct (p_decide a delta s (m s) false p) as [d|] eqn:E; [|discriminate]. destruct (OK d eq_refl) as [ER OM]. destruct (ltR delta (d_omega d)) eqn:LT; injection H as <-; cbn; [left; now split|right]. split; [reflexivity|]. apply ltR_false in LT. rewrite OM in LT. exists (Rabs (p_full p)). split; [apply Rabs_pos|]. rewrite ER. split; [reflexivity|now apply BD].
Qed.
Definition bounded (a : args) (D : R) (s : state) : Prop := 0 <= conv s /\ conv s * tau_end a <= D * tol a * tau_now s.
Theorem error_ok : forall a ps s, good a -> run a ps (start a) = Some s -> 0 <= conv s /\ conv s * tau_end a <= 1.4 * tol a * tau_now s /\ conv s <= 1.4 * tol a.
Proof.
  intros a ps s G H. assert (TL : 0 < tol a) by apply G.
  destruct (Rlt_dec 0 (tau_end a)) as [TE|TE]. 2: { assert (E : s = start a) by (destruct ps; cbn [run] in H; [now injection H|]; destruct (Rlt_dec _ _) as [Y|_]; [contradiction|now injection H]). subst s. cbn. repeat split; lra. }
  assert (B : forall ps s0 s, inv a s0 -> bounded a 1.4 s0 -> run a ps s0 = Some s -> inv a s /\ bounded a 1.4 s).
  { clear ps s H. induction ps as [|p ps IH]; intros s0 s I C H; cbn [run] in *; [injection H as <-; now split|].
    destruct (Rlt_dec (tau_now s0) (tau_end a)) as [T|T]; [|injection H as <-; now split].
    destruct (pass a s0 p) as [s1|] eqn:P; [|discriminate]. apply (IH s1 s (inv_pass a s0 p s1 G I T P)); [|exact H]. destruct C as [C0 C1].
    destruct (pass_error a s0 p s1 G I T P) as [[E1 E2]|(E1 & e & EP & E2 & E3)]; unfold bounded; rewrite E1, E2; [now split|]. unfold KiopsModel.delta in E3. split; [lra|nra]. }
  assert (B0 : bounded a 1.4 (start a)) by (unfold bounded; cbn; split; lra).
  destruct (B ps _ _ (inv_start a G) B0 H) as [I [C0 C1]]. split; [exact C0|]. split; [exact C1|]. assert (TN : tau_now s <= tau_end a) by apply I.
  apply (Rmult_le_reg_r (tau_end a)); [exact TE|]. apply Rle_trans with (1 := C1). apply Rmult_le_compat_l; [|exact TN]. assert (0 < tol a) by apply G. lra.
Qed.
Theorem p_error_ok : forall a delta ps s, 1 <= delta -> good a -> p_run a delta ps (start a) = Some s -> 0 <= conv s /\ conv s * tau_end a <= delta * tol a * tau_now s /\ conv s <= delta * tol a.
Proof.
  intros a delta ps s DL G H. assert (TL : 0 < tol a) by apply G. assert (DT : 0 < delta * tol a) by (apply Rmult_lt_0_compat; lra).
  destruct (Rlt_dec 0 (tau_end a)) as [TE|TE]. 2: { assert (E : s = start a) by (destruct ps; cbn [p_run] in H; [now injection H|]; destruct (Rlt_dec _ _) as [Y|_]; [contradiction|now injection H]). subst s. cbn. repeat split; lra. }
  assert (B : forall ps s0 s, inv a s0 -> bounded a delta s0 -> p_run a delta ps s0 = Some s -> inv a s /\ bounded a delta s).
  { clear ps s H. induction ps as [|p ps IH]; intros s0 s I C H; cbn [p_run] in *; [injection H as <-; now split|].
    destruct (Rlt_dec (tau_now s0) (tau_end a)) as [T|T]; [|injection H as <-; now split].
    destruct (p_pass a delta s0 p) as [s1|] eqn:P; [|discriminate]. apply (IH s1 s (p_inv_pass a delta s0 p s1 DL G I T P)); [|exact H]. destruct C as [C0 C1].
    destruct (p_pass_error' a delta s0 p s1 DL G I T P) as [[E1 E2]|(E1 & e & EP & E2 & E3)]; unfold bounded; rewrite E1, E2; [now split|]. split; [lra|nra]. }
  assert (B0 : bounded a delta (start a)) by (unfold bounded; cbn; split; lra).
  destruct (B ps _ _ (inv_start a G) B0 H) as [I [C0 C1]]. split; [exact C0|]. split; [exact C1|]. assert (TN : tau_now s <= tau_end a) by apply I.
  apply (Rmult_le_reg_r (tau_end a)); [exact TE|]. apply Rle_trans with (1 := C1). apply Rmult_le_compat_l; [|exact TN]. assert (0 < tol a) by apply G. apply Rlt_le, Rmult_lt_0_compat; lra.
Qed.
