(** The error estimate of pmex is the integral of the defect of the approximation *)
From Coq Require Import Reals ZArith List Bool Arith Lra Lia.
From Coquelicot Require Import Coquelicot.
From Verif Require Import InnerSpec InnerFacts FgmresModel FgmresFacts VecTac KiopsModel PmexSpec PmexModel KiopsSpec KiopsProofs PmexProofs ExpmFacts ExpmMore PmexKrylov PmexCases PmexRotation.
Import ListNotations.
Local Open Scope R_scope.

Lemma defect : forall (V : ModuleSpace R_Ring) (A : V -> V), linear_map A -> forall (v : nat -> V) h H, (1 <= h)%nat -> (forall k, (k < h)%nat -> A (v k) = vsum (k + 2) (fun q => scal (V := V) (H q k) (v q))) ->
  (forall i k, (k < h)%nat -> (k + 1 < i)%nat -> H i k = 0) -> forall c : nat -> R,
  A (vsum h (fun i => scal (V := V) (c i) (v i))) = plus (vsum h (fun i => scal (V := V) (sum_to h (fun k => H i k * c k)) (v i))) (scal (V := V) (H h (h - 1)%nat * c (h - 1)%nat) (v h)).
Proof.
  intros V A L v h H Hh Rel Low c. rewrite linear_vsum by exact L.
  rewrite (vsum_ext h (fun i => A _) (fun i => scal (V := V) (c i) (vsum (S h) (fun q => scal (V := V) (H q i) (v q))))).
  2: { intros i I. rewrite (proj2 L), Rel by exact I. f_equal. symmetry. apply vsum_low; [lia|]. intros q Q. rewrite Low by lia. exact (scal_zero_l _). }
  rewrite (vsum_swap h (S h) c (fun j l => H l j) v). rewrite vsum_S. f_equal.
  - apply vsum_ext. intros i I. f_equal. change (sum_to h ?f) with (rsum h f). apply rsum_ext. intros; apply Rmult_comm.
  - f_equal. destruct h as [|h']; [lia|]. rewrite Nat.sub_succ, Nat.sub_0_r. cbn [rsum]. rewrite rsum_zero; [change (0 + c h' * H (S h') h' = H (S h') h' * c h'); ring|]. intros q Q. rewrite Low by lia. apply Rmult_0_r.
Qed.

Lemma p_pass_error : forall a delta s hf fl s', 1 <= delta -> p_pass a delta s (PProbe None hf fl) = Some s' ->
  (tau_now s' = tau_now s + tau s /\ step s' = S (step s) /\ conv s' = conv s + Rabs fl /\ tau_end a * Rabs fl / (tau s * tol a) <= delta) \/
  (tau_now s' = tau_now s /\ step s' = step s /\ conv s' = conv s /\ delta < tau_end a * Rabs fl / (tau s * tol a)).
Proof.
  intros a delta s hf fl s' DL H. unfold p_pass in H. cbn [p_breakdown] in H. unfold arnoldi in H. destruct (p_decide a delta s (Z.max (j s) (m s)) false _) as [d|] eqn:E; [|discriminate].
  assert (ER : d_err d = Rabs fl /\ d_omega d = tau_end a * Rabs fl / (tau s * tol a)).
  { unfold p_decide in E. cbv zeta in E. cbn [p_full p_half] in E. destruct (exponent _ _) as [o|]; [|discriminate]. destruct (estimate_k _ _). destruct (if (_ =? mmax a)%Z then _ else _) as [mn tn]. now injection E as <-. }
  destruct ER as [ER OM]. destruct (ltR delta (d_omega d)) eqn:LT; injection H as <-; cbn [tau_now step conv].
  - right. apply ltR_true in LT. rewrite OM in LT. now repeat split.
  - left. apply ltR_false in LT. rewrite OM in LT. rewrite ER. now repeat split.
Qed.

Section Defect.
Context {X : ModuleSpace R_Ring}.
Variable dot : X -> X -> R.
Hypothesis D : scalar_product dot.
Variable A : X -> X.
Hypothesis L : linear_map A.
Variable u : nat -> X.
Variable p : nat.
Hypothesis Hp : (1 <= p)%nat.
Variable ex : Z.
Variable expm : nat -> (nat -> nat -> R) -> nat -> nat -> R.
Notation row := (@row X).
Notation ad := (adot dot p).
Notation At := (augmented_product A u p ex).
Notation fp := (f_pass dot A u p ex expm).
Notation fr := (f_run dot A u p ex expm).

Theorem defect_ok : forall a delta n f f', 1 <= delta -> good a -> (forall n M, is_expm n M (expm n M)) -> fr a delta n (f_start u a) = Some f -> tau_now (ctl f) < tau_end a -> fp a delta f = Some f' ->
  snd (basis_of dot A u p ex a f) = false ->
  exists h b V H c G, Z.of_nat h = m (ctl f) /\
    (forall i k, (i <= h)%nat -> (k <= h)%nat -> ad (V i) (V k) = if Nat.eqb i k then 1 else 0) /\
    (forall t, exp_column h (fun i k => t * H i k) (c t)) /\
    let y t := vec_sum h (fun i => scal (V := row) (b * c t i) (V i)) in
    y 0 = start_row p ex (w f (l (ctl f))) (tau_now (ctl f)) /\
    (exists c', (forall t i, (i < h)%nat -> is_derive (fun t => c t i) t (c' t i)) /\
      forall t, At (y t) = plus (vec_sum h (fun i => scal (V := row) (b * c' t i) (V i))) (scal (V := row) (b * H h (h - 1)%nat * c t (h - 1)%nat) (V h))) /\
    is_RInt (fun t => b * H h (h - 1)%nat * c t (h - 1)%nat) 0 (sgn a * tau (ctl f)) G /\
    ((tau_now (ctl f') = tau_now (ctl f) + tau (ctl f) /\ w f' (l (ctl f')) = fst (y (sgn a * tau (ctl f))) /\ conv (ctl f') = conv (ctl f) + Rabs G /\ tau_end a * Rabs G / (tau (ctl f) * tol a) <= delta) \/
     (tau_now (ctl f') = tau_now (ctl f) /\ w f' = w f /\ conv (ctl f') = conv (ctl f) /\ delta < tau_end a * Rabs G / (tau (ctl f) * tol a))).
Proof.
  intros a delta n f f' DL G0 XM RN T P BD. destruct (finv_run dot D A u p Hp ex expm a delta n _ _ DL G0 ltac:(now apply finv_start) RN) as [I _].
  destruct (basis_of dot A u p ex a f) as [[K h] b0] eqn:B. cbn [snd] in BD. subst b0. destruct (basis_ok dot D A u p Hp ex a f K h false G0 I B) as (O & _ & P3 & _ & P5 & _).
  destruct O as (O1 & O2 & O3 & O4 & O5). pose proof P as P'. unfold f_pass in P. rewrite B in P.
  set (M := fun i k => sgn a * tau (ctl f) * with_phi (hm K) h i k). set (Fh := expm (S h) _) in P. set (F := mat_mul (S h) Fh Fh) in P.
  assert (EF : is_expm (S h) M F). { apply expm_square. apply is_expm_ext with (2 := XM (S h) _). intros; unfold M; replace 0.5 with (1 / 2) by lra; ring. }
  assert (W1 : forall i k, (i < h)%nat -> (k < h)%nat -> with_phi (hm K) h i k = hm K i k).
  { intros i k I1 I2. unfold with_phi. replace (i =? h)%nat with false by (symmetry; apply Nat.eqb_neq; lia). replace (k =? h)%nat with false by (symmetry; apply Nat.eqb_neq; lia). now rewrite andb_false_r. }
  assert (W2 : forall k, (k <= h)%nat -> with_phi (hm K) h h k = 0).
  { intros k Hk. unfold with_phi. rewrite Nat.eqb_refl. cbn [andb]. destruct (Nat.eqb_spec k (h - 1)); [reflexivity|]. replace (h =? 0)%nat with false by (symmetry; apply Nat.eqb_neq; lia). cbn [andb].
    destruct (le_lt_dec (h - 1) k) as [G1|G1]; [apply O4; lia|apply O3; lia]. }
  assert (W3 : forall i, (i < h)%nat -> with_phi (hm K) h i h = if Nat.eqb i 0 then 1 else 0).
  { intros i I1. unfold with_phi. replace (h =? h - 1)%nat with false by (symmetry; apply Nat.eqb_neq; lia). rewrite andb_false_r, Nat.eqb_refl, andb_true_r. destruct (i =? 0)%nat; [reflexivity|]. apply O4. lia. }
  set (c := column h (hm K)). exists h, (PmexModel.beta K), (vs K), (hm K), c, (PmexModel.beta K * hm K h (h - 1)%nat * F (h - 1)%nat h).
  split; [now apply P5|]. split; [exact O5|]. split; [intros t; apply column_ok|]. cbv zeta.
  assert (C1 : forall i, (i < h)%nat -> F i 0%nat = c (sgn a * tau (ctl f)) i).
  { intros i I1. apply (column_unique h (hm K) (sgn a * tau (ctl f)) (fun i => F i 0%nat) i); [|exact I1]. intros q Q. apply is_series_ext with (2 := is_expm_corner h M F P3 (fun q Q => eq_trans (f_equal (Rmult _) (W2 q ltac:(lia))) (Rmult_0_r _)) EF q Q).
    intros k. f_equal. apply mat_pow_ext; [|exact Q]. intros; unfold M; now rewrite W1. }
  assert (SC : forall (y : nat -> R), vec_sum h (fun i => scal (V := row) (PmexModel.beta K * y i) (vs K i)) = scal (V := row) (PmexModel.beta K) (vsum h (fun i => scal (V := row) (y i) (vs K i)))).
  { intros y. rewrite vec_sum_vsum, <- vsum_scal. apply vsum_ext. intros. apply scal_Rmult. }
  split; [|split; [|split]].
  - rewrite SC, <- O1. f_equal. rewrite (vsum_more h 1); [|lia|].
    + cbn [vsum]. rewrite plus_zero_l. rewrite <- (scal_one (V := row) (vs K 0%nat)) at 2. f_equal. unfold c, column. rewrite PSeries_0. unfold coefficient. cbn. unfold one. cbn. lra.
    + intros i I1. unfold c, column. rewrite PSeries_0. unfold coefficient. cbn. replace (i =? 0)%nat with false by (symmetry; apply Nat.eqb_neq; lia). rewrite Rmult_0_r. exact (scal_zero_l _).
  - exists (fun t i => sum_to h (fun k => hm K i k * c t k)). split; [intros t i I1; now apply column_derive|]. intros t. rewrite !SC. rewrite (proj2 (At_linear A L u p ex)).
    rewrite (defect _ At (At_linear A L u p ex) (vs K) h (hm K) P3 O2 O3 (c t)). rewrite scal_distr_l, <- scal_Rmult. do 2 f_equal. match goal with |- ?a = ?b => change (@eq R a b) end. ring.
  - assert (E : is_RInt (fun t => c t (h - 1)%nat) 0 (sgn a * tau (ctl f)) (F (h - 1)%nat h)).
    { apply (is_expm_last h (hm K) M (sgn a * tau (ctl f)) F P3); [| | |exact EF|lia].
      - intros q Q. unfold M. rewrite W2 by exact Q. ring.
      - intros i I1. unfold M. rewrite W3 by exact I1. destruct (i =? 0)%nat; ring.
      - intros i k I1 I2. unfold M. now rewrite W1. }
    apply (is_RInt_scal (V := R_NormedModule) _ _ _ (PmexModel.beta K * hm K h (h - 1)%nat)) in E. exact E.
  - match type of P with (match p_pass _ _ _ ?q with _ => _ end = _) => destruct (p_pass a delta (ctl f) q) as [s'|] eqn:E; [|discriminate] end.
    destruct (p_pass_error _ _ _ _ _ _ DL E) as [(E1 & E2 & E3 & E4)|(E1 & E2 & E3 & E4)].
    + left. rewrite E2 in P. replace (step (ctl f) <? S (step (ctl f)))%nat with true in P by (symmetry; apply Nat.ltb_lt; lia).
      assert (LL : l s' = (l (ctl f) + blown a (ctl f))%nat).
      { destruct (p_pass_cases _ _ _ _ _ _ _ DL E eq_refl) as [(_ & S1 & _)|(_ & _ & _ & LL)]; [lia|exact LL]. }
      apply (f_equal (fun o => match o with Some y => y | None => f' end)) in P. rewrite <- P. cbn [ctl w]. split; [exact E1|]. split; [|split; [exact E3|exact E4]].
      rewrite LL, Nat.eqb_refl. rewrite fst_combination. unfold combine_rows. apply vsum_ext. intros i I1. now rewrite C1.
    + right. rewrite E2, Nat.ltb_irrefl in P. apply (f_equal (fun o => match o with Some y => y | None => f' end)) in P. rewrite <- P. cbn [ctl w]. repeat split; assumption.
Qed.
End Defect.

Lemma rotation_pass : scalar_product pdot /\ linear_map (rot (3 * (PI / 2))) /\ good rargs /\ snd (basis_of pdot (rot (3 * (PI / 2))) east 1 0 rargs (f_start east rargs)) = false /\
  exists f', f_pass pdot (rot (3 * (PI / 2))) east 1 0 series_expm rargs 1.2 (f_start east rargs) = Some f'.
Proof.
  assert (C : 1 / 10 <= 3 * (PI / 2)) by (pose proof PI2_1; lra). pose proof (rot_start _ C) as W. split; [exact pdot_product|]. split; [apply rot_linear|]. split; [exact rgood|]. split.
  - destruct W as (_ & _ & _ & _ & K & B & _). now rewrite B.
  - destruct (spun_pass series_expm _ series_expm_ok W) as (f' & P & _). now exists f'.
Qed.
