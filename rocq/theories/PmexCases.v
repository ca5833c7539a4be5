(** Concrete runs of pmex *)
From Coq Require Import Reals ZArith List Bool Arith Lra Lia.
From Coquelicot Require Import Coquelicot.
From Verif Require Import InnerSpec InnerFacts FgmresModel FgmresFacts VecTac KiopsModel PmexSpec PmexModel KiopsSpec KiopsProofs PmexProofs ExpmFacts PmexKrylov.
Import ListNotations.
Local Open Scope R_scope.

(** ** A breakdown: one unknown, A = 0, u = [1, 1]. The result is phi_0(0) + phi_1(0) = 2 *)
Definition zero_map : R_ModuleSpace -> R_ModuleSpace := fun _ => 0.
Definition ones : nat -> R_ModuleSpace := fun _ => 1.
Lemma mult_product : scalar_product (V := R_ModuleSpace) Rmult.
Proof.
  split; [exact Rmult_comm|]. split; [intros x y z; change ((x + y) * z = x * z + y * z); ring|]. split; [intros a x y; change (a * x * y = a * (x * y)); ring|]. split; [exact Rle_0_sqr|].
  intros x H. change (x = 0). destruct (Rmult_integral _ _ H); assumption.
Qed.
Lemma zero_linear : linear_map zero_map.
Proof. split; [intros x y; change (0 = 0 + 0); ring|intros a x; change (0 = a * 0); ring]. Qed.
Notation row1 := (@row R_ModuleSpace).
Notation ad1 := (adot (X := R_ModuleSpace) Rmult 1).
Notation At1 := (augmented_product zero_map ones 1 0).
Lemma ad1_eq : forall x y : row1, ad1 x y = fst x * fst y + snd x 0%nat * snd y 0%nat.
Proof. intros x y. unfold adot. cbn [rsum]. ring. Qed.
Lemma ad1_val : forall (x y : row1) (a b c d e : R), fst x = a /\ snd x 0%nat = b -> fst y = c /\ snd y 0%nat = d -> a * c + b * d = e -> ad1 x y = e.
Proof. intros x y a b c d e [<- <-] [<- <-] <-. apply ad1_eq. Qed.
Lemma sc1_val : forall (x : row1) (k a b e f : R), fst x = a /\ snd x 0%nat = b -> k * a = e -> k * b = f -> fst (scal (V := row1) k x) = e /\ snd (scal (V := row1) k x) 0%nat = f.
Proof. intros x k a b e f [<- <-] <- <-. split; reflexivity. Qed.
Lemma At1_fst : forall v : row1, fst (At1 v) = snd v 0%nat.
Proof. intros v. unfold augmented_product, zero_map, ones, nu. cbn. unfold plus, zero, scal; cbn. unfold mult; cbn. match goal with |- ?a = ?b => change (@eq R a b) end. ring. Qed.
Lemma At1_snd : forall v : row1, snd (At1 v) 0%nat = 0.
Proof. reflexivity. Qed.
Definition bargs : args := Args [1] (1 / 10) 10 10 128.
Lemma bgood : good bargs. Proof. unfold good; cbn; repeat split; try lra; try lia; discriminate. Qed.
Lemma fst_scal : forall a (x : row1), fst (scal (V := row1) a x) = a * fst x. Proof. reflexivity. Qed.
Lemma snd_scal : forall a (x : row1) k, snd (scal (V := row1) a x) k = a * snd x k. Proof. reflexivity. Qed.
Lemma fst_sub : forall x y : row1, fst (plus x (opp y)) = fst x - fst y. Proof. reflexivity. Qed.
Lemma snd_sub : forall (x y : row1) k, snd (plus x (opp y)) k = snd x k - snd y k. Proof. reflexivity. Qed.
Lemma fst_plus : forall x y : row1, fst (plus x y) = fst x + fst y. Proof. reflexivity. Qed.
Lemma snd_plus : forall (x y : row1) k, snd (plus x y) k = snd x k + snd y k. Proof. reflexivity. Qed.
Lemma fst_zero : fst (zero : row1) = 0. Proof. reflexivity. Qed.
Lemma snd_zero : forall k, snd (zero : row1) k = 0. Proof. reflexivity. Qed.
Ltac rows := repeat first [rewrite fst_sub | rewrite snd_sub | rewrite fst_scal | rewrite snd_scal | rewrite fst_plus | rewrite snd_plus | rewrite fst_zero | rewrite snd_zero | rewrite At1_fst | rewrite At1_snd].
Ltac req := match goal with |- ?a = ?b => change (@eq R a b) end.
Definition q2 : R := / sqrt 2.
Lemma q2_sqr : q2 * q2 = 1 / 2.
Proof. unfold q2. rewrite <- Rinv_mult, sqrt_sqrt by lra. lra. Qed.
Lemma q2_pos : 0 < q2. Proof. unfold q2. apply Rinv_0_lt_compat, sqrt_lt_R0. lra. Qed.
Lemma q2_beta : sqrt 2 * q2 = 1. Proof. unfold q2. apply Rinv_r. pose proof (sqrt_lt_R0 2). lra. Qed.

Lemma break_basis : exists K, orths (X := R_ModuleSpace) Rmult zero_map ones 1 0 (1 / 10) 10 (first_row (X := R_ModuleSpace) Rmult 1 0 kry0 1 0) 0 = (K, 2%nat, true) /\
  PmexModel.beta K = sqrt 2 /\ fst (vs K 0%nat) = q2 /\ fst (vs K 1%nat) = q2 /\ hm K 0%nat 0%nat = 1 / 2 /\ hm K 1%nat 0%nat = 1 / 2 /\ hm K 2%nat 0%nat = 0 /\ (forall i k, (1 <= k)%nat -> hm K i k = 0).
Proof.
  pose proof mult_product as D. pose proof zero_linear as L.
  set (K0 := first_row (X := R_ModuleSpace) Rmult 1 0 kry0 1 0).
  destruct (first_ok Rmult D zero_map ones 1 (le_n 1) 0 (kry0 (X := R_ModuleSpace)) 1 0) as [O0 C0]; [split; reflexivity|]. fold K0 in O0, C0.
  assert (B : sqrt (ad1 (start_row 1 0 (1 : R_ModuleSpace) 0) (start_row 1 0 (1 : R_ModuleSpace) 0)) = sqrt 2) by (f_equal; rewrite ad1_eq; unfold start_row, augmented, mu; cbn; ring).
  assert (B0 : PmexModel.beta K0 = sqrt 2) by exact B.
  assert (F0 : fst (vs K0 0%nat) = q2) by (unfold K0, first_row; cbn [vs set1 Nat.eqb]; rewrite B; unfold q2; unfold start_row; rewrite fst_scal; cbn [fst]; req; ring).
  assert (S0 : snd (vs K0 0%nat) 0%nat = q2) by (unfold K0, first_row; cbn [vs set1 Nat.eqb]; rewrite B; unfold q2; unfold start_row; rewrite snd_scal; cbn [snd]; unfold augmented, mu; cbn; req; ring).
  pose proof q2_sqr as Q. pose proof q2_pos as QP.
  destruct (orth_shape Rmult D zero_map ones 1 (le_n 1) 0 (1 / 10) _ K0 0 O0 C0) as [_ (N1 & I1 & HN1 & HI1 & E1)].
  set (v := At1 (vs K0 0%nat)) in E1. set (r := plus v _) in E1.
  assert (V1 : fst v = q2 /\ snd v 0%nat = 0) by (unfold v; rows; rewrite S0; split; reflexivity).
  assert (Cv : ad1 (vs K0 0%nat) v = 1 / 2) by (apply (ad1_val _ _ _ _ _ _ _ (conj F0 S0) V1); lra).
  assert (R1 : fst r = q2 / 2 /\ snd r 0%nat = - q2 / 2) by (unfold r; cbn [vsum]; rows; rewrite Cv, F0, S0; destruct V1 as [-> ->]; split; req; lra).
  assert (NR : sqrt (ad1 r r) = 1 / 2).
  { assert (AR : ad1 r r = 1 / 2 * (1 / 2)) by (apply (ad1_val _ _ _ _ _ _ _ R1 R1); lra). rewrite AR. apply sqrt_square. lra. }
  rewrite NR in E1. destruct (Rlt_dec (1 / 2) (1 / 10)) as [X|_] in E1; [lra|]. match type of E1 with _ = (?k, false) => set (K1 := k) in E1 end.
  destruct (orth_ok Rmult D zero_map ones 1 (le_n 1) 0 (1 / 10) _ K0 0 K1 false ltac:(lra) O0 C0 E1) as (O1 & C1 & _).
  destruct (orth_shape Rmult D zero_map ones 1 (le_n 1) 0 (1 / 10) _ K1 1 O1 C1) as [_ (N2 & I2 & HN2 & HI2 & E2)].
  assert (F1 : fst (vs K1 0%nat) = q2 /\ snd (vs K1 0%nat) 0%nat = q2) by (split; assumption).
  assert (G1 : fst (vs K1 1%nat) = q2 /\ snd (vs K1 1%nat) 0%nat = - q2).
  { apply (sc1_val _ (/ (1 / 2)) _ _ _ _ R1); lra. }
  set (v2 := At1 (vs K1 1%nat)) in E2. set (r2 := plus v2 _) in E2.
  assert (V2 : fst v2 = - q2 /\ snd v2 0%nat = 0) by (unfold v2; rows; split; [apply G1|reflexivity]).
  assert (Ca : ad1 (vs K1 0%nat) v2 = - (1 / 2)) by (apply (ad1_val _ _ _ _ _ _ _ F1 V2); lra).
  assert (Cb : ad1 (vs K1 1%nat) v2 = - (1 / 2)) by (apply (ad1_val _ _ _ _ _ _ _ G1 V2); lra).
  assert (R2 : fst r2 = 0 /\ snd r2 0%nat = 0) by (unfold r2; cbn [vsum]; rows; rewrite Ca, Cb; destruct F1 as [-> ->], G1 as [-> ->], V2 as [-> ->]; split; req; lra).
  assert (NR2 : sqrt (ad1 r2 r2) = 0) by (rewrite (ad1_val _ _ _ _ _ _ 0 R2 R2) by ring; apply sqrt_0).
  rewrite NR2 in E2. destruct (Rlt_dec 0 (1 / 10)) as [_|X] in E2; [|lra].
  cbn [orths]. rewrite E1, E2. eexists. split; [reflexivity|]. cbn [vs hm PmexModel.beta]. split; [exact B0|]. split; [apply F1|]. split; [apply G1|].
  split; [exact Cv|]. split; [reflexivity|]. split; [reflexivity|]. intros i k Hk. unfold K1. cbn [hm]. replace (k =? 0)%nat with false by (symmetry; apply Nat.eqb_neq; lia). reflexivity.
Qed.

Lemma exp_series : forall x, is_series (fun k => / INR (fact k) * x ^ k) (exp x).
Proof. intros x. apply is_pseries_R. apply is_exp_Reals. Qed.
Lemma break_powers : forall H, H 0%nat 0%nat = 1 / 2 -> H 1%nat 0%nat = 1 / 2 -> H 0%nat 1%nat = 0 -> H 1%nat 1%nat = 0 -> forall k, mat_pow 2 H k 0 0 = (1 / 2) ^ k /\ mat_pow 2 H (S k) 1 0 = (1 / 2) ^ S k.
Proof.
  intros H H00 H10 H01 H11. assert (P : forall k, mat_pow 2 H k 0 0 = (1 / 2) ^ k).
  { induction k as [|k IH]; [reflexivity|]. cbn [mat_pow sum_to]. rewrite IH, H00, H01. cbn [pow]. ring. }
  intros k. split; [apply P|]. cbn [mat_pow sum_to]. rewrite P, H10, H11. cbn [pow]. ring.
Qed.
Lemma break_column : forall H F, H 0%nat 0%nat = 1 / 2 -> H 1%nat 0%nat = 1 / 2 -> H 0%nat 1%nat = 0 -> H 1%nat 1%nat = 0 -> exp_column 2 H F -> F 0%nat = exp (1 / 2) /\ F 1%nat = exp (1 / 2) - 1.
Proof.
  intros H F H00 H10 H01 H11 E. pose proof (break_powers H H00 H10 H01 H11) as P. split.
  - rewrite <- (is_series_unique _ _ (E 0%nat ltac:(lia))), <- (is_series_unique _ _ (exp_series (1 / 2))). apply Series_ext. intros k. now rewrite (proj1 (P k)).
  - rewrite <- (is_series_unique _ _ (E 1%nat ltac:(lia))). apply is_series_unique.
    apply is_series_ext with (fun k => / INR (fact k) * (1 / 2) ^ k - (match k with O => 1 | _ => 0 end)).
    + intros [|k]; [cbn; req; field|]. rewrite (proj2 (P k)). req. ring.
    + apply (is_series_minus (K := R_AbsRing) (V := R_NormedModule) (fun k => / INR (fact k) * (1 / 2) ^ k) (fun k => match k with O => 1 | _ => 0 end) (exp (1 / 2)) 1); [apply exp_series|].
      apply filterlim_ext with (fun _ => 1); [|apply filterlim_const]. intros n. induction n as [|n IH]; [now rewrite sum_O|]. rewrite sum_Sn, <- IH. change (1 = 1 + 0). ring.
Qed.
(** the square of the exponential of half the matrix, restricted to the first rows *)
Lemma square_column : forall (expm : nat -> (nat -> nat -> R) -> nat -> nat -> R) h c H, (1 <= h)%nat -> (forall n M, is_expm n M (expm n M)) -> (forall q, (q <= h)%nat -> H h q = 0) ->
  exp_column h (fun i k => c * H i k) (fun i => mat_mul (S h) (expm (S h) (fun i k => 1 / 2 * (c * H i k))) (expm (S h) (fun i k => 1 / 2 * (c * H i k))) i 0%nat).
Proof.
  intros expm h c H Hh X Z i I. apply is_expm_block with (F := mat_mul (S h) (expm (S h) (fun i k => 1 / 2 * (c * H i k))) (expm (S h) (fun i k => 1 / 2 * (c * H i k)))); [exact Hh|intros q Q; rewrite Z by exact Q; ring| |exact I]. apply expm_square. apply X.
Qed.

Theorem break_run : forall expm, (forall n M, is_expm n M (expm n M)) -> exists f, f_run (X := R_ModuleSpace) Rmult zero_map ones 1 0 expm bargs 1.2 1 (f_start ones bargs) = Some f /\
  tau_now (ctl f) = 1 /\ conv (ctl f) = 0 /\ w f 0%nat = 2 * exp (1 / 2) - 1.
Proof.
  intros expm X. destruct break_basis as (K & B & Bb & F0 & F1 & H00 & H10 & H20 & HZ).
  assert (TE : tau_end bargs = 1) by (unfold tau_end, last_out; cbn; apply Rabs_R1).
  assert (SG : sgn bargs = 1) by (unfold sgn, sign, last_out; cbn; destruct (Rlt_dec 0 1); lra).
  cbn [f_run]. change (tau_now (ctl (f_start ones bargs))) with 0. rewrite TE. destruct (Rlt_dec 0 1) as [_|N]; [|lra].
  unfold f_pass. assert (BO : basis_of Rmult zero_map ones 1 0 bargs (f_start ones bargs) = (K, 2%nat, true)) by exact B. rewrite BO. cbv zeta beta.
  match goal with |- context [p_pass bargs 1.2 (ctl (f_start ones bargs)) ?q] => set (pr := q) end.
  assert (PB : arnoldi (ctl (f_start ones bargs)) (p_breakdown pr) = (2%Z, true)) by reflexivity.
  unfold p_pass. rewrite PB. unfold p_decide. cbn [d_omega]. replace (ltR 1.2 0) with false by (symmetry; apply ltR_false; lra).
  assert (BL : blown bargs (ctl (f_start ones bargs)) = 0%nat).
  { unfold blown. cbn [ctl f_start start l tau_now tau tau_out length Nat.sub seq filter nth bargs]. replace (ltR _ _) with false; [reflexivity|]. symmetry. apply ltR_false. change (tau_end _) with (tau_end bargs). rewrite TE. rewrite Rplus_0_l. lra. }
  cbn [step]. change (step (ctl (f_start ones bargs)) <? S (step (ctl (f_start ones bargs))))%nat with true. cbv iota. eexists. split; [reflexivity|]. cbn [ctl w tau_now conv]. split; [change (0 + tau_end bargs = 1); lra|]. split; [cbn; lra|].
  rewrite BL. change (l (ctl (f_start ones bargs)) + 0)%nat with 0%nat. cbn [Nat.eqb]. unfold combine_rows. cbn [vsum].
  set (Fh := expm 3%nat _).
  assert (CO : exp_column 2 (fun i k => 1 * with_phi (hm K) 2 i k) (fun i => mat_mul 3 Fh Fh i 0%nat)).
  { assert (EF : Fh = expm 3%nat (fun i k => 1 / 2 * (1 * with_phi (hm K) 2 i k))).
    { unfold Fh. f_equal. apply FunctionalExtensionality.functional_extensionality. intros i. apply FunctionalExtensionality.functional_extensionality. intros k. rewrite SG. change (tau (ctl (f_start ones bargs))) with (tau_end bargs). rewrite TE. replace 0.5 with (1 / 2) by lra. ring. }
    rewrite EF. apply square_column; [lia|exact X|]. intros q Hq. unfold with_phi. cbn [Nat.eqb Nat.sub andb]. destruct (Nat.eqb_spec q 1); [reflexivity|]. destruct q as [|[|q]]; [exact H20|lia|apply HZ; lia]. }
  destruct (break_column (fun i k => 1 * with_phi (hm K) 2 i k) (fun i => mat_mul 3 Fh Fh i 0%nat)) as [G0 G1]; [| | | |exact CO|]; try (unfold with_phi; cbn [Nat.eqb Nat.sub andb]; rewrite ?H00, ?H10, ?HZ by lia; ring).
  rewrite G0, G1, F0, F1, Bb. change (0 + sqrt 2 * exp (1 / 2) * q2 + sqrt 2 * (exp (1 / 2) - 1) * q2 = 2 * exp (1 / 2) - 1). pose proof q2_beta as Q.
  replace (0 + sqrt 2 * exp (1 / 2) * q2 + sqrt 2 * (exp (1 / 2) - 1) * q2) with (sqrt 2 * q2 * (2 * exp (1 / 2) - 1)) by ring. rewrite Q. ring.
Qed.
Lemma half_exp : 3 / 2 < exp (1 / 2). Proof. pose proof (exp_ineq1 (1 / 2)). lra. Qed.
Theorem break_wrong : forall expm, (forall n M, is_expm n M (expm n M)) -> exists f, f_run (X := R_ModuleSpace) Rmult zero_map ones 1 0 expm bargs 1.2 1 (f_start ones bargs) = Some f /\
  tau_now (ctl f) = tau_end bargs /\ conv (ctl f) = 0 /\ w f 0%nat = 2 * exp (1 / 2) - 1 /\ 2 < 2 * exp (1 / 2) - 1.
Proof.
  intros expm X. destruct (break_run expm X) as (f & R & N & C & W). exists f. split; [exact R|]. split; [rewrite N; unfold tau_end, last_out; cbn; now rewrite Rabs_R1|]. split; [exact C|]. split; [exact W|]. pose proof half_exp. lra.
Qed.
Lemma break_pass : scalar_product (V := R_ModuleSpace) Rmult /\ linear_map zero_map /\ good bargs /\ exists f', f_pass (X := R_ModuleSpace) Rmult zero_map ones 1 0 series_expm bargs 1.2 (f_start ones bargs) = Some f' /\ 0 < tau_now (ctl f').
Proof.
  split; [exact mult_product|]. split; [exact zero_linear|]. split; [exact bgood|]. destruct (break_run series_expm series_expm_ok) as (f & R & N & _). cbn [f_run] in R. change (tau_now (ctl (f_start ones bargs))) with 0 in R.
  destruct (Rlt_dec _ _) as [_|Y] in R; [|unfold tau_end, last_out in Y; cbn in Y; rewrite Rabs_R1 in Y; lra]. destruct (f_pass _ _ _ _ _ _ _ _ _) as [f'|] in R |- *; [|discriminate]. injection R as ->. exists f. split; [reflexivity|]. rewrite N. lra.
Qed.
