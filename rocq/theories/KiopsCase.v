(** A run of kiops with a breakdown: one unknown, A = 0, u = [1, 1] *)
From Coq Require Import Reals ZArith List Bool Arith Lra Lia.
From Coquelicot Require Import Coquelicot.
From Verif Require Import InnerSpec InnerFacts FgmresModel FgmresFacts VecTac KiopsModel PmexSpec PmexModel KiopsSpec KiopsProofs ExpmFacts ExpmMore PmexKrylov PmexCases KiopsLinear KiopsKrylov.
Import ListNotations.
Local Open Scope R_scope.
Notation orth1 := (k_orth (X := R_ModuleSpace) Rmult zero_map ones 1 0 2 (1 / 10)).

Lemma k_break_basis : exists K, k_orths (X := R_ModuleSpace) Rmult zero_map ones 1 0 2 (1 / 10) 10 (k_first (X := R_ModuleSpace) Rmult 1 0 basis0 1 0) 0 = (K, 2%nat, true) /\
  bb K = sqrt 2 /\ fst (bv K 0%nat) = q2 /\ fst (bv K 1%nat) = q2 /\ bh K 0%nat 0%nat = 1 / 2 /\ bh K 1%nat 0%nat = 1 / 2 /\ bh K 0%nat 1%nat = - (1 / 2) /\ bh K 1%nat 1%nat = - (1 / 2) /\ bh K 2%nat 0%nat = 0.
Proof.
  set (K0 := k_first (X := R_ModuleSpace) Rmult 1 0 basis0 1 0).
  assert (B : sqrt (ad1 (start_row 1 0 (1 : R_ModuleSpace) 0) (start_row 1 0 (1 : R_ModuleSpace) 0)) = sqrt 2) by (f_equal; rewrite ad1_eq; unfold start_row, augmented, mu; cbn; ring).
  assert (B0 : bb K0 = sqrt 2) by exact B.
  assert (F0 : fst (bv K0 0%nat) = q2) by (unfold K0, k_first; cbn [bv set1 Nat.eqb]; rewrite B; unfold q2; unfold start_row; rewrite fst_scal; cbn [fst]; req; ring).
  assert (S0 : snd (bv K0 0%nat) 0%nat = q2) by (unfold K0, k_first; cbn [bv set1 Nat.eqb]; rewrite B; unfold q2; unfold start_row; rewrite snd_scal; cbn [snd]; unfold augmented, mu; cbn; req; ring).
  assert (Z0 : forall i k, bh K0 i k = 0) by reflexivity. clearbody K0. pose proof q2_sqr as Q. pose proof q2_pos as QP.
  assert (E1 : exists K1, orth1 K0 1 = (K1, false) /\ bb K1 = sqrt 2 /\ (fst (bv K1 0%nat) = q2 /\ snd (bv K1 0%nat) 0%nat = q2) /\ (fst (bv K1 1%nat) = q2 /\ snd (bv K1 1%nat) 0%nat = - q2) /\ bh K1 0%nat 0%nat = 1 / 2 /\ bh K1 1%nat 0%nat = 1 / 2 /\ forall i k, (k <> 0)%nat \/ (1 < i)%nat -> bh K1 i k = 0).
  { unfold k_orth. cbn [Nat.sub Nat.add]. cbv zeta. set (v1 := set1 (bv K0) 1 (At1 (bv K0 0%nat))).
    assert (A0 : fst (v1 0%nat) = q2 /\ snd (v1 0%nat) 0%nat = q2) by (split; assumption).
    assert (A1 : fst (v1 1%nat) = q2 /\ snd (v1 1%nat) 0%nat = 0) by (split; [transitivity (fst (At1 (bv K0 0%nat))); [reflexivity|rewrite At1_fst; exact S0]|reflexivity]). clearbody v1.
    assert (C : ad1 (v1 0%nat) (v1 1%nat) = 1 / 2) by (apply (ad1_val _ _ _ _ _ _ _ A0 A1); lra). cbn [vsum Nat.eqb Nat.leb Nat.ltb andb]. rewrite C.
    set (v := plus (v1 1%nat) _). assert (R1 : fst v = q2 / 2 /\ snd v 0%nat = - q2 / 2) by (unfold v; rows; destruct A0 as [-> ->], A1 as [-> ->]; split; req; lra). clearbody v.
    assert (NR : sqrt (ad1 v v) = 1 / 2).
    { assert (AR : ad1 v v = 1 / 2 * (1 / 2)) by (apply (ad1_val _ _ _ _ _ _ _ R1 R1); lra). rewrite AR. apply sqrt_square. lra. }
    rewrite NR. destruct (Rlt_dec (1 / 2) (1 / 10)) as [Y|_]; [lra|]. eexists. split; [reflexivity|]. cbn [bv bh bb]. split; [exact B0|]. split; [exact A0|]. split; [apply (sc1_val _ (/ (1 / 2)) _ _ _ _ R1); lra|]. split; [exact C|]. split; [reflexivity|].
    intros i k N. destruct k as [|k]; [destruct i as [|[|i]]; [lia|lia|cbn; apply Z0]|destruct i as [|[|i]]; cbn; apply Z0]. }
  destruct E1 as (K1 & E1 & B1 & A0 & A1 & H00 & H10 & HZ).
  assert (E2 : exists K2, orth1 K1 2 = (K2, true) /\ bb K2 = sqrt 2 /\ bv K2 0%nat = bv K1 0%nat /\ bv K2 1%nat = bv K1 1%nat /\ (forall i, bh K2 i 0%nat = bh K1 i 0%nat) /\ bh K2 0%nat 1%nat = - (1 / 2) /\ bh K2 1%nat 1%nat = - (1 / 2)).
  { unfold k_orth. cbn [Nat.sub Nat.add]. cbv zeta. set (v1 := set1 (bv K1) 2 (At1 (bv K1 1%nat))).
    assert (D0 : v1 0%nat = bv K1 0%nat) by reflexivity. assert (D1 : v1 1%nat = bv K1 1%nat) by reflexivity.
    assert (A2 : fst (v1 2%nat) = - q2 /\ snd (v1 2%nat) 0%nat = 0) by (split; [transitivity (fst (At1 (bv K1 1%nat))); [reflexivity|rewrite At1_fst; apply A1]|reflexivity]). rewrite <- D0 in A0. rewrite <- D1 in A1.
    assert (Ca : ad1 (v1 0%nat) (v1 2%nat) = - (1 / 2)) by (apply (ad1_val _ _ _ _ _ _ _ A0 A2); lra).
    assert (Cb : ad1 (v1 1%nat) (v1 2%nat) = - (1 / 2)) by (apply (ad1_val _ _ _ _ _ _ _ A1 A2); lra). cbn [vsum Nat.eqb Nat.leb Nat.ltb andb]. rewrite Ca, Cb.
    set (v := plus (v1 2%nat) _). assert (R1 : fst v = 0 /\ snd v 0%nat = 0) by (unfold v; rows; destruct A0 as [-> ->], A1 as [-> ->], A2 as [-> ->]; split; req; lra). clearbody v.
    assert (NR : sqrt (ad1 v v) = 0) by (rewrite (ad1_val _ _ _ _ _ _ 0 R1 R1) by ring; apply sqrt_0).
    rewrite NR. destruct (Rlt_dec 0 (1 / 10)) as [_|Y]; [|lra]. eexists. split; [reflexivity|]. cbn [bv bh bb]. split; [exact B1|]. split; [exact D0|]. split; [exact D1|]. split; [reflexivity|]. split; [exact Ca|exact Cb]. }
  destruct E2 as (K2 & E2 & B2 & D0 & D1 & H0 & H01 & H11). exists K2. cbn [k_orths]. rewrite E1, E2. split; [reflexivity|]. split; [exact B2|]. rewrite D0, D1, !H0. split; [apply A0|]. split; [apply A1|]. split; [exact H00|]. split; [exact H10|]. split; [exact H01|]. split; [exact H11|]. apply HZ. lia.
Qed.
Lemma k_break_column : forall H F, H 0%nat 0%nat = 1 / 2 -> H 1%nat 0%nat = 1 / 2 -> H 0%nat 1%nat = - (1 / 2) -> H 1%nat 1%nat = - (1 / 2) -> exp_column 2 H F -> F 0%nat = 3 / 2 /\ F 1%nat = 1 / 2.
Proof.
  intros H F H00 H10 H01 H11 E.
  assert (P1 : mat_pow 2 H 1 0 0 = 1 / 2 /\ mat_pow 2 H 1 1 0 = 1 / 2) by (cbn [mat_pow sum_to Nat.eqb]; rewrite H00, H10; split; ring).
  assert (P2 : forall k, mat_pow 2 H (S (S k)) 0 0 = 0 /\ mat_pow 2 H (S (S k)) 1 0 = 0).
  { induction k as [|k [I1 I2]]; [change (mat_pow 2 H 2) with (fun i q => sum_to 2 (fun r => H i r * mat_pow 2 H 1 r q))|change (mat_pow 2 H (S (S (S k)))) with (fun i q => sum_to 2 (fun r => H i r * mat_pow 2 H (S (S k)) r q))]; cbn [sum_to].
    - destruct P1 as [-> ->]. rewrite H00, H10, H01, H11. split; ring.
    - rewrite I1, I2. split; ring. }
  assert (SUM : forall a : nat -> R, (forall k, a (S (S k)) = 0) -> is_series a (a 0%nat + a 1%nat)).
  { intros a Z. apply filterlim_ext_loc with (fun _ => a 0%nat + a 1%nat); [|apply filterlim_const]. exists 1%nat. intros n N. destruct n as [|n]; [lia|]. clear N. induction n as [|n IH]; [rewrite sum_Sn, sum_O; reflexivity|]. rewrite sum_Sn, <- IH, Z. change (a 0%nat + a 1%nat = a 0%nat + a 1%nat + 0). ring. }
  split.
  - rewrite <- (is_series_unique _ _ (E 0%nat ltac:(lia))). rewrite (is_series_unique _ _ (SUM (fun k => / INR (fact k) * mat_pow 2 H k 0 0) (fun k => eq_trans (f_equal (Rmult _) (proj1 (P2 k))) (Rmult_0_r _)))). rewrite (proj1 P1). cbn. field.
  - rewrite <- (is_series_unique _ _ (E 1%nat ltac:(lia))). rewrite (is_series_unique _ _ (SUM (fun k => / INR (fact k) * mat_pow 2 H k 1 0) (fun k => eq_trans (f_equal (Rmult _) (proj2 (P2 k))) (Rmult_0_r _)))). rewrite (proj2 P1). cbn. field.
Qed.
Theorem k_break_run : forall expm, (forall n M, is_expm n M (expm n M)) -> exists f, k_pass (X := R_ModuleSpace) Rmult zero_map ones 1 0 2 expm bargs (k_start ones bargs) = Some f /\
  tau_now (kctl f) = tau_end bargs /\ conv (kctl f) = 0 /\ kw f 0%nat = 2.
Proof.
  intros expm XM. destruct k_break_basis as (K & B & Bb & F0 & F1 & H00 & H10 & H01 & H11 & H20).
  assert (TE : tau_end bargs = 1) by (unfold tau_end, last_out; cbn; apply Rabs_R1).
  assert (SG : sgn bargs = 1) by (unfold sgn, sign, last_out; cbn; destruct (Rlt_dec 0 1); lra).
  unfold k_pass. assert (BO : k_basis Rmult zero_map ones 1 0 2 bargs (k_start ones bargs) = (K, 2%nat, true)) by exact B. rewrite BO. cbv zeta beta.
  match goal with |- context [pass bargs (kctl (k_start ones bargs)) ?q] => set (pr := q) end.
  assert (PB : arnoldi (kctl (k_start ones bargs)) (breakdown pr) = (2%Z, true)) by reflexivity.
  unfold pass. rewrite PB. unfold decide. cbn [d_omega]. replace (ltR delta 0) with false by (symmetry; apply ltR_false; unfold delta; lra).
  assert (BL : blown bargs (kctl (k_start ones bargs)) = 0%nat).
  { unfold blown. cbn [kctl k_start start l tau_now tau tau_out length Nat.sub seq filter nth bargs]. replace (ltR _ _) with false; [reflexivity|]. symmetry. apply ltR_false. change (tau_end _) with (tau_end bargs). rewrite TE. rewrite Rplus_0_l. lra. }
  cbn [step]. change (step (kctl (k_start ones bargs)) <? S (step (kctl (k_start ones bargs))))%nat with true. cbv iota. eexists. split; [reflexivity|]. cbn [kctl kw tau_now conv]. split; [change (0 + tau_end bargs = tau_end bargs); lra|]. split; [cbn; lra|].
  rewrite BL. change (l (kctl (k_start ones bargs)) + 0)%nat with 0%nat. cbn [Nat.eqb]. unfold k_combine. cbn [vsum].
  set (F := expm 3%nat _).
  assert (CO : exp_column 2 (fun i k => sgn bargs * tau (kctl (k_start ones bargs)) * with_phi (bh K) 2 i k) (fun i => F i 0%nat)).
  { apply is_expm_corner; [lia| |apply XM]. intros q Q. unfold with_phi. cbn [Nat.eqb Nat.sub andb]. destruct q as [|[|q]]; [cbn [Nat.eqb]; rewrite H20; ring|cbn [Nat.eqb]; ring|lia]. }
  destruct (fun a b c d => k_break_column _ _ a b c d CO) as [G0 G1]; try (rewrite SG; change (tau (kctl (k_start ones bargs))) with (tau_end bargs); rewrite TE; unfold with_phi; cbn [Nat.eqb Nat.sub andb]; rewrite ?H00, ?H10, ?H01, ?H11; ring).
  rewrite G0, G1, F0, F1, Bb. change (0 + sqrt 2 * (3 / 2) * q2 + sqrt 2 * (1 / 2) * q2 = 2). pose proof q2_beta as Q. replace (0 + sqrt 2 * (3 / 2) * q2 + sqrt 2 * (1 / 2) * q2) with (2 * (sqrt 2 * q2)) by field. rewrite Q. ring.
Qed.

(** ** The theorem on all passes, with the three cases of its hypothesis *)
Lemma k_krylov_all : forall (X : ModuleSpace R_Ring) (dot : X -> X -> R), scalar_product dot -> forall A, linear_map A -> forall (u : nat -> X) p, (1 <= p)%nat -> forall ex iop expm a n f f',
  good a -> (forall n M, is_expm n M (expm n M)) ->
  k_run dot A u p ex iop expm a n (k_start u a) = Some f -> tau_now (kctl f) < tau_end a -> k_pass dot A u p ex iop expm a f = Some f' ->
  (tau_now (kctl f) = 0 \/ (mmax a <= Z.of_nat iop)%Z \/
   forall i g K h, (i < n)%nat -> k_run dot A u p ex iop expm a i (k_start u a) = Some g -> tau_now (kctl g) < tau_end a -> k_basis dot A u p ex iop a g = (K, h, true) -> ~ (Z.of_nat iop <= Z.of_nat h < mmax a)%Z) ->
  let At := augmented_product A u p ex in let x := start_row p ex (kw f (l (kctl f))) (tau_now (kctl f)) in
  exists h b V H r c, (1 <= h)%nat /\
    (forall i k, (i < h)%nat -> (k < h)%nat -> (i <= k + iop)%nat -> (k <= i + iop)%nat -> adot dot p (V i) (V k) = if Nat.eqb i k then 1 else 0) /\
    (forall k, (k < h - 1)%nat -> At (V k) = vec_sum h (fun i => scal (H i k) (V i))) /\
    At (V (h - 1)%nat) = plus (vec_sum h (fun i => scal (H i (h - 1)%nat) (V i))) r /\
    (forall i k, (i < h)%nat -> (k < h)%nat -> (k + 1 < i \/ i + iop <= k)%nat -> H i k = 0) /\
    (forall i, (i < h)%nat -> (h <= i + iop)%nat -> adot dot p (V i) r = 0) /\
    reproduces At x h b h H h V /\ (r = zero -> forall d, reproduces At x d b h H h V) /\
    (forall t, exp_column h (fun i k => t * H i k) (c t)) /\
    let y t := vec_sum h (fun i => scal (b * c t i) (V i)) in
    y 0 = x /\
    (exists c', (forall t i, (i < h)%nat -> is_derive (fun t => c t i) t (c' t i)) /\
      forall t, At (y t) = plus (vec_sum h (fun i => scal (b * c' t i) (V i))) (scal (b * c t (h - 1)%nat) r)) /\
    ((exists G, is_RInt (fun t => b * sqrt (adot dot p r r) * c t (h - 1)%nat) 0 (sgn a * tau (kctl f)) G /\ Z.of_nat h = m (kctl f) /\ tol a <= sqrt (adot dot p r r) /\
       ((tau_now (kctl f') = tau_now (kctl f) + tau (kctl f) /\ conv (kctl f') = conv (kctl f) + Rabs G /\ tau_end a * Rabs G / (tau (kctl f) * tol a) <= 1.4) \/
        (tau_now (kctl f') = tau_now (kctl f) /\ kw f' = kw f /\ conv (kctl f') = conv (kctl f) /\ 1.4 < tau_end a * Rabs G / (tau (kctl f) * tol a)))) \/
     ((Z.of_nat h <= m (kctl f))%Z /\ sqrt (adot dot p r r) < tol a /\ tau_now (kctl f') = tau_now (kctl f) + tau (kctl f) /\ conv (kctl f') = conv (kctl f))) /\
    (tau_now (kctl f) < tau_now (kctl f') -> kw f' (l (kctl f')) = fst (y (sgn a * tau (kctl f))) /\
      (forall k, (l (kctl f) <= k < l (kctl f'))%nat -> kw f' k = fst (y (sgn a * (nth k (tau_out a) 0 - tau_now (kctl f))))) /\ (forall k, (k < l (kctl f))%nat -> kw f' k = kw f k)).
Proof.
  intros X dot D A L u p Hp ex iop expm a n f f' G XM RN T P H. apply (k_krylov dot D A L u p Hp ex iop expm a n f f' G XM); auto.
  destruct H as [H|[H|H]].
  - apply (first_harmless dot D A u p Hp ex iop expm a n _ f G); [now apply kinv_start|exact RN|]. cbn. lra.
  - now apply full_harmless.
  - intros i g Hi R1 TG K h B HB. apply (H i g K h Hi R1 TG B). unfold mx in HB. lia.
Qed.
