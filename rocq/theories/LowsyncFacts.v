(** Arnoldi decompositions are unique and reproduce polynomials; the products of the files *)
From Coq Require Import Reals ZArith List Bool Arith Lra Lia FunctionalExtensionality.
From Coquelicot Require Import Coquelicot.
From Verif Require Import InnerSpec InnerFacts FgmresModel FgmresFacts FgmresProofs VecTac KiopsModel ExpmFacts PmexSpec PmexModel PmexKrylov LowsyncModel LowsyncSpec LowsyncProofs.
Import ListNotations.
Local Open Scope R_scope.

Section Unique.
Context {W : ModuleSpace R_Ring}.
Variable op : W -> W.
Hypothesis OL : linear_map op.
Variable lp : W -> W -> R.
Hypothesis lp_sym : forall x y, lp x y = lp y x.
Hypothesis lp_plus : forall x y z, lp (plus x y) z = lp x z + lp y z.
Hypothesis lp_scal : forall a x z, lp (scal (V := W) a x) z = a * lp x z.
Notation dec := (decomposition lp op).

Lemma dec_coefficient : forall x m b V H i k, dec x m b V H -> (k < m)%nat -> (i <= k + 1)%nat -> H i k = lp (V i) (op (V k)).
Proof.
  intros x m b V H i k (D0 & D1 & D2 & D3 & D4 & D5) K I. rewrite D3 by exact K. rewrite vec_sum_vsum, lp_sym, (lp_vsum lp lp_plus lp_scal).
  rewrite (rsum_ext (k + 2) _ (fun q => H q k * (if Nat.eqb q i then 1 else 0))) by (intros q Q; rewrite lp_scal, D2 by lia; reflexivity). rewrite rsum_one by lia. reflexivity.
Qed.
Lemma dec_next : forall x m b V H k, dec x m b V H -> (k < m)%nat -> scal (V := W) (H (k + 1)%nat k) (V (k + 1)%nat) = plus (op (V k)) (opp (vsum (k + 1) (fun i => scal (V := W) (H i k) (V i)))).
Proof. intros x m b V H k (D0 & D1 & D2 & D3 & D4 & D5) K. rewrite D3 by exact K. rewrite vec_sum_vsum. replace (k + 2)%nat with (S (k + 1)) by lia. rewrite vsum_S. set (s := vsum _ _). clearbody s. vec. Qed.
Lemma square_unique : forall a b : R, 0 < a -> 0 < b -> a * a = b * b -> a = b.
Proof. intros. nra. Qed.
Theorem dec_unique : forall x m b V H b' V' H', dec x m b V H -> dec x m b' V' H' ->
  b = b' /\ (forall i, (i <= m)%nat -> V i = V' i) /\ (forall i k, (i <= m)%nat -> (k < m)%nat -> H i k = H' i k).
Proof.
  intros x m b V H b' V' H' D D'.
  assert (BX : forall b V H, dec x m b V H -> 0 < b /\ lp x x = b * b /\ V 0%nat = scal (V := W) (/ b) x).
  { clear D D'. intros b0 V0 H0 (D0 & D1 & D2 & _). split; [exact D0|]. split.
    - rewrite <- D1, lp_scal, lp_sym, lp_scal, D2 by lia. cbn. ring.
    - rewrite <- D1, <- scal_Rmult. replace (/ b0 * b0) with 1 by (field; lra). symmetry. exact (scal_one _). }
  destruct (BX _ _ _ D) as (B1 & B2 & B3), (BX _ _ _ D') as (B1' & B2' & B3').
  assert (EB : b = b') by (apply square_unique; [assumption|assumption|congruence]).
  split; [exact EB|].
  assert (ST : forall n, (n <= m)%nat -> (forall i, (i <= n)%nat -> V i = V' i) /\ (forall i k, (i <= m)%nat -> (k < n)%nat -> H i k = H' i k)).
  { induction n as [|n IH]; intros N.
    - split; [|intros; lia]. intros i I. replace i with 0%nat by lia. congruence.
    - destruct IH as [IV IH]; [lia|].
      assert (HE : forall i, (i <= n)%nat -> H i n = H' i n) by (intros i I; rewrite (dec_coefficient _ _ _ _ _ i n D), (dec_coefficient _ _ _ _ _ i n D') by lia; rewrite !IV by lia; reflexivity).
      assert (RE : scal (V := W) (H (n + 1)%nat n) (V (n + 1)%nat) = scal (V := W) (H' (n + 1)%nat n) (V' (n + 1)%nat)).
      { rewrite (dec_next _ _ _ _ _ n D), (dec_next _ _ _ _ _ n D') by lia. rewrite IV by lia. do 2 f_equal. apply vsum_ext. intros i I. rewrite HE, IV by lia. reflexivity. }
      destruct D as (D0 & D1 & D2 & D3 & D4 & D5), D' as (D0' & D1' & D2' & D3' & D4' & D5').
      assert (HN : H (n + 1)%nat n = H' (n + 1)%nat n).
      { apply square_unique; [apply D4; lia|apply D4'; lia|].
        assert (Q : lp (scal (V := W) (H (n + 1)%nat n) (V (n + 1)%nat)) (scal (V := W) (H (n + 1)%nat n) (V (n + 1)%nat)) = lp (scal (V := W) (H' (n + 1)%nat n) (V' (n + 1)%nat)) (scal (V := W) (H' (n + 1)%nat n) (V' (n + 1)%nat))) by (now rewrite RE).
        rewrite !lp_scal in Q. rewrite (lp_sym (V (n + 1)%nat)), (lp_sym (V' (n + 1)%nat)) in Q. rewrite !lp_scal, D2, D2', Nat.eqb_refl in Q by lia. lra. }
      split.
      + intros i I. destruct (Nat.eq_dec i (n + 1)) as [->|]; [|apply IV; lia]. rewrite <- HN in RE. pose proof (D4 n ltac:(lia)) as P.
        assert (Q : forall z : W, z = scal (V := W) (/ H (n + 1)%nat n) (scal (V := W) (H (n + 1)%nat n) z)) by (intros z; rewrite <- scal_Rmult; replace (/ H (n + 1)%nat n * H (n + 1)%nat n) with 1 by (field; lra); symmetry; exact (scal_one z)).
        rewrite (Q (V (n + 1)%nat)), RE, <- Q. reflexivity.
      + intros i k I K. destruct (Nat.eq_dec k n) as [->|]; [|apply IH; lia]. destruct (Nat.lt_trichotomy i (n + 1)) as [L|[->|L]]; [apply HE; lia|exact HN|rewrite D5, D5' by lia; reflexivity]. }
  destruct (ST m (le_n m)) as [S1 S2]. split; assumption.
Qed.
(** the polynomials of degree below the number of vectors; with a remainder that is zero, all of them *)
Lemma iter_scal : forall k b v, scal (V := W) b (Nat.iter k op v) = Nat.iter k op (scal (V := W) b v).
Proof. induction k as [|k IH]; intros b v; [reflexivity|]. change (scal (V := W) b (op (Nat.iter k op v)) = op (Nat.iter k op (scal (V := W) b v))). rewrite <- IH. symmetry. apply OL. Qed.
Lemma dec_reproduces : forall x h b V H, (1 <= h)%nat -> dec x (h - 1) b V H -> reproduces op x h b h H h V.
Proof.
  intros x h b V H HN (D0 & D1 & D2 & D3 & D4 & D5) k K.
  set (G := fun i q => if Nat.ltb i h then H i q else 0).
  assert (GE : forall i q, (i < h)%nat -> G i q = H i q) by (intros i q I; unfold G; apply Nat.ltb_lt in I; now rewrite I).
  rewrite vec_sum_vsum. rewrite (vsum_ext h _ (fun i => scal (V := W) b (scal (V := W) (mat_pow h G k i 0) (V i)))).
  2: { intros i I. rewrite (mat_pow_ext h H G) by (auto; intros; symmetry; now apply GE). apply scal_Rmult. }
  rewrite vsum_scal. destruct (powers_low op OL V h h ltac:(lia) G) with (k := k) as [_ P]; [| |exact K|].
  - intros q Q. rewrite D3 by lia. rewrite vec_sum_vsum. rewrite (vsum_low _ (q + 2) h (fun i => scal (V := W) (G i q) (V i))); [|lia|intros i I'].
    + apply vsum_ext. intros i I. now rewrite GE by lia.
    + unfold G. destruct (Nat.ltb_spec i h); [rewrite D5 by lia|]; exact (scal_zero_l _).
  - intros i q Q I. unfold G. destruct (Nat.ltb_spec i h); [apply D5; lia|reflexivity].
  - rewrite P. rewrite iter_scal. now rewrite D1.
Qed.
(** without a remainder: all of them *)
Lemma dec_reproduces_all : forall x h b V H r, (1 <= h)%nat -> dec x (h - 1) b V H -> remainder lp op h V H r -> r = zero -> forall d, reproduces op x d b h H h V.
Proof.
  intros x h b V H r HN (D0 & D1 & D2 & D3 & D4 & D5) [R1 _] -> d k _.
  rewrite vec_sum_vsum. rewrite (vsum_ext h _ (fun i => scal (V := W) b (scal (V := W) (mat_pow h H k i 0) (V i)))) by (intros; apply scal_Rmult).
  rewrite vsum_scal. destruct (powers_all op OL V h h ltac:(lia) H) with (k := k) as [_ P]; [|intros; lia|].
  - intros q Q. destruct (Nat.eq_dec q (h - 1)) as [->|N].
    + rewrite R1, vec_sum_vsum. apply plus_zero_r.
    + rewrite D3 by lia. rewrite vec_sum_vsum. rewrite (vsum_low _ (q + 2) h (fun i => scal (V := W) (H i q) (V i))); [reflexivity|lia|intros i I']. destruct (Nat.lt_ge_cases i h); [rewrite D5 by lia; exact (scal_zero_l _)|lia].
  - rewrite P. rewrite iter_scal. now rewrite D1.
Qed.
End Unique.
