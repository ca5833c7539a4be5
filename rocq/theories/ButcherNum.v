(** The two representations of numbers for the checker of ButcherCheck.v: exact rationals, and multiples of 2^-72 with an error bound. *)
From Coq Require Import List Arith ZArith QArith Qabs Qreals Qround Reals Lra Lia Bool.
From Verif Require Import ButcherTables ButcherModel ButcherCheck.
Import ListNotations.
Local Open Scope R_scope.

(** ** Exact *)
Definition qrel (q : Q) (r : R) : Prop := Q2R q = r.
Definition qad (x y : Q) : Q := Qred (x + y).
Definition qmu (x y : Q) : Q := Qred (x * y).
Lemma Q2R_red : forall q, Q2R (Qred q) = Q2R q.
Proof. intros q. apply Qeq_eqR. apply Qred_correct. Qed.
Lemma qrel_ad : forall x y r s, qrel x r -> qrel y s -> qrel (qad x y) (r + s).
Proof. intros x y r s <- <-. unfold qrel, qad. rewrite Q2R_red. apply Q2R_plus. Qed.
Lemma qrel_mu : forall x y r s, qrel x r -> qrel y s -> qrel (qmu x y) (r * s).
Proof. intros x y r s <- <-. unfold qrel, qmu. rewrite Q2R_red. apply Q2R_mult. Qed.
Definition qnear (x q : Q) : bool := Qeq_bool x q.
Lemma qnear_ok : forall x r q, qrel x r -> qnear x q = true -> Rabs (r - Q2R q) <= 0.
Proof. intros x r q <- H. apply Qeq_bool_eq in H. apply Qeq_eqR in H. rewrite H, Rminus_diag_eq, Rabs_R0 by reflexivity. lra. Qed.

(** ** Fixed point: (a, e) stands for the numbers within e 2^-72 of a 2^-72 *)
Definition scaleZ : Z := Z.pow 2 72.
Definition fix_t : Type := (Z * Z)%type.
Definition frel (x : fix_t) (r : R) : Prop := (0 <= snd x)%Z /\ Rabs (r * IZR scaleZ - IZR (fst x)) <= IZR (snd x).
Definition fad (x y : fix_t) : fix_t := (fst x + fst y, snd x + snd y)%Z.
Definition fmu (x y : fix_t) : fix_t :=
  match fst x, snd x with
  | Z0, Z0 => (0, 0)%Z
  | _, _ => (Z.shiftr (fst x * fst y) 72, Z.shiftr (Z.abs (fst x) * snd y + Z.abs (fst y) * snd x + snd x * snd y) 72 + 2)%Z
  end.
Definition finj (q : Q) : fix_t :=
  match Qnum q with
  | Z0 => (0, 0)%Z
  | _ => (Z.div (Z.shiftl (Qnum q) 72) (Zpos (Qden q)), 1)%Z
  end.
(** |x - q| <= 10^-d for all numbers x stands for *)
Definition fnear (d : Z) (x : fix_t) (q : Q) : bool :=
  let y := finj q in Z.leb (Z.pow 10 d * (Z.abs (fst x - fst y) + snd x + snd y)) scaleZ.

Lemma scale_pos : 0 < IZR scaleZ.
Proof. apply IZR_lt. reflexivity. Qed.
Lemma frel_z : frel (0, 0)%Z 0.
Proof. split; [cbn; lia|]. cbn [fst snd]. rewrite Rmult_0_l, Rminus_diag_eq, Rabs_R0 by reflexivity. lra. Qed.
Lemma frel_o : frel (scaleZ, 0%Z) 1.
Proof. split; [cbn; lia|]. cbn [fst snd]. rewrite Rmult_1_l, Rminus_diag_eq, Rabs_R0 by reflexivity. lra. Qed.
Lemma frel_ad : forall x y r s, frel x r -> frel y s -> frel (fad x y) (r + s).
Proof.
  intros [a e] [b f] r s [P H] [P' H']. split; cbn [fad fst snd] in *; [lia|]. rewrite !plus_IZR.
  replace ((r + s) * IZR scaleZ - (IZR a + IZR b)) with ((r * IZR scaleZ - IZR a) + (s * IZR scaleZ - IZR b)) by ring.
  eapply Rle_trans; [apply Rabs_triang|]. lra.
Qed.
Lemma shiftr_floor : forall z, 0 <= IZR z / IZR scaleZ - IZR (Z.shiftr z 72) < 1.
Proof.
  intros z. rewrite Z.shiftr_div_pow2 by lia. change (2 ^ 72)%Z with scaleZ.
  assert (P : (0 < scaleZ)%Z) by reflexivity. pose proof scale_pos as PR.
  pose proof (Z.div_mod z scaleZ ltac:(lia)) as E. pose proof (Z.mod_pos_bound z scaleZ P) as B.
  assert (X : IZR z = IZR scaleZ * IZR (z / scaleZ) + IZR (z mod scaleZ)) by (rewrite <- mult_IZR, <- plus_IZR; f_equal; exact E).
  rewrite X. destruct B as [B1 B2]. apply IZR_le in B1. apply IZR_lt in B2.
  replace ((IZR scaleZ * IZR (z / scaleZ) + IZR (z mod scaleZ)) / IZR scaleZ - IZR (z / scaleZ)) with (IZR (z mod scaleZ) / IZR scaleZ) by (field; lra).
  split; [apply Rmult_le_pos; [exact B1|left; apply Rinv_0_lt_compat; exact PR]|].
  apply (Rmult_lt_reg_r (IZR scaleZ)); [exact PR|]. unfold Rdiv. rewrite Rmult_assoc, Rinv_l, Rmult_1_r, Rmult_1_l by lra. exact B2.
Qed.
Lemma frel_mu : forall x y r s, frel x r -> frel y s -> frel (fmu x y) (r * s).
Proof.
  intros [a e] [b f] r s [P H] [P' H']. cbn [fst snd] in *. unfold fmu. cbn [fst snd].
  assert (G : frel (Z.shiftr (a * b) 72, (Z.shiftr (Z.abs a * f + Z.abs b * e + e * f) 72 + 2)%Z) (r * s)).
  { set (w := (Z.abs a * f + Z.abs b * e + e * f)%Z). assert (W : (0 <= w)%Z) by (unfold w; nia).
    pose proof scale_pos as PS. pose proof (shiftr_floor (a * b)) as F1. pose proof (shiftr_floor w) as F2.
    assert (N : (0 <= Z.shiftr w 72)%Z) by (apply Z.shiftr_nonneg; exact W).
    split; cbn [fst snd]; [lia|]. rewrite plus_IZR.
    assert (B : Rabs (r * s * IZR scaleZ - IZR (a * b) / IZR scaleZ) <= IZR w / IZR scaleZ).
    { replace (r * s * IZR scaleZ - IZR (a * b) / IZR scaleZ) with
        ((IZR a * (s * IZR scaleZ - IZR b) + IZR b * (r * IZR scaleZ - IZR a) + (r * IZR scaleZ - IZR a) * (s * IZR scaleZ - IZR b)) / IZR scaleZ)
        by (rewrite mult_IZR; field; lra).
      unfold Rdiv. rewrite Rabs_mult, (Rabs_right (/ IZR scaleZ)) by (left; apply Rinv_0_lt_compat; exact PS).
      apply Rmult_le_compat_r; [left; apply Rinv_0_lt_compat; exact PS|].
      unfold w. rewrite !plus_IZR, !mult_IZR, !abs_IZR.
      eapply Rle_trans; [apply Rabs_triang|]. apply Rplus_le_compat.
      - eapply Rle_trans; [apply Rabs_triang|]. rewrite !Rabs_mult.
        apply Rplus_le_compat; apply Rmult_le_compat_l; try apply Rabs_pos; assumption.
      - rewrite Rabs_mult. apply Rmult_le_compat; try apply Rabs_pos; assumption. }
    replace (r * s * IZR scaleZ - IZR (Z.shiftr (a * b) 72)) with
      ((r * s * IZR scaleZ - IZR (a * b) / IZR scaleZ) + (IZR (a * b) / IZR scaleZ - IZR (Z.shiftr (a * b) 72))) by ring.
    eapply Rle_trans; [apply Rabs_triang|]. rewrite (Rabs_right (IZR (a * b) / IZR scaleZ - _)) by lra. lra. }
  destruct a as [|a|a], e as [|e|e]; try exact G.
  assert (r = 0).
  { rewrite Rminus_0_r in H. assert (Z : Rabs (r * IZR scaleZ) = 0) by (apply Rle_antisym; [exact H|apply Rabs_pos]).
    pose proof scale_pos. destruct (Req_dec r 0) as [|N]; [assumption|]. exfalso. apply (Rabs_no_R0 (r * IZR scaleZ)); [|exact Z]. nra. }
  subst r. rewrite Rmult_0_l. exact frel_z.
Qed.
Lemma frel_inj : forall q, frel (finj q) (Q2R q).
Proof.
  intros [a b]. unfold finj. cbn [Qnum Qden]. assert (G : frel (Z.div (Z.shiftl a 72) (Zpos b), 1%Z) (Q2R (a # b))).
  { split; cbn [fst snd]; [lia|]. unfold Q2R. cbn [Qnum Qden]. rewrite Z.shiftl_mul_pow2 by lia. change (2 ^ 72)%Z with scaleZ.
    assert (P : (0 < Zpos b)%Z) by reflexivity. assert (PR : 0 < IZR (Zpos b)) by (apply IZR_lt; exact P).
    pose proof (Z.div_mod (a * scaleZ) (Zpos b) ltac:(lia)) as E. pose proof (Z.mod_pos_bound (a * scaleZ) (Zpos b) P) as [B1 B2].
    apply IZR_le in B1. apply IZR_lt in B2. apply (f_equal IZR) in E. rewrite plus_IZR, !mult_IZR in E.
    replace (IZR a * / IZR (Zpos b) * IZR scaleZ - IZR (a * scaleZ / Zpos b)) with (IZR ((a * scaleZ) mod Zpos b) / IZR (Zpos b)).
    - rewrite Rabs_right; [|apply Rle_ge, Rmult_le_pos; [exact B1|left; apply Rinv_0_lt_compat; exact PR]].
      apply (Rmult_le_reg_r (IZR (Zpos b))); [exact PR|]. unfold Rdiv. rewrite Rmult_assoc, Rinv_l by lra. lra.
    - apply (Rmult_eq_reg_r (IZR (Zpos b))); [|lra]. field_simplify; [|lra..]. lra. }
  destruct a; try exact G. unfold Q2R. cbn [Qnum]. rewrite Rmult_0_l. exact frel_z.
Qed.
Lemma fnear_ok : forall d, (0 <= d)%Z -> forall x r q, frel x r -> fnear d x q = true -> Rabs (r - Q2R q) <= / IZR (Z.pow 10 d).
Proof.
  intros d Hd [a e] r q [P H] N. unfold fnear in N. pose proof (frel_inj q) as [P' H']. destruct (finj q) as [b f]. cbn [fst snd] in *.
  apply Z.leb_le in N. apply IZR_le in N. rewrite mult_IZR, !plus_IZR, abs_IZR, minus_IZR in N. pose proof scale_pos as PS.
  assert (PT : 0 < IZR (10 ^ d)) by (apply IZR_lt; apply Z.pow_pos_nonneg; lia).
  apply (Rmult_le_reg_r (IZR scaleZ)); [exact PS|]. apply (Rmult_le_reg_l (IZR (10 ^ d))); [exact PT|].
  rewrite <- Rmult_assoc, <- (Rmult_assoc (IZR (10 ^ d)) (/ _)), Rinv_r, Rmult_1_l by lra.
  eapply Rle_trans; [|exact N]. rewrite Rmult_assoc. apply Rmult_le_compat_l; [lra|].
  rewrite <- (Rabs_right (IZR scaleZ)) at 1 by lra. rewrite <- Rabs_mult.
  replace ((r - Q2R q) * IZR scaleZ) with ((r * IZR scaleZ - IZR a) + ((IZR a - IZR b) - (Q2R q * IZR scaleZ - IZR b))) by ring.
  eapply Rle_trans; [apply Rabs_triang|].
  assert (Rabs (IZR a - IZR b - (Q2R q * IZR scaleZ - IZR b)) <= Rabs (IZR a - IZR b) + IZR f).
  { unfold Rminus at 1. eapply Rle_trans; [apply Rabs_triang|]. rewrite Rabs_Ropp. lra. }
  lra.
Qed.

Definition exact_trees (m : method) : nat -> nat -> bool := check_trees Q 0%Q 1%Q qad qmu (fun q => q) qnear m.
Definition exact_linear (m : method) : nat -> nat -> bool := check_linear Q 0%Q 1%Q qad qmu (fun q => q) qnear m.
Definition fixed_trees (d : Z) (m : method) : nat -> nat -> bool := check_trees fix_t (0, 0)%Z (scaleZ, 0%Z) fad fmu finj (fnear d) m.
Definition fixed_linear (d : Z) (m : method) : nat -> nat -> bool := check_linear fix_t (0, 0)%Z (scaleZ, 0%Z) fad fmu finj (fnear d) m.
