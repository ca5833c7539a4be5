From Coq Require Import Reals ZArith List Lia Lra Floats.
From Verif Require Import KiopsModel KiopsSpec KiopsFloat KiopsProofs.
Import ListNotations.
Local Open Scope R_scope.
Local Set Warnings "-inexact-float".

Lemma float_case : (0.29 <? 0.9)%float = true /\ (0.9 <? 0.29 + remaining 0.9 0.29)%float = true /\ continue_row [0.9%float] 0 0.29 (remaining 0.9 0.29) = None.
Proof. repeat split; vm_compute; reflexivity. Qed.

(** a single pass that ends with a breakdown *)
Lemma one_pass : forall a h, good a -> 0 < tau_end a -> (1 <= h <= m (start a))%Z ->
  exists s, run a [Probe (Some h) 0] (start a) = Some s /\ tau_now s = 0 + tau_end a /\ times s = write_rows a (start a) /\ substeps s = [tau_end a].
Proof.
  intros a h G T H. cbn [run start tau_now]. destruct (Rlt_dec 0 (tau_end a)) as [_|N]; [|contradiction]. unfold pass, arnoldi. cbn [breakdown estimate]. fold (start a).
  replace ((j (start a) <? h)%Z) with true by (symmetry; apply Z.ltb_lt; cbn; lia). replace ((h <=? m (start a))%Z) with true by (symmetry; apply Z.leb_le; lia). cbn [andb decide d_omega d_err d_tau d_m d_order d_orderold d_kest d_kestold].
  replace (ltR delta 0) with false by (symmetry; apply ltR_false; unfold delta; lra). eexists. split; [reflexivity|]. now repeat split.
Qed.

Ltac lts := repeat match goal with |- context [Rlt_dec ?a ?b] => destruct (Rlt_dec a b); try lra end.
Ltac blow := unfold blown, ltR; cbn [tau_out length l start Nat.sub seq filter nth tau_now tau].

Theorem negative_outputs : exists a ps s, good a /\ run a ps (start a) = Some s /\ ~ tau_now s < tau_end a /\ tau_out a = [-1/2; -1] /\ times s 0 = 1/2.
Proof.
  set (a := Args [-1/2; -1] (1/10) 10 10 128). assert (G : good a) by (unfold good; cbn; repeat split; try lra; try lia; discriminate).
  assert (L : last_out a = -1) by reflexivity. assert (T : tau_end a = 1) by (unfold tau_end; rewrite L, Rabs_left; lra). assert (S : sgn a = -1) by (unfold sgn, sign; rewrite L; lts).
  destruct (one_pass a 3) as (s & R & N & W & _); [exact G|lra|cbn; lia|]. exists a, [Probe (Some 3%Z) 0], s. split; [exact G|]. split; [exact R|]. split; [lra|]. split; [reflexivity|]. rewrite W.
  assert (B : blown a (start a) = 1%nat). { blow. cbn [a tau_out length Nat.sub seq filter nth]. rewrite T. rewrite (Rabs_left (-1 / 2)), (Rabs_left (-1)), (Rabs_pos_eq (0 + 1)) by lra. lts. reflexivity. }
  unfold write_rows. rewrite B. cbn [l start Nat.eqb Nat.add Nat.leb Nat.ltb andb tau_now]. rewrite S. cbn. lra.
Qed.

Theorem repeated_outputs : exists a ps s, good a /\ run a ps (start a) = Some s /\ ~ tau_now s < tau_end a /\ tau_out a = [1; 1] /\ times s 1 = 0.
Proof.
  set (a := Args [1; 1] (1/10) 10 10 128). assert (G : good a) by (unfold good; cbn; repeat split; try lra; try lia; discriminate).
  assert (L : last_out a = 1) by reflexivity. assert (T : tau_end a = 1) by (unfold tau_end; rewrite L, Rabs_pos_eq; lra).
  destruct (one_pass a 3) as (s & R & N & W & _); [exact G|lra|cbn; lia|]. exists a, [Probe (Some 3%Z) 0], s. split; [exact G|]. split; [exact R|]. split; [lra|]. split; [reflexivity|]. rewrite W.
  assert (B : blown a (start a) = 0%nat). { blow. cbn [a tau_out length Nat.sub seq filter nth]. rewrite T. rewrite !Rabs_pos_eq by lra. lts. reflexivity. }
  unfold write_rows. rewrite B. reflexivity.
Qed.

Theorem two_outputs : let a := Args [1/2; 1] (1/10) 10 10 128 in good a /\ 0 < last_out a /\ output_times (tau_out a) /\
  exists s, run a [Probe (Some 3%Z) 0] (start a) = Some s /\ ~ tau_now s < tau_end a /\ times s 0 = 1/2 /\ times s 1 = 1 /\ substeps s = [1].
Proof.
  intros a. assert (G : good a) by (unfold good; cbn; repeat split; try lra; try lia; discriminate).
  assert (L : last_out a = 1) by reflexivity. assert (T : tau_end a = 1) by (unfold tau_end; rewrite L, Rabs_pos_eq; lra). assert (S : sgn a = 1) by (unfold sgn, sign; rewrite L; lts).
  split; [exact G|]. split; [lra|]. split.
  { intros i k K. cbn [a tau_out length] in *. assert (i = 0%nat /\ k = 1%nat) as [-> ->] by lia. cbn. lra. }
  destruct (one_pass a 3) as (s & R & N & W & U); [exact G|lra|cbn; lia|]. exists s. split; [exact R|]. split; [lra|]. rewrite W, U.
  assert (B : blown a (start a) = 1%nat). { blow. cbn [a tau_out length Nat.sub seq filter nth]. rewrite T. rewrite !Rabs_pos_eq by lra. lts. reflexivity. }
  unfold write_rows. rewrite B. cbn [l start Nat.eqb Nat.add Nat.leb Nat.ltb andb tau_now tau]. rewrite S, T. cbn [nth a tau_out]. repeat split; lra.
Qed.

Theorem zero_estimate : exists a ps, good a /\ run a ps (start a) = None.
Proof.
  set (a := Args [1] 1 1 1 1). exists a, [Probe None 2; Probe None 0]. assert (G : good a) by (unfold good; cbn; repeat split; try lra; try lia; discriminate). split; [exact G|].
  assert (L : last_out a = 1) by reflexivity. assert (T : tau_end a = 1) by (unfold tau_end; rewrite L, Rabs_pos_eq; lra).
  set (s0 := start a). assert (O : tau_end a * Rabs 2 / (tau s0 * tol a) = 2) by (cbn [s0 start tau tol a]; fold a; rewrite T, Rabs_pos_eq by lra; field).
  assert (E1 : exists s, pass a s0 (Probe None 2) = Some s /\ tau_now s = 0 /\ tau s <> 1 /\ m s = 1%Z /\ oldm s = 1%Z /\ oldtau s = Some (tau_end a) /\ omega s = Some 2 /\ ireject s = 1%nat /\ j s = 1%Z).
  { unfold pass, arnoldi. cbn [breakdown estimate]. replace (Z.max (j s0) (m s0)) with 1%Z by reflexivity. unfold decide. rewrite O. unfold estimate_order, estimate_k. replace (m s0 =? oldm s0)%Z with false by reflexivity. cbn [andb negb].
    replace (eq_opt (tau s0) (oldtau s0)) with false by reflexivity. cbn [andb]. replace (orderold s0 || (ireject s0 =? 0)%nat)%bool with true by reflexivity. replace (kestold s0 || (ireject s0 =? 0)%nat)%bool with true by reflexivity.
    replace (1 =? mmax a)%Z with true by reflexivity. assert (DD : ltR delta 2 = true) by (apply ltR_true; unfold delta; lra). cbv zeta. rewrite DD. cbn [d_omega]. rewrite DD. eexists. split; [reflexivity|]. cbn [tau_now tau m oldm oldtau omega ireject j d_tau d_m d_omega].
    repeat split; try reflexivity. unfold raw_tau. destruct (Rlt_dec 0 2); [|lra]. replace (tau s0) with 1 by (cbn; symmetry; exact T). unfold gamma_mmax. rewrite T. destruct (Rlt_dec 1 1); [lra|].
    assert (P : Rpower (0.6 / 2) (1 / (IZR 1 / 4)) < 1). { replace (1 / (IZR 1 / 4)) with (INR 4) by (cbn; field). rewrite Rpower_pow by lra. cbn [pow]. lra. }
    assert (Q : Rmax (1 / 5) (1 * Rpower (0.6 / 2) (1 / (IZR 1 / 4))) < 1) by (apply Rmax_case; lra). intros H. pose proof (Rmin_r (tau_end a - tau_now s0) (Rmax (1 / 5) (1 * Rpower (0.6 / 2) (1 / (IZR 1 / 4))))) as W. rewrite T in W. lra. }
  destruct E1 as (s & P & N & TN & M & OM & OT & OG & IR & J). cbn [run]. replace (tau_now s0) with 0 by reflexivity. rewrite T. destruct (Rlt_dec 0 1); [|lra]. rewrite P, N. destruct (Rlt_dec 0 1); [|lra].
  unfold pass, arnoldi. cbn [breakdown estimate]. rewrite J, M. unfold decide, estimate_order. rewrite M, OM, OT, OG, IR, T. cbn [Z.max Z.compare Pos.compare Pos.compare_cont Z.eqb Pos.eqb andb neq_opt].
  unfold eqR. destruct (Req_EM_T (tau s) 1); [contradiction|]. cbn [negb andb Nat.leb]. destruct (Rlt_dec 0 _) as [X|X]; [|reflexivity]. exfalso. rewrite Rabs_R0 in X. replace (1 * 0 / (tau s * tol a) / 2) with 0 in X by (unfold Rdiv; ring). lra.
Qed.
