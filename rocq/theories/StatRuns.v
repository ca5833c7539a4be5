From Coq Require Import Reals List Arith ZArith Lra Lia Permutation Bool.
From Verif Require Import StatModel StatSpec StatProofs.
Import ListNotations.
Local Open Scope R_scope.

Section Runs.
Variables (ns : nat) (qw : nat -> nat -> R) (tiles : list tile) (analytic : Z -> R -> field).
Hypothesis PR : proper ns qw tiles.
Variables (case : Z) (freq : nat) (t_end dt : R) (state : nat -> fields) (start : nat).
Hypothesis HC : (1 <= case)%Z.
Hypothesis HF : (0 < freq)%nat.
Definition due (s : nat) : bool := Nat.eqb (s mod freq) 0.
Definition time (s : nat) : R := INR s * snd (clock t_end dt start (s - start)).
Definition rep (i : integrals) (s : nat) : report :=
  Report (if known case then error_norms ns qw tiles (depth (state s)) (analytic case (time s)) else None) (if (2 <=? case)%Z then Some (normalized (integrate ns qw tiles (state s)) i) else None).
Lemma stats_ok : forall first s i, (if (2 <=? case)%Z then match first with Some j => j | None => integrate ns qw tiles (state s) end = i else True) ->
  exists f, blockstats ns qw tiles analytic case (time s) (state s) first = Some (f, rep i s) /\ ((2 <=? case)%Z = true -> f = Some i).
Proof.
  intros first s i H. unfold blockstats, rep. destruct (norms_points ns qw tiles PR (depth (state s)) (analytic case (time s))) as (E & M & EQ & _).
  destruct (2 <=? case)%Z eqn:C2.
  - destruct ((case <=? 2)%Z || (case =? 10)%Z) eqn:C.
    + assert (K : known case = true). { unfold known. apply Z.leb_le in C2. apply orb_true_iff in C. destruct C as [C|C]; [apply Z.leb_le in C; replace case with 2%Z by lia; reflexivity|apply Z.eqb_eq in C; rewrite C; reflexivity]. }
      rewrite K, EQ. exists (Some i). destruct first as [j|]; subst i; split; reflexivity.
    + assert (K : known case = false). { unfold known. apply orb_false_iff in C. destruct C as [C C']. apply Z.leb_gt in C. rewrite C'. replace (case =? 1)%Z with false by (symmetry; apply Z.eqb_neq; lia). replace (case =? 2)%Z with false by (symmetry; apply Z.eqb_neq; lia). reflexivity. }
      rewrite K. exists (Some i). destruct first as [j|]; subst i; split; reflexivity.
  - apply Z.leb_gt in C2. assert (E1 : case = 1%Z) by lia. assert (K : known case = true) by (rewrite E1; reflexivity). rewrite K. replace (case <=? 2)%Z with true by (symmetry; apply Z.leb_le; lia). cbn [orb]. eexists. rewrite EQ. split; [reflexivity|discriminate].
Qed.
Notation out i s n := (map (fun s => (s, rep i s)) (filter due (seq s (S n)))).
Lemma printed_some : forall n s first i, ((2 <=? case)%Z = true -> first = Some i) -> printed ns qw tiles analytic case freq t_end dt state start first s n = Some (out i s n).
Proof.
  induction n as [|n IH]; intros s first i H.
  - cbn [printed]. fold (time s). change (filter due (seq s 1)) with (if due s then [s] else []). unfold due. destruct (Nat.eqb (s mod freq) 0); [|reflexivity].
    destruct (stats_ok first s i) as (f & -> & _); [destruct (2 <=? case)%Z; [rewrite H; reflexivity|exact Logic.I]|reflexivity].
  - cbn [printed]. fold (time s). change (filter due (seq s (S (S n)))) with (if due s then s :: filter due (seq (S s) (S n)) else filter due (seq (S s) (S n))). unfold due at 1. destruct (Nat.eqb (s mod freq) 0).
    + destruct (stats_ok first s i) as (f & -> & F); [destruct (2 <=? case)%Z; [rewrite H; reflexivity|exact Logic.I]|]. rewrite (IH (S s) f i F). reflexivity.
    + rewrite (IH (S s) first i H). reflexivity.
Qed.
Lemma due_multiple : forall s, due s = true <-> exists m, s = (m * freq)%nat.
Proof. intros s. unfold due. rewrite Nat.eqb_eq. split; [intros H; exists (s / freq)%nat; pose proof (Nat.div_mod s freq ltac:(lia)); lia|intros [m ->]; apply Nat.mod_mul; lia]. Qed.
Lemma printed_none : forall n s r, first_multiple freq s r -> printed ns qw tiles analytic case freq t_end dt state start None s n = Some (out (integrate ns qw tiles (state r)) s n).
Proof.
  induction n as [|n IH]; intros s r FM.
  - cbn [printed]. fold (time s). change (filter due (seq s 1)) with (if due s then [s] else []). destruct (due s) eqn:D; unfold due in D; rewrite D; [|reflexivity].
    assert (E : r = s). { apply due_multiple in D. destruct D as [m D]. destruct FM as (F1 & _ & F3). specialize (F3 m). lia. }
    destruct (stats_ok None s (integrate ns qw tiles (state r))) as (f & -> & _); [rewrite E; destruct (2 <=? case)%Z; reflexivity || exact Logic.I|reflexivity].
  - cbn [printed]. fold (time s). change (filter due (seq s (S (S n)))) with (if due s then s :: filter due (seq (S s) (S n)) else filter due (seq (S s) (S n))). destruct (due s) eqn:D; unfold due in D; rewrite D.
    + assert (E : r = s). { apply due_multiple in D. destruct D as [m D]. destruct FM as (F1 & _ & F3). specialize (F3 m). lia. }
      destruct (stats_ok None s (integrate ns qw tiles (state r))) as (f & -> & F); [rewrite E; destruct (2 <=? case)%Z; reflexivity || exact Logic.I|]. rewrite (printed_some n (S s) f _ F). reflexivity.
    + rewrite (IH (S s) r); [reflexivity|]. destruct FM as (F1 & (m & F2) & F3). split; [|split; [now exists m|intros k K; apply F3; lia]].
      destruct (Nat.eq_dec r s) as [->|N]; [|lia]. assert (due s = true) as D' by (apply due_multiple; now exists m). unfold due in D'. congruence.
Qed.
Theorem run_ok : forall n r, first_multiple freq start r -> run ns qw tiles analytic case freq t_end dt state start n = Some (out (integrate ns qw tiles (state r)) start n).
Proof. intros n r FM. apply printed_none. exact FM. Qed.
Lemma rep_drift : forall i s, (2 <= case)%Z -> exists c, drift (rep i s) = Some c /\ let q := integrate ns qw tiles (state s) in relative (mass q) (mass i) (d_mass c) /\ relative (total_energy q) (total_energy i) (d_energy c) /\ relative (total_enstrophy q) (total_enstrophy i) (d_enstrophy c).
Proof.
  intros i s H. unfold rep. replace (2 <=? case)%Z with true by (symmetry; apply Z.leb_le; lia). eexists. split; [reflexivity|]. cbn. unfold relative, quot.
  repeat split; intros N; destruct Req_EM_T; try contradiction; reflexivity.
Qed.
End Runs.
Lemma multiple_exists : forall f s, (0 < f)%nat -> exists r, first_multiple f s r.
Proof.
  intros f s H. exists ((s + f - 1) / f * f)%nat. pose proof (Nat.div_mod (s + f - 1) f ltac:(lia)) as D. pose proof (Nat.mod_upper_bound (s + f - 1) f ltac:(lia)) as B. split; [nia|]. split; [now exists ((s + f - 1) / f)%nat|]. intros m M.
  apply Nat.mul_le_mono_r. assert (s + f - 1 < f * (m + 1))%nat as L by nia. apply Nat.div_lt_upper_bound in L; lia.
Qed.
Lemma multiple_unique : forall f s r r', first_multiple f s r -> first_multiple f s r' -> r = r'.
Proof. intros f s r r' (A & (m & M) & B) (A' & (m' & M') & B'). apply Nat.le_antisymm; [rewrite M'; apply B; lia|rewrite M; apply B'; lia]. Qed.
Lemma multiple_zero : forall f, first_multiple f 0 0.
Proof. intros f. split; [lia|]. split; [now exists 0%nat|]. intros; lia. Qed.

(** ** the clock *)
Lemma clock_regular : forall t_end dt start n, 0 < dt -> dt * INR (start + n) <= t_end -> clock t_end dt start n = (dt * INR (start + n), dt).
Proof.
  intros t_end dt start n H. induction n as [|n IH]; intros L; [rewrite Nat.add_0_r; reflexivity|]. rewrite Nat.add_succ_r, S_INR in L |- *. change (clock t_end dt start (S n)) with (tick t_end (clock t_end dt start n)). rewrite IH by lra. unfold tick.
  destruct Rlt_dec as [A|A]; [|lra]. destruct Rlt_dec as [B|B]; [lra|]. f_equal. lra.
Qed.
Lemma clock_last : forall t_end dt start n, 0 < dt -> dt * INR (start + n) < t_end -> t_end < dt * INR (start + n + 1) -> clock t_end dt start (n + 1) = (t_end, t_end - dt * INR (start + n)).
Proof.
  intros t_end dt start n H L U. rewrite (Nat.add_1_r n). change (clock t_end dt start (S n)) with (tick t_end (clock t_end dt start n)). rewrite (clock_regular t_end dt start n H) by lra. unfold tick. rewrite Nat.add_1_r, S_INR in U.
  destruct Rlt_dec as [A|A]; [|lra]. destruct Rlt_dec as [B|B]; [reflexivity|lra].
Qed.
Lemma wrong_time : forall t_end dt m, (0 < m)%nat -> dt * INR m < t_end -> t_end < dt * INR (m + 1) -> INR (m + 1) * (t_end - dt * INR m) < t_end.
Proof. intros t_end dt m Hm L U. apply lt_INR in Hm. change (INR 0) with 0 in Hm. rewrite plus_INR in *. change (INR 1) with 1 in *. nra. Qed.
