(** The values next to the sides of a tile. *)
From Coq Require Import Reals ZArith.
From Verif Require Import TopologyModel GeoModel SwModel.
From mathcomp Require Import all_ssreflect all_algebra.
From Verif Require Import RField SwSplitModel.
Unset Strict Implicit.
Unset Printing Implicit Defensive.
Import GRing.Theory.
Delimit Scope R_scope with re.
Local Open Scope ring_scope.

Section Ends.
Variables (k N ns : nat) (pts : seq R) (Q : Z -> nat -> nat -> nat -> R) (r : Z) (v x : nat).
Hypothesis HN : (1 <= N)%coq_nat.
Let vi := b_var_i k N ns pts None Q r v.
Let vj := b_var_j k N ns pts None Q r v.
Let hal := b_halo k N ns pts None Q r v.
Lemma no_ground (a : R) (c : bool) : a - (if c then R0 else 0) = a.
Proof. case: c; exact: Rminus_0_r. Qed.
Lemma var_ends_i : vi 0 1 x = hal West x /\ vi 1 0 x = b_ext_i ns pts None Q r v x 1 0 /\ vi N 1 x = b_ext_i ns pts None Q r v x N 1 /\ vi N.+1 0 x = hal East x.
Proof.
  move/leP: HN => H. rewrite /vi /b_var_i. have E : b_itf_i (b_ground None) = (fun _ _ _ _ => R0) by []. rewrite E H !leqnn (ltnn N).
  split; [|split; [|split]]; exact: no_ground.
Qed.
Lemma var_ends_j : vj 0 1 x = hal South x /\ vj 1 0 x = b_ext_j ns pts None Q r v x 1 0 /\ vj N 1 x = b_ext_j ns pts None Q r v x N 1 /\ vj N.+1 0 x = hal North x.
Proof.
  move/leP: HN => H. rewrite /vj /b_var_j. have E : b_itf_j (b_ground None) = (fun _ _ _ _ => R0) by []. rewrite E H !leqnn (ltnn N).
  split; [|split; [|split]]; exact: no_ground.
Qed.
End Ends.
