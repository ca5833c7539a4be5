(** The field of RField with its order, for theorems that need more than a field. *)
From Coq Require Import Reals Lra.
From mathcomp Require Import all_ssreflect all_algebra.
From Verif Require Import RField.
Set Implicit Arguments.
Unset Strict Implicit.
Unset Printing Implicit Defensive.
Import GRing.Theory.

Definition leb_R (x y : R) : bool := if Rle_dec x y then true else false.
Definition ltb_R (x y : R) : bool := if Rlt_dec x y then true else false.
Lemma leb_RP x y : reflect (Rle x y) (leb_R x y).
Proof. rewrite /leb_R. case: Rle_dec => H; by constructor. Qed.
Lemma ltb_RP x y : reflect (Rlt x y) (ltb_R x y).
Proof. rewrite /ltb_R. case: Rlt_dec => H; by constructor. Qed.
Lemma norm_add x y : leb_R (Rabs (x + y)) (Rabs x + Rabs y).
Proof. apply/leb_RP. exact: Rabs_triang. Qed.
Lemma add_gt0 x y : ltb_R 0 x -> ltb_R 0 y -> ltb_R 0 (x + y).
Proof. move=> /ltb_RP H1 /ltb_RP H2. apply/ltb_RP. exact: Rplus_lt_0_compat. Qed.
Lemma norm_eq0 x : Rabs x = 0%R -> x = 0%R.
Proof. move=> H. case: (Req_dec x 0) => // Hx. by case: (Rabs_no_R0 _ Hx). Qed.
Lemma le_total x y : leb_R 0 x -> leb_R 0 y -> leb_R x y || leb_R y x.
Proof. move=> _ _. case: (Rle_lt_dec x y) => H; apply/orP; [left|right]; apply/leb_RP; lra. Qed.
Lemma norm_mul : {morph Rabs : x y / Rmult x y}.
Proof. exact: Rabs_mult. Qed.
Lemma le_def x y : leb_R x y = (Rabs (Rminus y x) == Rminus y x).
Proof.
  apply/leb_RP/eqP => H; first by apply: Rabs_pos_eq; lra. have := Rabs_pos (y - x). rewrite H. lra.
Qed.
Lemma lt_def x y : ltb_R x y = (y != x) && leb_R x y.
Proof.
  apply/ltb_RP/andP => [H|[/eqP H /leb_RP H']]; last lra. split; [apply/eqP|apply/leb_RP]; lra.
Qed.
Definition R_numMixin := NumMixin norm_add add_gt0 norm_eq0 le_total norm_mul le_def lt_def.
Canonical R_porderType := POrderType ring_display R R_numMixin.
Canonical R_numDomainType := NumDomainType R R_numMixin.
Canonical R_normedZmodType := NormedZmodType R R R_numMixin.
Canonical R_numFieldType := [numFieldType of R].
