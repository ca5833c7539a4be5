(** The checks of ButcherCheck.v run on the tableaux.  Proofs for C30. *)
From Coq Require Import List Arith ZArith QArith Qabs Qreals Reals Lra Lia Bool String.
From Coquelicot Require Import Hierarchy.
From Verif Require Import RkModel RkSpec RkProofs VecTac ButcherTables ButcherModel ButcherSpec ButcherCheck ButcherNum ButcherLinear ButcherProofs.
Import ListNotations.
Local Open Scope R_scope.

Fixpoint qsum (l : list Q) : Q := match l with [] => 0%Q | x :: r => Qred (x + qsum r) end.
Lemma qsum_ok : forall l n, (List.length l <= n)%nat -> rsum n (fun j => nth j (map Q2R l) 0) = Q2R (qsum l).
Proof.
  induction l as [|x l IH]; intros n L.
  - cbn [map qsum]. rewrite RMicromega.Q2R_0. apply rsum_0. intros j _. destruct j; reflexivity.
  - destruct n as [|n]; [cbn in L; lia|]. rewrite rsum_shift. cbn [map nth qsum]. rewrite (IH n) by (cbn in L; lia).
    rewrite Q2R_red, Q2R_plus. reflexivity.
Qed.
Definition within (d : Z) (x y : Q) : bool := Qle_bool (Qabs (Qred (x - y))) (1 # Z.to_pos (10 ^ d)).
Lemma within_ok : forall d x y, (0 <= d)%Z -> within d x y = true -> Rabs (Q2R x - Q2R y) <= / IZR (10 ^ d).
Proof.
  intros d x y Hd H. unfold within in H. apply Qle_bool_iff in H. rewrite Qred_correct in H. apply Qabs_Qle_condition in H. destruct H as [H1 H2].
  apply Qle_Rle in H1, H2. rewrite Q2R_opp in H1. rewrite Q2R_minus in *.
  assert (E : Q2R (1 # Z.to_pos (10 ^ d)) = / IZR (10 ^ d)).
  { unfold Q2R. cbn [Qnum Qden]. rewrite Z2Pos.id by (apply Z.pow_pos_nonneg; lia). unfold IZR at 1. rewrite Rmult_1_l. reflexivity. }
  rewrite E in *. apply Rabs_le. lra.
Qed.

Lemma IZR_pow10 : forall k, IZR (10 ^ Z.of_nat k) = 10 ^ k.
Proof. intros k. rewrite <- pow_IZR. reflexivity. Qed.

Definition consistent (m : method) : bool :=
  fits m && explicit m && forallb (fun i => within 16 (qsum (nth i (mA m) [])) (nth i (mC m) 0%Q)) (seq 0 (m_stages m)) &&
  within 16 (qsum (mB m)) 1 && within 7 (qsum (mE m)) 0 && forallb (fun c => Qle_bool 0 c && Qle_bool c 1) (mC m).
Lemma all_consistent : forallb consistent METHODS = true.
Proof. vm_cast_no_check (eq_refl true). Qed.

Lemma tableaux_ok : forall m, In m METHODS ->
  let tb := method_tab m in let n := m_stages m in
  (forall i j, (i < n)%nat -> (i <= j)%nat -> a_ tb i j = 0) /\
  (forall i, (i < n)%nat -> Rabs (rsum n (a_ tb i) - c_ tb i) <= / 10 ^ 16) /\
  (forall i, (i < n)%nat -> 0 <= c_ tb i <= 1) /\
  Rabs (rsum n (b_ tb) - 1) <= / 10 ^ 16 /\ Rabs (rsum (S n) (e_ tb)) <= / 10 ^ 7.
Proof.
  intros m I tb n. pose proof all_consistent as C. rewrite forallb_forall in C. specialize (C m I). unfold consistent in C. rewrite !andb_true_iff in C.
  destruct C as (((((F & E) & HR) & HB) & HS) & N). destruct (fits_ok m F) as (LA & LR & LB & LE & LC). destruct (explicit_ok m E F) as [LT C0].
  rewrite forallb_forall in HR, N. split; [exact LT|]. split; [|split; [|split]].
  - intros i Hi. specialize (HR i ltac:(apply in_seq; unfold n in Hi; lia)). apply within_ok in HR; [|lia].
    assert (Ea : rsum n (a_ tb i) = Q2R (qsum (nth i (mA m) []))).
    { unfold a_, tb. cbn [tA method_tab]. rewrite <- (qsum_ok _ n).
      - apply rsum_ext. intros j _. change (@nil R) with (map Q2R []). rewrite (map_nth (map Q2R)). reflexivity.
      - apply LR. apply nth_In. rewrite LA. exact Hi. }
    assert (Ec : c_ tb i = Q2R (nth i (mC m) 0%Q)) by (unfold c_, tb; cbn [tC method_tab]; rewrite <- RMicromega.Q2R_0; apply map_nth).
    rewrite Ea, Ec. rewrite <- (IZR_pow10 16). exact HR.
  - intros i Hi. assert (Ec : c_ tb i = Q2R (nth i (mC m) 0%Q)) by (unfold c_, tb; cbn [tC method_tab]; rewrite <- RMicromega.Q2R_0; apply map_nth).
    specialize (N (nth i (mC m) 0%Q) ltac:(apply nth_In; unfold n in Hi; lia)). apply andb_true_iff in N. destruct N as [N1 N2].
    apply Qle_bool_iff in N1, N2. apply Qle_Rle in N1, N2. rewrite RMicromega.Q2R_0 in N1. rewrite RMicromega.Q2R_1 in N2. rewrite Ec. lra.
  - apply within_ok in HB; [|lia]. rewrite RMicromega.Q2R_1 in HB. rewrite <- (qsum_ok (mB m) n) in HB by (unfold n; lia).
    rewrite <- (IZR_pow10 16). exact HB.
  - apply within_ok in HS; [|lia]. rewrite RMicromega.Q2R_0, Rminus_0_r in HS. rewrite <- (qsum_ok (mE m) (S n)) in HS by (unfold n; lia).
    rewrite <- (IZR_pow10 7). exact HS.
Qed.

(** * Rooted trees *)
Lemma exact_checks : forallb (fun m => fits m && exact_trees m (m_order m - 1) (m_est m)) [bs32; dp54; m43; exlrk32; exlrk43] = true.
Proof. vm_cast_no_check (eq_refl true). Qed.
Lemma trees_exact : forall m, In m [bs32; dp54; m43; exlrk32; exlrk43] ->
  order_conditions (m_stages m) (a_ (method_tab m)) (b_ (method_tab m)) (m_order m) 0 /\
  null_conditions (S (m_stages m)) (ea_ (method_tab m)) (e_ (method_tab m)) (m_est m) 0.
Proof.
  intros m I. pose proof exact_checks as C. rewrite forallb_forall in C. specialize (C m I). apply andb_true_iff in C. destruct C as [F C].
  destruct (exact_trees_ok m _ _ F C) as [H1 H2].
  assert (O : (S (m_order m - 1) = m_order m)%nat /\ (m_est m <= m_order m)%nat).
  { repeat (destruct I as [<-|I]; [cbn; lia|]). destruct I. }
  destruct O as [O O']. rewrite O in *. split; [apply conditions_ext; assumption|apply H2; exact O'].
Qed.

Lemma kc32_checks : fits kc32 && fixed_trees 16 kc32 2 0 && fixed_trees 7 kc32 2 2 = true.
Proof. vm_cast_no_check (eq_refl true). Qed.
Lemma dp87_trees : fits dp87 && fixed_trees 16 dp87 6 7 = true.
Proof. vm_cast_no_check (eq_refl true). Qed.
Lemma f10_trees : fits f10_8 && fixed_trees 16 f10_8 5 6 = true.
Proof. vm_cast_no_check (eq_refl true). Qed.
Lemma f14_trees : fits f14_12 && fixed_trees 16 f14_12 4 5 = true.
Proof. vm_cast_no_check (eq_refl true). Qed.

Lemma trees_decimal : forall m p q (d : nat), In (m, p, q, d) [(kc32, 3, 2, 7); (dp87, 7, 7, 16); (f10_8, 6, 6, 16); (f14_12, 5, 5, 16)]%nat ->
  order_conditions (m_stages m) (a_ (method_tab m)) (b_ (method_tab m)) p (/ 10 ^ 16) /\
  null_conditions (S (m_stages m)) (ea_ (method_tab m)) (e_ (method_tab m)) q (/ 10 ^ d).
Proof.
  intros m p q d I. assert (N : forall k, / IZR (10 ^ Z.of_nat k) = / 10 ^ k) by (intros; rewrite IZR_pow10; reflexivity).
  destruct I as [E|[E|[E|[E|[]]]]]; injection E as <- <- <- <-.
  - pose proof kc32_checks as C. apply andb_true_iff in C. destruct C as [C C2]. apply andb_true_iff in C. destruct C as [F C1].
    destruct (fixed_trees_ok 16 kc32 2 0 ltac:(lia) F C1) as [H1 _]. destruct (fixed_trees_ok 7 kc32 2 2 ltac:(lia) F C2) as [_ H2].
    rewrite <- (N 16%nat), <- (N 7%nat). split; [apply conditions_ext; assumption|apply H2; lia].
  - pose proof dp87_trees as C. apply andb_true_iff in C. destruct C as [F C]. destruct (fixed_trees_ok 16 dp87 6 7 ltac:(lia) F C) as [H1 H2].
    rewrite <- (N 16%nat). split; [apply conditions_ext; assumption|apply H2; lia].
  - pose proof f10_trees as C. apply andb_true_iff in C. destruct C as [F C]. destruct (fixed_trees_ok 16 f10_8 5 6 ltac:(lia) F C) as [H1 H2].
    rewrite <- (N 16%nat). split; [apply conditions_ext; assumption|apply H2; lia].
  - pose proof f14_trees as C. apply andb_true_iff in C. destruct C as [F C]. destruct (fixed_trees_ok 16 f14_12 4 5 ltac:(lia) F C) as [H1 H2].
    rewrite <- (N 16%nat). split; [apply conditions_ext; assumption|apply H2; lia].
Qed.

(** * Linear problems *)
Lemma exact_linear_checks : forallb (fun m => validate m && explicit m && exact_linear m (m_order m) (m_est m)) [bs32; m43; exlrk32; exlrk43] = true.
Proof. vm_cast_no_check (eq_refl true). Qed.
Lemma kc32_linear : validate kc32 && explicit kc32 && fixed_linear 16 kc32 3 0 && fixed_linear 7 kc32 3 2 = true.
Proof. vm_cast_no_check (eq_refl true). Qed.
Lemma dp87_linear : validate dp87 && explicit dp87 && fixed_linear 16 dp87 7 7 = true.
Proof. vm_cast_no_check (eq_refl true). Qed.
Lemma f10_linear : validate f10_8 && explicit f10_8 && fixed_linear 16 f10_8 10 8 = true.
Proof. vm_cast_no_check (eq_refl true). Qed.
Lemma f14_linear : validate f14_12 && explicit f14_12 && fixed_linear 16 f14_12 14 12 = true.
Proof. vm_cast_no_check (eq_refl true). Qed.

Lemma linear_order_ok : forall m p q eb ee, validate m = true -> explicit m = true -> (q <= p)%nat ->
  (forall k j, (k + j < p)%nat -> lin_ok eb m 0 k j) -> (forall k j, (k + j < q)%nat -> lin_ok ee m q k j) -> linear_order (method_tab m) p q eb ee.
Proof.
  intros m p q eb ee Va Ex Hq HB HE. exists (fun k j => wb m k j - / INR (fact (S (k + j)))), (we m). split; [|split].
  - intros k j H. apply (wb_bound m eb 0). apply HB. exact H.
  - intros k j H. apply (we_bound m ee q); [apply HE; exact H|exact H].
  - intros V A u tt yy LinA. exists (S (m_stages m) + S (List.length u - 1))%nat, (fun i => perturbed A u tt yy (wb m) (p + i)), (fun i => perturbed A u tt yy (we m) (q + i)).
    intros s hh T F. split; [apply y_new_expand|apply err_expand]; assumption.
Qed.
Lemma lin_ok_0 : forall m eps q k j, lin_ok eps m q k j -> lin_ok eps m 0 k j.
Proof. intros m eps q k j [H1 _]. split; [exact H1|]. intros; lia. Qed.

Lemma linear_exact : forall m, In m [bs32; m43; exlrk32; exlrk43] -> linear_order (method_tab m) (m_order m) (m_est m) 0 0.
Proof.
  intros m I. pose proof exact_linear_checks as C. rewrite forallb_forall in C. specialize (C m I). apply andb_true_iff in C. destruct C as [C0 C].
  apply andb_true_iff in C0. destruct C0 as [Va Ex]. destruct (validate_shaped m Va) as [_ F].
  assert (Hq : (m_est m <= m_order m)%nat) by (repeat (destruct I as [<-|I]; [cbn; lia|]); destruct I).
  pose proof (exact_linear_ok m _ _ F C) as L. apply linear_order_ok; try assumption.
  - intros k j H. eapply lin_ok_0. apply L. exact H.
  - intros k j H. apply L. lia.
Qed.
Lemma linear_decimal : forall m p q (d : nat), In (m, p, q, d) [(kc32, 3, 2, 7); (f10_8, 10, 8, 16); (f14_12, 14, 12, 16); (dp87, 7, 7, 16)]%nat ->
  linear_order (method_tab m) p q (/ 10 ^ 16) (/ 10 ^ d).
Proof.
  intros m p q d I. assert (N : forall k, / 10 ^ k = / IZR (10 ^ Z.of_nat k)) by (intros; rewrite IZR_pow10; reflexivity).
  destruct I as [E|[E|[E|[E|[]]]]]; injection E as <- <- <- <-; rewrite (N 16%nat).
  - pose proof kc32_linear as C. apply andb_true_iff in C. destruct C as [C C2]. apply andb_true_iff in C. destruct C as [C C1]. apply andb_true_iff in C. destruct C as [Va Ex]. destruct (validate_shaped _ Va) as [_ F].
    rewrite (N 7%nat). apply linear_order_ok; try assumption; [lia|apply (fixed_linear_ok 16 _ _ _ ltac:(lia) F C1)|].
    intros k j H. apply (fixed_linear_ok 7 _ _ _ ltac:(lia) F C2). lia.
  - pose proof f10_linear as C. apply andb_true_iff in C. destruct C as [C0 C]. apply andb_true_iff in C0. destruct C0 as [Va Ex]. destruct (validate_shaped _ Va) as [_ F].
    pose proof (fixed_linear_ok 16 _ _ _ ltac:(lia) F C) as L. apply linear_order_ok; try assumption; try lia.
    + intros k j H. eapply lin_ok_0. apply L. exact H.
    + intros k j H. apply L. lia.
  - pose proof f14_linear as C. apply andb_true_iff in C. destruct C as [C0 C]. apply andb_true_iff in C0. destruct C0 as [Va Ex]. destruct (validate_shaped _ Va) as [_ F].
    pose proof (fixed_linear_ok 16 _ _ _ ltac:(lia) F C) as L. apply linear_order_ok; try assumption; try lia.
    + intros k j H. eapply lin_ok_0. apply L. exact H.
    + intros k j H. apply L. lia.
  - pose proof dp87_linear as C. apply andb_true_iff in C. destruct C as [C0 C]. apply andb_true_iff in C0. destruct C0 as [Va Ex]. destruct (validate_shaped _ Va) as [_ F].
    pose proof (fixed_linear_ok 16 _ _ _ ltac:(lia) F C) as L. apply linear_order_ok; try assumption; try lia.
    + intros k j H. eapply lin_ok_0. apply L. exact H.
Qed.
