(** C30: corollaries and what fails. *)
From Coq Require Import List Arith ZArith QArith Qabs Qreals Reals Lra Lia Bool String.
From Coquelicot Require Import Hierarchy.
From Verif Require Import RkModel RkSpec RkProofs VecTac ButcherTables ButcherModel ButcherSpec ButcherCheck ButcherNum ButcherLinear ButcherProofs ButcherData.
Import ListNotations.
Local Open Scope R_scope.

Lemma perturbed_zero : forall (V : ModuleSpace R_Ring) (A : V -> V) u tt yy d n, (forall k j, (k + j = n)%nat -> d k j = 0) -> perturbed A u tt yy d n = zero.
Proof. intros V A u tt yy d n H. unfold perturbed. apply vsum_zero. intros k Hk. rewrite H by lia. exact (scal_zero_l (V := V) _). Qed.
Lemma Rabs_le_0 : forall x, Rabs x <= 0 -> x = 0.
Proof. intros x H. destruct (Req_dec x 0) as [|N]; [assumption|]. pose proof (Rabs_pos_lt x N). lra. Qed.

Lemma exact_order : forall m, In m [bs32; m43; exlrk32; exlrk43] ->
  forall (V : ModuleSpace R_Ring) (A : V -> V) u tt yy, linear_map A -> exists N r r', forall (s : solver V) hh, tab s = method_tab m -> (forall t x, fun_ s t x = phi_problem A u t x) ->
    y_new s tt hh yy (fun_ s tt yy) = plus (taylor A u tt yy (m_order m) hh) (higher (S (m_order m)) N r hh) /\
    err_estimate s tt hh yy (fun_ s tt yy) = higher (S (m_est m)) N r' hh.
Proof.
  intros m I V A u tt yy LinA. destruct (linear_exact m I) as (d & e & Hd & He & H). destruct (H V A u tt yy LinA) as (N & r & r' & G).
  exists N, r, r'. intros s hh T F. destruct (G s hh T F) as [G1 G2]. rewrite G1, G2. split.
  - f_equal. rewrite vsum_zero; [apply plus_zero_l|]. intros n Hn. rewrite perturbed_zero; [apply scal_zero_r|]. intros k j E. apply Rabs_le_0. apply Hd. lia.
  - rewrite vsum_zero; [apply plus_zero_l|]. intros n Hn. rewrite perturbed_zero; [apply scal_zero_r|]. intros k j E. apply Rabs_le_0. apply He. lia.
Qed.

(** * What fails *)
Lemma m43_exponential : forall (s : solver R_ModuleSpace) hh yy, tab s = method_tab m43 -> (forall t x, fun_ s t x = x) ->
  y_new s 0 hh yy (fun_ s 0 yy) = yy * (1 + hh + hh ^ 2 / 2 + hh ^ 3 / 6 + hh ^ 4 / 24 + hh ^ 5 / 144).
Proof.
  intros s hh yy T F. unfold y_new, all_stages. rewrite T. cbn [n_stages method_tab m43 m_stages Nat.sub stages]. rewrite T.
  cbn [nth firstn tA tB tC method_tab m43 mA mB mC map m43_b app comb]. rewrite !F.
  unfold plus, scal, zero; cbn. unfold mult; cbn. unfold Q2R; cbn. field.
Qed.
Lemma dp54_invalid : validate dp54 = false.
Proof. reflexivity. Qed.
Lemma names_found : map (fun m => exode_method (m_name m)) METHODS = [Some bs32; None; Some m43; Some kc32; Some exlrk32; Some exlrk43; Some f14_12; Some dp87; Some f10_8].
Proof. vm_cast_no_check (eq_refl (map (fun m => exode_method (m_name m)) METHODS)). Qed.
Lemma default_missing : exode_method exode_default = None.
Proof. reflexivity. Qed.

Lemma vsum_R : forall n (f : nat -> R), vsum (V := R_ModuleSpace) n f = rsum n f.
Proof. induction n; intros f; [reflexivity|]. cbn [vsum rsum]. rewrite IHn. reflexivity. Qed.

(** sum_i b_i c_i^7 *)
Definition qpow (x : Q) (k : nat) : Q := Nat.iter k (fun y => Qred (x * y)) 1%Q.
Lemma qpow_ok : forall x k, Q2R (qpow x k) = Q2R x ^ k.
Proof.
  intros x. induction k; [cbn; apply RMicromega.Q2R_1|]. change (qpow x (S k)) with (Qred (x * qpow x k)). rewrite Q2R_red, Q2R_mult, IHk. reflexivity.
Qed.
Definition quad (m : method) (k : nat) : Q := qsum (map (fun p => Qred (fst p * qpow (snd p) k)) (combine (mB m) (mC m))).
Lemma quad_ok : forall m k, fits m = true -> rsum (m_stages m) (fun i => b_ (method_tab m) i * c_ (method_tab m) i ^ k) = Q2R (quad m k).
Proof.
  intros m k F. destruct (fits_ok m F) as (_ & _ & LB & _ & LC). unfold quad.
  rewrite <- (qsum_ok _ (m_stages m)) by (rewrite map_length, combine_length; lia). apply rsum_ext. intros i Hi.
  unfold b_, c_. cbn [tB tC method_tab]. rewrite <- RMicromega.Q2R_0 at 1 2. rewrite !(map_nth Q2R), <- qpow_ok, <- Q2R_mult.
  rewrite <- Q2R_red. rewrite map_map.
  rewrite (nth_indep _ 0 (Q2R (Qred (fst (0%Q, 0%Q) * qpow (snd (0%Q, 0%Q)) k)))) by (rewrite map_length, combine_length; lia).
  rewrite (map_nth (fun p => Q2R (Qred (fst p * qpow (snd p) k)))). rewrite combine_nth by lia. reflexivity.
Qed.
Lemma dp87_quad : Qle_bool (2 # 100000000) (Qabs (Qred (quad dp87 7 / 5040 - (1 # 40320)))) = true.
Proof. vm_cast_no_check (eq_refl true). Qed.

Lemma dp87_seven : forall (s : solver R_ModuleSpace) hh, tab s = method_tab dp87 -> (forall t x, fun_ s t x = t ^ 7 / INR (fact 7)) ->
  2 / 10 ^ 8 * Rabs hh ^ 8 <= Rabs (y_new s 0 hh 0 (fun_ s 0 0) - hh ^ 8 / INR (fact 8)).
Proof.
  intros s hh T F. assert (Va : validate dp87 = true) by reflexivity. destruct (validate_shaped dp87 Va) as [SH Fi]. assert (Ex : explicit dp87 = true) by reflexivity.
  destruct (explicit_ok dp87 Ex Fi) as [_ C0].
  destruct (y_new_rk s 0 hh 0 (fun_ s 0 0) ltac:(rewrite T; exact SH)) as (K & K0 & Ki & Ey). rewrite T in Ki, Ey.
  assert (Kc : forall i, (i < m_stages dp87)%nat -> K i = (c_ (method_tab dp87) i * hh) ^ 7 / INR (fact 7)).
  { intros i Hi. destruct i as [|i].
    - rewrite K0, F, C0. f_equal. ring.
    - rewrite Ki by (cbn [n_stages method_tab]; lia). rewrite F, Rplus_0_l. reflexivity. }
  assert (E : y_new s 0 hh 0 (fun_ s 0 0) = hh ^ 8 * (Q2R (quad dp87 7) / INR (fact 7))).
  { rewrite Ey, <- (quad_ok dp87 7 Fi). rewrite vsum_R. cbn [n_stages method_tab].
    change (0 + hh * rsum (m_stages dp87) (fun j => nth j (tB (method_tab dp87)) 0 * K j) =
      hh ^ 8 * (rsum (m_stages dp87) (fun i => b_ (method_tab dp87) i * c_ (method_tab dp87) i ^ 7) / INR (fact 7))).
    rewrite (rsum_ext (m_stages dp87) (fun j => nth j (tB (method_tab dp87)) 0 * K j) (fun i => b_ (method_tab dp87) i * ((c_ (method_tab dp87) i * hh) ^ 7 / INR (fact 7))))
      by (intros i Hi; rewrite Kc by exact Hi; reflexivity).
    assert (X : forall n (f : R) b c, rsum n (fun i => b i * ((c i * hh) ^ 7 / f)) = hh ^ 7 * (rsum n (fun i => b i * c i ^ 7) / f)).
    { induction n; intros f b c; cbn [rsum]; [unfold Rdiv; ring|]. rewrite IHn, Rpow_mult_distr. unfold Rdiv. ring. }
    rewrite X. ring. }
  rewrite E. pose proof dp87_quad as Q. apply Qle_bool_iff in Q. apply Qle_Rle in Q.
  assert (Q' : 2 / 10 ^ 8 <= Rabs (Q2R (quad dp87 7) / INR (fact 7) - / INR (fact 8))).
  { replace (INR (fact 7)) with 5040 by (rewrite <- (pfact_nat 7), INR_IPR; reflexivity). replace (INR (fact 8)) with 40320 by (rewrite <- (pfact_nat 8), INR_IPR; reflexivity).
    assert (Z : Q2R (Qabs (Qred (quad dp87 7 / 5040 - (1 # 40320)))) = Rabs (Q2R (quad dp87 7) / 5040 - / 40320)).
    { assert (QA : forall q, Q2R (Qabs q) = Rabs (Q2R q)).
      { intros q. destruct (Qlt_le_dec q 0) as [L|L].
        - rewrite Qeq_eqR with (1 := Qabs_neg q (Qlt_le_weak _ _ L)). rewrite Q2R_opp, Rabs_left; [reflexivity|]. apply Qlt_Rlt in L. rewrite RMicromega.Q2R_0 in L. exact L.
        - rewrite Qeq_eqR with (1 := Qabs_pos q L). rewrite Rabs_right; [reflexivity|]. apply Qle_Rle in L. rewrite RMicromega.Q2R_0 in L. lra. }
      rewrite QA, Q2R_red, Q2R_minus, Q2R_div by discriminate. f_equal. f_equal; [f_equal|]; unfold Q2R; cbn [Qnum Qden]; lra. }
    rewrite Z in Q. eapply Rle_trans; [|exact Q]. unfold Q2R. cbn [Qnum Qden]. lra. }
  replace (hh ^ 8 * (Q2R (quad dp87 7) / INR (fact 7)) - hh ^ 8 / INR (fact 8)) with (hh ^ 8 * (Q2R (quad dp87 7) / INR (fact 7) - / INR (fact 8))) by (unfold Rdiv; ring).
  rewrite Rabs_mult, <- RPow_abs, Rmult_comm. apply Rmult_le_compat_l; [apply pow_le, Rabs_pos|exact Q'].
Qed.

Lemma dp87_swapped_checks : validate (exchanged dp87) && explicit (exchanged dp87) && fixed_linear 16 (exchanged dp87) 8 7 = true.
Proof. vm_cast_no_check (eq_refl true). Qed.
Lemma dp87_swapped : linear_order (method_tab (exchanged dp87)) 8 7 (/ 10 ^ 16) (/ 10 ^ 16).
Proof.
  rewrite <- (IZR_pow10 16). pose proof dp87_swapped_checks as C. apply andb_true_iff in C. destruct C as [C0 C]. apply andb_true_iff in C0. destruct C0 as [Va Ex].
  destruct (validate_shaped _ Va) as [_ F]. pose proof (fixed_linear_ok 16 _ _ _ ltac:(lia) F C) as L. apply linear_order_ok; try assumption; try lia.
  - intros k j H. eapply lin_ok_0. apply L. exact H.
  - intros k j H. apply L. lia.
Qed.
