(** Proofs for C30. *)
From Coq Require Import List Arith ZArith QArith Qabs Qreals Reals Lra Lia Bool String.
From Coquelicot Require Import Hierarchy.
From Verif Require Import RkModel RkSpec RkProofs VecTac ButcherTables ButcherModel ButcherSpec ButcherCheck ButcherNum ButcherLinear.
Import ListNotations.
Local Open Scope R_scope.

(** * What the checks give *)
Definition fits (m : method) : bool :=
  Nat.eqb (List.length (mA m)) (m_stages m) && forallb (fun row => Nat.leb (List.length row) (m_stages m)) (mA m) &&
  Nat.eqb (List.length (mB m)) (m_stages m) && Nat.eqb (List.length (mE m)) (S (m_stages m)) && Nat.eqb (List.length (mC m)) (m_stages m).
Lemma fits_ok : forall m, fits m = true -> List.length (mA m) = m_stages m /\ (forall row, In row (mA m) -> (List.length row <= m_stages m)%nat) /\
  List.length (mB m) = m_stages m /\ List.length (mE m) = S (m_stages m) /\ List.length (mC m) = m_stages m.
Proof.
  intros m H. unfold fits in H. repeat (apply andb_true_iff in H; let X := fresh in destruct H as [H X]).
  rewrite forallb_forall in H3. apply Nat.eqb_eq in H, H0, H1, H2. repeat split; try assumption.
  intros row I. apply Nat.leb_le. apply H3. exact I.
Qed.

Lemma exact_trees_ok : forall m p q, fits m = true -> exact_trees m p q = true ->
  order_conditions (S (m_stages m)) (ea_ (method_tab m)) (b_ (method_tab m)) (S p) 0 /\
  ((q <= S p)%nat -> null_conditions (S (m_stages m)) (ea_ (method_tab m)) (e_ (method_tab m)) q 0).
Proof.
  intros m p q F C. destruct (fits_ok m F) as (LA & LR & LB & LE & LC).
  apply (check_trees_ok Q 0%Q 1%Q qad qmu (fun q => q) qnear qrel 0 RMicromega.Q2R_0 RMicromega.Q2R_1 qrel_ad qrel_mu (fun q => eq_refl) qnear_ok m LA); try lia; [|exact C].
  intros row I. specialize (LR row I). lia.
Qed.
Lemma fixed_trees_ok : forall d m p q, (0 <= d)%Z -> fits m = true -> fixed_trees d m p q = true ->
  order_conditions (S (m_stages m)) (ea_ (method_tab m)) (b_ (method_tab m)) (S p) (/ IZR (10 ^ d)) /\
  ((q <= S p)%nat -> null_conditions (S (m_stages m)) (ea_ (method_tab m)) (e_ (method_tab m)) q (/ IZR (10 ^ d))).
Proof.
  intros d m p q Hd F C. destruct (fits_ok m F) as (LA & LR & LB & LE & LC).
  apply (check_trees_ok fix_t (0, 0)%Z (scaleZ, 0%Z) fad fmu finj (fnear d) frel (/ IZR (10 ^ d)) frel_z frel_o frel_ad frel_mu frel_inj (fnear_ok d Hd) m LA); try lia; [|exact C].
  intros row I. specialize (LR row I). lia.
Qed.
Lemma exact_linear_ok : forall m p q, fits m = true -> exact_linear m p q = true -> forall k j, (k + j < p)%nat -> lin_ok 0 m q k j.
Proof.
  intros m p q F C. destruct (fits_ok m F) as (LA & LR & LB & LE & LC).
  apply (check_linear_ok Q 0%Q 1%Q qad qmu (fun q => q) qnear qrel 0 RMicromega.Q2R_0 RMicromega.Q2R_1 qrel_ad qrel_mu (fun q => eq_refl) qnear_ok m LA); try lia; [|exact C].
  intros row I. specialize (LR row I). lia.
Qed.
Lemma fixed_linear_ok : forall d m p q, (0 <= d)%Z -> fits m = true -> fixed_linear d m p q = true -> forall k j, (k + j < p)%nat -> lin_ok (/ IZR (10 ^ d)) m q k j.
Proof.
  intros d m p q Hd F C. destruct (fits_ok m F) as (LA & LR & LB & LE & LC).
  apply (check_linear_ok fix_t (0, 0)%Z (scaleZ, 0%Z) fad fmu finj (fnear d) frel (/ IZR (10 ^ d)) frel_z frel_o frel_ad frel_mu frel_inj (fnear_ok d Hd) m LA); try lia; [|exact C].
  intros row I. specialize (LR row I). lia.
Qed.

(** * From the extended tableau to the tableau *)
Lemma tree_ind2 : forall P : tree -> Prop, (forall l, List.Forall P l -> P (Node l)) -> forall t, P t.
Proof.
  intros P H. fix IH 1. intros [l]. apply H. induction l as [|t l IHl]; constructor; [apply IH|exact IHl].
Qed.
Lemma weight_ext : forall m, fits m = true -> forall t i, (i < m_stages m)%nat ->
  weight (S (m_stages m)) (ea_ (method_tab m)) t i = weight (m_stages m) (a_ (method_tab m)) t i.
Proof.
  intros m F. destruct (fits_ok m F) as (LA & LR & LB & LE & LC). apply (tree_ind2 (fun t => forall i, (i < m_stages m)%nat -> _ = _)).
  intros l Hl i Hi. cbn [weight]. induction Hl as [|c l Hc Hl IH]; [reflexivity|]. cbn [map fold_right]. rewrite IH. f_equal.
  cbn [rsum]. assert (Z : ea_ (method_tab m) i (m_stages m) = 0).
  { unfold ea_. cbn [n_stages method_tab]. destruct (Nat.ltb_spec i (m_stages m)); [|lia]. unfold a_. cbn [tA method_tab]. apply nth_overflow.
    change (@nil R) with (map Q2R []). rewrite (map_nth (map Q2R)), map_length. apply LR. apply nth_In. lia. }
  rewrite Z, Rmult_0_l, Rplus_0_r. apply rsum_ext. intros j Hj. rewrite (Hc j Hj). unfold ea_. cbn [n_stages method_tab].
  destruct (Nat.ltb_spec i (m_stages m)); [reflexivity|lia].
Qed.
Lemma b_last : forall m, fits m = true -> b_ (method_tab m) (m_stages m) = 0.
Proof. intros m F. destruct (fits_ok m F) as (_ & _ & LB & _). unfold b_. cbn [tB method_tab]. apply nth_overflow. rewrite map_length. lia. Qed.
Lemma conditions_ext : forall m p eps, fits m = true -> order_conditions (S (m_stages m)) (ea_ (method_tab m)) (b_ (method_tab m)) p eps ->
  order_conditions (m_stages m) (a_ (method_tab m)) (b_ (method_tab m)) p eps.
Proof.
  intros m p eps F H t St. specialize (H t St). cbn [rsum] in H. rewrite (b_last m F), Rmult_0_l, Rplus_0_r in H.
  rewrite (rsum_ext (m_stages m) (fun i => b_ (method_tab m) i * weight (m_stages m) (a_ (method_tab m)) t i)
    (fun i => b_ (method_tab m) i * weight (S (m_stages m)) (ea_ (method_tab m)) t i)); [exact H|].
  intros i Hi. rewrite weight_ext by assumption. reflexivity.
Qed.

(** * The step on the linear problem *)
(** The strictly upper part and the first node vanish *)
Definition explicit (m : method) : bool :=
  forallb (fun i => forallb (fun j => Qeq_bool (nth j (nth i (mA m) []) 0%Q) 0%Q) (seq i (m_stages m - i))) (seq 0 (m_stages m)) &&
  Qeq_bool (nth 0 (mC m) 0%Q) 0%Q.
Lemma explicit_ok : forall m, explicit m = true -> fits m = true -> (forall i j, (i < m_stages m)%nat -> (i <= j)%nat -> a_ (method_tab m) i j = 0) /\ c_ (method_tab m) 0 = 0.
Proof.
  intros m H F. unfold explicit in H. apply andb_true_iff in H. destruct H as [H C]. rewrite forallb_forall in H.
  destruct (fits_ok m F) as (LA & LR & _). split.
  - intros i j Hi Hj. unfold a_. cbn [tA method_tab]. change (@nil R) with (map Q2R []). rewrite (map_nth (map Q2R)).
    rewrite <- RMicromega.Q2R_0, (map_nth Q2R). destruct (Nat.lt_ge_cases j (m_stages m)) as [L|L].
    + assert (I : In i (seq 0 (m_stages m))) by (apply in_seq; lia). specialize (H i I). rewrite forallb_forall in H.
      specialize (H j ltac:(apply in_seq; lia)). apply Qeq_bool_eq in H. apply Qeq_eqR. exact H.
    + rewrite nth_overflow; [reflexivity|]. specialize (LR (nth i (mA m) []) ltac:(apply nth_In; lia)). lia.
  - unfold c_. cbn [tC method_tab]. rewrite <- RMicromega.Q2R_0, (map_nth Q2R). apply Qeq_eqR. apply Qeq_bool_eq. exact C.
Qed.

Lemma validate_shaped : forall m, validate m = true -> shaped (method_tab m) /\ fits m = true.
Proof.
  intros m H. unfold validate, shape_is in H. rewrite !andb_true_iff in H.
  destruct H as ((((((((H1 & [H2 H2']) & H3) & H4) & H5) & _) & _) & _) & _).
  apply Nat.ltb_lt in H1. apply Nat.eqb_eq in H2, H3, H4, H5. rewrite forallb_forall in H2'.
  split.
  - unfold shaped. cbn [n_stages tA tB tC tE method_tab]. rewrite !map_length. repeat split; try assumption; try lia.
    apply List.Forall_forall. intros row I. apply in_map_iff in I. destruct I as (r & <- & I). rewrite map_length. apply Nat.eqb_eq. apply H2'. exact I.
  - unfold fits. rewrite !andb_true_iff, !Nat.eqb_eq. repeat split; try assumption; try lia. apply forallb_forall. intros row I.
    specialize (H2' row I). apply Nat.eqb_eq in H2'. apply Nat.leb_le. lia.
Qed.

(** exactly what the constructor accepts *)
Lemma validate_iff : forall m, validate m = true <-> (1 <= m_stages m /\ 1 <= m_order m /\ 1 <= m_est m)%nat /\
  (List.length (mA m) = m_stages m /\ (forall row, In row (mA m) -> List.length row = m_stages m) /\ List.length (mB m) = m_stages m /\ List.length (mC m) = m_stages m /\ List.length (mE m) = (m_stages m + 1)%nat) /\
  (forall i j, (i <= j < m_stages m)%nat -> (Qabs (nth j (nth i (mA m) []) 0%Q) <= 1 # 4503599627370496)%Q) /\ (forall c, In c (mC m) -> (0 <= c <= 1)%Q).
Proof.
  intros m. unfold validate, shape_is. rewrite !andb_true_iff, !Nat.ltb_lt, !Nat.eqb_eq, !forallb_forall. split.
  - intros ((((((((H1 & [H2 H2']) & H3) & H4) & H5) & H6) & H7) & H8) & H9). split; [lia|]. split; [repeat split; try assumption; intros row I; now apply Nat.eqb_eq, H2'|]. split.
    + intros i j L. apply Qle_bool_iff. specialize (H6 i ltac:(apply in_seq; lia)). rewrite forallb_forall in H6. apply H6. apply in_seq. lia.
    + intros c I. specialize (H7 c I). apply andb_true_iff in H7 as [A B]. apply Qle_bool_iff in A, B. now split.
  - intros ((H1 & H8 & H9) & (H2 & H2' & H3 & H4 & H5) & H6 & H7). repeat split; try assumption; try lia.
    + intros row I. apply Nat.eqb_eq. now apply H2'.
    + intros i I. apply in_seq in I. apply forallb_forall. intros j J. apply in_seq in J. apply Qle_bool_iff. apply H6. lia.
    + intros c I. destruct (H7 c I). apply andb_true_iff. split; now apply Qle_bool_iff.
Qed.

Section Step.
Context {V : ModuleSpace R_Ring}.
Variables (m : method) (A : V -> V) (u : list V) (tt : R) (yy : V).
Hypothesis LinA : linear_map A.
Hypothesis Val : validate m = true.
Hypothesis Exp : explicit m = true.
Notation n := (m_stages m).
Notation tb := (method_tab m).
Variables (s : solver V) (hh : R).
Hypothesis Tab : tab s = tb.
Hypothesis Fun : forall t x, fun_ s t x = phi_problem A u t x.
Let ff := fun_ s tt yy.
Let K := all_stages s tt hh yy ff.
Let yn := y_new s tt hh yy ff.
Let Kx (i : nat) : V := if Nat.ltb i n then nth i K zero else fun_ s (tt + hh) yn.
Let ec (i : nat) : R := if Nat.ltb i n then c_ tb i else 1.

Lemma stages_facts : List.length K = n /\ K_ok s tt hh yy K /\ nth 0 K zero = ff.
Proof.
  destruct (validate_shaped m Val) as [SH _]. assert (SH' : shaped (tab s)) by (rewrite Tab; exact SH).
  assert (N1 : (1 <= n_stages (tab s))%nat) by apply SH'.
  destruct (stages_ok s (n_stages (tab s) - 1) 1 tt hh yy [ff] SH') as (L & HK & H0); [lia|lia|reflexivity|intros i Hi; cbn in Hi; lia|].
  change (stages s (n_stages (tab s) - 1) 1 tt hh yy [ff]) with K in *. rewrite Tab in L. auto.
Qed.
Lemma yn_sum : yn = plus yy (scal (V := V) hh (vsum n (fun j => scal (V := V) (b_ tb j) (Kx j)))).
Proof.
  destruct stages_facts as (L & _). unfold yn, y_new. f_equal. f_equal. fold K. rewrite Tab. destruct (validate_shaped m Val) as [_ F].
  destruct (fits_ok m F) as (_ & _ & LB & _). assert (LB' : List.length (tB tb) = n) by (cbn [tB method_tab]; rewrite map_length; exact LB).
  rewrite comb_vsum by lia. rewrite LB'. apply vsum_ext. intros j Hj. unfold Kx. destruct (Nat.ltb_spec j n); [|lia]. reflexivity.
Qed.
Lemma Kx_ok : forall i, (i < S n)%nat ->
  Kx i = phi_problem A u (tt + ec i * hh) (plus yy (scal (V := V) hh (vsum i (fun j => scal (V := V) (ea_ tb i j) (Kx j))))).
Proof.
  intros i Hi. destruct stages_facts as (L & HK & H0). destruct (validate_shaped m Val) as [SH F]. destruct (explicit_ok m Exp F) as [LT C0].
  unfold Kx at 1, ec, ea_. cbn [n_stages method_tab]. destruct (Nat.ltb_spec i n) as [Li|Li].
  - destruct i as [|i].
    + rewrite H0. unfold ff. rewrite Fun, C0. cbn [vsum]. rewrite Rmult_0_l, Rplus_0_r. rewrite (scal_zero_r (V := V)), plus_zero_r. reflexivity.
    + rewrite HK by lia. rewrite Fun, Tab. unfold c_. do 3 f_equal. apply vsum_ext. intros j Hj. unfold Kx. destruct (Nat.ltb_spec j n); [|lia]. reflexivity.
  - assert (i = n) by lia. subst i. rewrite Fun, yn_sum. rewrite Rmult_1_l. reflexivity.
Qed.
Lemma ea_lower : forall i j, (i < S n)%nat -> (i <= j)%nat -> ea_ tb i j = 0.
Proof.
  intros i j Hi Hj. destruct (validate_shaped m Val) as [_ F]. destruct (explicit_ok m Exp F) as [LT _]. unfold ea_. cbn [n_stages method_tab].
  destruct (Nat.ltb_spec i n); [apply LT; assumption|]. unfold b_. cbn [tB method_tab]. apply nth_overflow. rewrite map_length.
  destruct (fits_ok m F) as (_ & _ & LB & _). lia.
Qed.
Lemma combo : forall (w : nat -> R) p,
  scal (V := V) hh (vsum (S n) (fun i => scal (V := V) (w i) (Kx i))) =
  plus (vsum p (fun k => scal (V := V) (hh ^ S k) (perturbed A u tt yy (fun k j => rsum (S n) (fun i => w i * powers m k j i) / INR (fact j)) k)))
       (higher (S p) (S n + S (List.length u - 1)) (fun i => perturbed A u tt yy (fun k j => rsum (S n) (fun i => w i * powers m k j i) / INR (fact j)) (p + i)) hh).
Proof.
  intros w p. pose proof (combination A u tt yy LinA (S n) (ea_ tb) ec Kx hh ea_lower Kx_ok w p) as E. cbv zeta in E.
  exact E.
Qed.

Definition wb (k j : nat) : R := rsum (S n) (fun i => b_ tb i * powers m k j i) / INR (fact j).
Definition we (k j : nat) : R := rsum (S n) (fun i => e_ tb i * powers m k j i) / INR (fact j).

Lemma y_new_expand : forall p, yn = plus (taylor A u tt yy p hh)
  (plus (vsum p (fun k => scal (V := V) (hh ^ S k) (perturbed A u tt yy (fun k j => wb k j - / INR (fact (S (k + j)))) k)))
        (higher (S p) (S n + S (List.length u - 1)) (fun i => perturbed A u tt yy wb (p + i)) hh)).
Proof.
  intros p. destruct (validate_shaped m Val) as [_ F]. rewrite yn_sum.
  assert (E : vsum n (fun j => scal (V := V) (b_ tb j) (Kx j)) = vsum (S n) (fun j => scal (V := V) (b_ tb j) (Kx j))).
  { cbn [vsum]. rewrite (b_last m F). rewrite (scal_zero_l (V := V) (Kx n) : scal (V := V) 0 (Kx n) = zero), plus_zero_r. reflexivity. }
  rewrite E, (combo (b_ tb) p). rewrite (taylor_parts A u tt yy p hh). rewrite <- plus_assoc. f_equal. rewrite plus_assoc. f_equal.
  rewrite <- vsum_plus. apply vsum_ext. intros k _.
  rewrite (perturbed_split A u tt yy LinA (fun k j => wb k j - / INR (fact (S (k + j)))) (fun k j => rsum (S n) (fun i => b_ tb i * powers m k j i) / INR (fact j)) k).
  - unfold Rdiv. rewrite (scal_Rmult (hh ^ S k)). vec.
  - intros k' j <-. unfold wb. ring.
Qed.
Lemma err_expand : forall p, err_estimate s tt hh yy ff =
  plus (vsum p (fun k => scal (V := V) (hh ^ S k) (perturbed A u tt yy we k))) (higher (S p) (S n + S (List.length u - 1)) (fun i => perturbed A u tt yy we (p + i)) hh).
Proof.
  intros p. unfold we. rewrite <- (combo (e_ tb) p). unfold err_estimate. f_equal. fold K. fold yn.
  destruct stages_facts as (L & _). destruct (validate_shaped m Val) as [_ F]. destruct (fits_ok m F) as (_ & _ & _ & LE & _).
  assert (LE' : List.length (tE tb) = S n) by (cbn [tE method_tab]; rewrite map_length; exact LE).
  unfold FSAL. rewrite Tab. cbn [n_stages method_tab]. destruct (Req_EM_T (nth n (tE tb) 0) 0) as [Z|Z].
  - rewrite comb_vsum by (rewrite firstn_length; lia). rewrite firstn_length, LE', Nat.min_l by lia. cbn [vsum]. change (nth n (tE tb) 0) with (e_ tb n) in Z.
    rewrite Z. rewrite (scal_zero_l (V := V) (Kx n) : scal (V := V) 0 (Kx n) = zero), plus_zero_r. apply vsum_ext. intros j Hj.
    rewrite nth_firstn by exact Hj. unfold Kx. destruct (Nat.ltb_spec j n); [|lia]. reflexivity.
  - rewrite comb_vsum by (rewrite app_length, L, LE'; cbn; lia). rewrite LE'. apply vsum_ext. intros j Hj. unfold e_, Kx.
    destruct (Nat.ltb_spec j n).
    + rewrite app_nth1 by lia. reflexivity.
    + rewrite app_nth2 by lia. rewrite L. replace (j - n)%nat with 0%nat by lia. reflexivity.
Qed.
End Step.

Lemma fact_ge_1 : forall j, 1 <= INR (fact j).
Proof. intros j. change 1 with (INR 1). apply le_INR. pose proof (lt_O_fact j). lia. Qed.
Lemma wb_bound : forall m eps q k j, lin_ok eps m q k j -> Rabs (wb m k j - / INR (fact (S (k + j)))) <= eps.
Proof.
  intros m eps q k j [H _]. unfold factq in H. replace (k + j + 1)%nat with (S (k + j)) in H by lia. unfold wb. set (w := rsum _ _) in *.
  pose proof (fact_ge_1 j) as F. pose proof (fact_ge_1 (S (k + j))) as F'.
  replace (w / INR (fact j) - / INR (fact (S (k + j)))) with ((w - INR (fact j) / INR (fact (S (k + j)))) / INR (fact j)) by (field; lra).
  unfold Rdiv at 1. rewrite Rabs_mult. rewrite (Rabs_right (/ INR (fact j))) by (apply Rle_ge; left; apply Rinv_0_lt_compat; lra).
  assert (I : / INR (fact j) <= 1) by (rewrite <- Rinv_1; apply Rinv_le_contravar; lra).
  assert (I0 : 0 < / INR (fact j)) by (apply Rinv_0_lt_compat; lra).
  pose proof (Rabs_pos (w - INR (fact j) / INR (fact (S (k + j))))). nra.
Qed.
Lemma we_bound : forall m eps q k j, lin_ok eps m q k j -> (k + j < q)%nat -> Rabs (we m k j) <= eps.
Proof.
  intros m eps q k j [_ H] Q. specialize (H Q). unfold we. set (w := rsum _ _) in *. pose proof (fact_ge_1 j) as F.
  unfold Rdiv. rewrite Rabs_mult. rewrite (Rabs_right (/ INR (fact j))) by (apply Rle_ge; left; apply Rinv_0_lt_compat; lra).
  assert (I : / INR (fact j) <= 1) by (rewrite <- Rinv_1; apply Rinv_le_contravar; lra).
  assert (I0 : 0 < / INR (fact j)) by (apply Rinv_0_lt_compat; lra). pose proof (Rabs_pos w). nra.
Qed.
