(** A rotation of the plane: pmex with a basis of at most two vectors *)
From Coq Require Import Reals ZArith List Bool Arith Lra Lia.
From Coquelicot Require Import Coquelicot.
From Verif Require Import InnerSpec InnerFacts FgmresModel FgmresFacts VecTac KiopsModel PmexSpec PmexModel KiopsSpec KiopsProofs PmexProofs ExpmFacts PmexKrylov PmexCases.
Import ListNotations.
Local Open Scope R_scope.

Definition plane : ModuleSpace R_Ring := prod_ModuleSpace R_Ring R_ModuleSpace R_ModuleSpace.
Definition pdot (x y : plane) : R := fst x * fst y + snd x * snd y.
(** x' = - c sqrt(2) y, y' = c sqrt(2) x *)
Definition rot (c : R) (x : plane) : plane := (- (2 * q2 * c * snd x), 2 * q2 * c * fst x).
Definition east : nat -> plane := fun k => match k with O => (1, 0) | _ => (0, 0) end.
Lemma pdot_product : scalar_product pdot.
Proof.
  split; [intros x y; unfold pdot; ring|]. split; [intros x y z; unfold pdot; cbn; unfold plus; cbn; ring|]. split; [intros a x y; unfold pdot; cbn; unfold scal; cbn; unfold mult; cbn; ring|].
  split; [intros x; unfold pdot; pose proof (Rle_0_sqr (fst x)); pose proof (Rle_0_sqr (snd x)); unfold Rsqr in *; lra|].
  intros [x y] H. unfold pdot in H. cbn in H. assert (x = 0) by nra. assert (y = 0) by nra. subst. reflexivity.
Qed.
Lemma rot_linear : forall c, linear_map (rot c).
Proof.
  intros c. split; [intros [x1 x2] [y1 y2]|intros a [x1 x2]]; unfold rot; cbn; apply injective_projections; cbn; unfold plus, scal; cbn; unfold mult; cbn; match goal with |- ?a = ?b => change (@eq R a b) end; ring.
Qed.
Notation row2 := (@row plane).
Notation ad2 := (adot pdot 1).
Notation At2 c := (augmented_product (rot c) east 1 0).
(** a row of the array: two entries of the state and one augmented entry *)
Definition is3 (x : row2) (a b d : R) : Prop := fst (fst x) = a /\ snd (fst x) = b /\ snd x 0%nat = d.
Lemma ad2_val : forall x y a b d a' b' d' e, is3 x a b d -> is3 y a' b' d' -> a * a' + b * b' + d * d' = e -> ad2 x y = e.
Proof. intros x y a b d a' b' d' e (<- & <- & <-) (<- & <- & <-) <-. unfold adot, pdot. cbn [rsum]. ring. Qed.
Lemma At2_val : forall c x a b d, is3 x a b d -> is3 (At2 c x) (- (2 * q2 * c * b)) (2 * q2 * c * a) 0.
Proof.
  intros c x a b d (<- & <- & <-). unfold is3, augmented_product, rot, nu. cbn. unfold plus, zero, scal; cbn. unfold mult; cbn. repeat split; match goal with |- ?a = ?b => change (@eq R a b) end; ring.
Qed.
Lemma sc2_val : forall (x : row2) k a b d, is3 x a b d -> is3 (scal (V := row2) k x) (k * a) (k * b) (k * d).
Proof. intros x k a b d (<- & <- & <-). repeat split; reflexivity. Qed.
Lemma sub2_val : forall (x y : row2) a b d a' b' d', is3 x a b d -> is3 y a' b' d' -> is3 (plus x (opp y)) (a - a') (b - b') (d - d').
Proof. intros x y a b d a' b' d' (<- & <- & <-) (<- & <- & <-). repeat split; reflexivity. Qed.
Lemma add2_val : forall (x y : row2) a b d a' b' d', is3 x a b d -> is3 y a' b' d' -> is3 (plus x y) (a + a') (b + b') (d + d').
Proof. intros x y a b d a' b' d' (<- & <- & <-) (<- & <- & <-). repeat split; reflexivity. Qed.
Lemma zero2_val : is3 (zero : row2) 0 0 0. Proof. repeat split. Qed.
Lemma is3_eq : forall x a b d a' b' d', is3 x a b d -> a = a' -> b = b' -> d = d' -> is3 x a' b' d'.
Proof. intros; subst; assumption. Qed.

Lemma rot_basis : forall c t, 0 < t <= c -> exists K, orths pdot (rot c) east 1 0 t 2 (first_row pdot 1 0 kry0 ((1, 0) : plane) 0) 0 = (K, 2%nat, false) /\
  PmexModel.beta K = sqrt 2 /\ hm K 0%nat 0%nat = 0 /\ hm K 1%nat 0%nat = c /\ hm K 0%nat 1%nat = - c /\ hm K 1%nat 1%nat = 0 /\ hm K 2%nat 0%nat = 0 /\ hm K 2%nat 1%nat = c /\ (forall i k, (2 <= k)%nat -> hm K i k = 0).
Proof.
  intros c t T. pose proof pdot_product as D. pose proof (rot_linear c) as L. pose proof q2_sqr as Q. pose proof q2_pos as QP.
  set (K0 := first_row pdot 1 0 kry0 ((1, 0) : plane) 0).
  destruct (first_ok pdot D (rot c) east 1 (le_n 1) 0 (kry0 (X := plane)) (1, 0) 0) as [O0 C0]; [split; reflexivity|]. fold K0 in O0, C0.
  assert (S3 : is3 (start_row 1 0 ((1, 0) : plane) 0) 1 0 1) by (repeat split).
  assert (B : sqrt (ad2 (start_row 1 0 ((1, 0) : plane) 0) (start_row 1 0 ((1, 0) : plane) 0)) = sqrt 2) by (f_equal; apply (ad2_val _ _ _ _ _ _ _ _ _ S3 S3); ring).
  assert (B0 : PmexModel.beta K0 = sqrt 2) by exact B.
  assert (V0 : is3 (vs K0 0%nat) q2 0 q2).
  { unfold K0, first_row. cbn [vs set1 Nat.eqb]. rewrite B. fold q2. apply is3_eq with (1 := sc2_val _ q2 _ _ _ S3); ring. }
  destruct (orth_shape pdot D (rot c) east 1 (le_n 1) 0 t _ K0 0 O0 C0) as [_ (N1 & I1 & HN1 & HI1 & E1)].
  set (v := At2 c (vs K0 0%nat)) in E1. set (r := plus v _) in E1.
  assert (Av : is3 v 0 c 0) by (apply is3_eq with (1 := At2_val c _ _ _ _ V0); [ring|replace (2 * q2 * c * q2) with (2 * (q2 * q2) * c) by ring; rewrite Q; field|ring]).
  assert (Cv : ad2 (vs K0 0%nat) v = 0) by (apply (ad2_val _ _ _ _ _ _ _ _ _ V0 Av); ring).
  assert (R1 : is3 r 0 c 0).
  { unfold r. cbn [vsum]. rewrite Cv. apply is3_eq with (1 := sub2_val _ _ _ _ _ _ _ _ Av (add2_val _ _ _ _ _ _ _ _ zero2_val (sc2_val _ 0 _ _ _ V0))); ring. }
  assert (NR : sqrt (ad2 r r) = c) by (rewrite (ad2_val _ _ _ _ _ _ _ _ (c * c) R1 R1) by ring; apply sqrt_square; lra).
  rewrite NR in E1. destruct (Rlt_dec c t) as [X|_] in E1; [lra|]. match type of E1 with _ = (?k, false) => set (K1 := k) in E1 end.
  destruct (orth_ok pdot D (rot c) east 1 (le_n 1) 0 t _ K0 0 K1 false ltac:(lra) O0 C0 E1) as (O1 & C1 & _).
  destruct (orth_shape pdot D (rot c) east 1 (le_n 1) 0 t _ K1 1 O1 C1) as [_ (N2 & I2 & HN2 & HI2 & E2)].
  assert (W0 : is3 (vs K1 0%nat) q2 0 q2) by exact V0.
  assert (W1 : is3 (vs K1 1%nat) 0 1 0) by (apply is3_eq with (1 := sc2_val _ (/ c) _ _ _ R1); try ring; field; lra).
  set (v2 := At2 c (vs K1 1%nat)) in E2. set (r2 := plus v2 _) in E2.
  assert (Av2 : is3 v2 (- (2 * q2 * c)) 0 0) by (apply is3_eq with (1 := At2_val c _ _ _ _ W1); ring).
  assert (Ca : ad2 (vs K1 0%nat) v2 = - c) by (apply (ad2_val _ _ _ _ _ _ _ _ _ W0 Av2); replace (q2 * - (2 * q2 * c) + 0 * 0 + q2 * 0) with (- (2 * (q2 * q2) * c)) by ring; rewrite Q; field).
  assert (Cb : ad2 (vs K1 1%nat) v2 = 0) by (apply (ad2_val _ _ _ _ _ _ _ _ _ W1 Av2); ring).
  assert (R2 : is3 r2 (- (c * q2)) 0 (c * q2)).
  { unfold r2. cbn [vsum]. rewrite Ca, Cb. apply is3_eq with (1 := sub2_val _ _ _ _ _ _ _ _ Av2 (add2_val _ _ _ _ _ _ _ _ (add2_val _ _ _ _ _ _ _ _ zero2_val (sc2_val _ (- c) _ _ _ W0)) (sc2_val _ 0 _ _ _ W1))); ring. }
  assert (NR2 : sqrt (ad2 r2 r2) = c). { rewrite (ad2_val _ _ _ _ _ _ _ _ (c * c) R2 R2); [apply sqrt_square; lra|]. transitivity (c * c * (2 * (q2 * q2))); [ring|rewrite Q; field]. }
  rewrite NR2 in E2. destruct (Rlt_dec c t) as [X|_] in E2; [lra|].
  cbn [orths]. rewrite E1, E2. eexists. split; [reflexivity|]. cbn [vs hm PmexModel.beta Nat.eqb Nat.ltb Nat.leb]. split; [exact B0|].
  split; [exact Cv|]. split; [reflexivity|]. split; [exact Ca|]. split; [exact Cb|]. split; [reflexivity|]. split; [reflexivity|].
  intros i k Hk. replace (k =? 1)%nat with false by (symmetry; apply Nat.eqb_neq; lia). unfold K1. cbn [hm]. replace (k =? 0)%nat with false by (symmetry; apply Nat.eqb_neq; lia). reflexivity.
Qed.

(** ** The exponential of the matrix *)
Lemma rot_powers : forall c M, 0 < c -> M 0%nat 0%nat = 0 -> M 0%nat 1%nat = - c -> M 0%nat 2%nat = 1 -> M 1%nat 0%nat = c -> M 1%nat 1%nat = 0 -> M 1%nat 2%nat = 0 -> (forall k, (k < 3)%nat -> M 2%nat k = 0) ->
  forall n, (mat_pow 3 M (2 * n + 1) 0 2 = (- (c * c)) ^ n /\ mat_pow 3 M (2 * n + 1) 1 2 = 0 /\ mat_pow 3 M (2 * n + 1) 2 2 = 0) /\ mat_pow 3 M (2 * n + 2) 1 2 = c * (- (c * c)) ^ n.
Proof.
  intros c M C M00 M01 M02 M10 M11 M12 M2.
  assert (ST : forall k, mat_pow 3 M (S k) 0 2 = - c * mat_pow 3 M k 1 2 + mat_pow 3 M k 2 2 /\ mat_pow 3 M (S k) 1 2 = c * mat_pow 3 M k 0 2 /\ mat_pow 3 M (S k) 2 2 = 0).
  { intros k. cbn [mat_pow sum_to]. rewrite M00, M01, M02, M10, M11, M12, !M2 by lia. repeat split; ring. }
  induction n as [|n [(I1 & I2 & I3) I4]].
  - change (2 * 0 + 1)%nat with 1%nat. change (2 * 0 + 2)%nat with 2%nat. destruct (ST 0%nat) as (A0 & B0 & D0). destruct (ST 1%nat) as (A1 & B1 & D1). rewrite B1, A0, B0, D0. cbn. repeat split; ring.
  - replace (2 * S n + 1)%nat with (S (2 * n + 2)) by lia. replace (2 * S n + 2)%nat with (S (S (2 * n + 2))) by lia.
    destruct (ST (2 * n + 2)%nat) as (A0 & B0 & D0). destruct (ST (S (2 * n + 2))) as (A1 & B1 & D1). rewrite B1, A0, B0, D0, I4.
    destruct (ST (2 * n + 1)%nat) as (A2 & B2 & D2). replace (S (2 * n + 1)) with (2 * n + 2)%nat in A2, B2, D2 by lia. rewrite A2, D2, I2, I3. cbn [pow]. repeat split; ring.
Qed.
Lemma cos_series : forall x, is_series (fun n => (-1) ^ n / INR (fact (2 * n)) * (x * x) ^ n) (cos x).
Proof. intros x. unfold cos. destruct (exist_cos (Rsqr x)) as [y Y]. apply is_series_Reals. exact Y. Qed.
Lemma rot_entry : forall c s M F, 0 < c -> M 0%nat 0%nat = 0 -> M 0%nat 1%nat = - c -> M 0%nat 2%nat = 1 -> M 1%nat 0%nat = c -> M 1%nat 1%nat = 0 -> M 1%nat 2%nat = 0 -> (forall k, (k < 3)%nat -> M 2%nat k = 0) ->
  is_expm 3 (fun i k => s * M i k) F -> F 1%nat 2%nat = (1 - cos (s * c)) / c.
Proof.
  intros c s M F C M00 M01 M02 M10 M11 M12 M2 E. pose proof (rot_powers c M C M00 M01 M02 M10 M11 M12 M2) as P.
  rewrite <- (is_series_unique _ _ (E 1%nat 2%nat ltac:(lia) ltac:(lia))). apply is_series_unique.
  apply is_series_ext with (fun k => (/ INR (fact k) * mat_pow 3 M k 1 2) * s ^ k); [intros k; rewrite mat_pow_scale; match goal with |- ?a = ?b => change (@eq R a b) end; ring|].
  apply is_pseries_R. replace ((1 - cos (s * c)) / c) with ((1 - cos (s * c)) / c + s * 0) by ring. apply is_pseries_odd_even.
  - apply is_pseries_R. apply is_series_ext with (fun n => / c * ((match n with O => 1 | _ => 0 end) - (-1) ^ n / INR (fact (2 * n)) * ((s * c) * (s * c)) ^ n)).
    + intros n. match goal with |- ?a = ?b => change (@eq R a b) end. destruct n as [|n]; [cbn; field; lra|]. replace (2 * S n)%nat with (2 * n + 2)%nat by lia. rewrite (proj2 (P n)).
      assert (P1 : s * c * (s * c) = s ^ 2 * (c * c)) by ring. rewrite P1, (Rpow_mult_distr (s ^ 2) (c * c)). replace (- (c * c)) with (-1 * (c * c)) by ring. rewrite (Rpow_mult_distr (-1) (c * c)). cbn [pow].
      assert (NF : INR (fact (2 * n + 2)) <> 0) by apply INR_fact_neq_0. generalize dependent (INR (fact (2 * n + 2))). intros f NF. generalize ((-1) ^ n) ((c * c) ^ n) ((s * (s * 1)) ^ n). intros y1 y2 y3. field. split; lra.
    + replace ((1 - cos (s * c)) / c) with (/ c * (1 - cos (s * c))) by (field; lra). apply (is_series_scal (K := R_AbsRing) (V := R_NormedModule) (/ c) (fun n => (match n with O => 1 | _ => 0 end) - (-1) ^ n / INR (fact (2 * n)) * ((s * c) * (s * c)) ^ n) (1 - cos (s * c))).
      apply (is_series_minus (K := R_AbsRing) (V := R_NormedModule) (fun n => match n with O => 1 | _ => 0 end) (fun n => (-1) ^ n / INR (fact (2 * n)) * ((s * c) * (s * c)) ^ n) 1 (cos (s * c))); [|apply cos_series].
      apply filterlim_ext with (fun _ => 1); [|apply filterlim_const]. intros n. induction n as [|n IH]; [now rewrite sum_O|]. rewrite sum_Sn, <- IH. change (1 = 1 + 0). ring.
  - apply is_pseries_R. apply is_series_ext with (fun n => 0 * 0); [intros n; rewrite (proj1 (proj2 (proj1 (P n)))); match goal with |- ?a = ?b => change (@eq R a b) end; ring|].
    change (filterlim (sum_n (fun _ => 0 * 0)) eventually (locally 0)). apply filterlim_ext with (fun _ => 0); [|apply filterlim_const]. intros k. rewrite sum_n_const. ring.
Qed.

(** ** The runs *)
Definition rargs : args := Args [1] (1 / 10) 2 2 2.
Lemma rgood : good rargs. Proof. unfold good; cbn; repeat split; try lra; try lia; discriminate. Qed.
Definition rotk (c : R) (K : @kry plane) : Prop :=
  PmexModel.beta K = sqrt 2 /\ hm K 0%nat 0%nat = 0 /\ hm K 1%nat 0%nat = c /\ hm K 0%nat 1%nat = - c /\ hm K 1%nat 1%nat = 0 /\ hm K 2%nat 0%nat = 0 /\ hm K 2%nat 1%nat = c /\ (forall i k, (2 <= k)%nat -> hm K i k = 0).
Definition waiting (c : R) (f : @fstate plane) : Prop :=
  tau (ctl f) = 1 /\ tau_now (ctl f) = 0 /\ m (ctl f) = 2%Z /\ (j (ctl f) = 0 \/ j (ctl f) = 2)%Z /\ exists K, basis_of pdot (rot c) east 1 0 rargs f = (K, 2%nat, false) /\ rotk c K.
Lemma rte : tau_end rargs = 1. Proof. unfold tau_end, last_out. cbn. apply Rabs_R1. Qed.
Lemma rsg : sgn rargs = 1. Proof. unfold sgn, sign, last_out. cbn. destruct (Rlt_dec 0 1); lra. Qed.
Lemma rot_start : forall c, 1 / 10 <= c -> waiting c (f_start east rargs).
Proof.
  intros c C. destruct (rot_basis c (1 / 10)) as (K & B & F); [lra|]. split; [exact rte|]. split; [reflexivity|]. split; [reflexivity|]. split; [left; reflexivity|]. exists K. split; [exact B|exact F].
Qed.
(** the two entries from which the error is estimated *)
Lemma rot_probe : forall expm c K, (forall n M, is_expm n M (expm n M)) -> 0 < c -> rotk c K ->
  let Fh := expm 3%nat (fun i k => sgn rargs * 0.5 * 1 * with_phi (hm K) 2 i k) in
  PmexModel.beta K * hm K 2%nat 1%nat * Fh 1%nat 2%nat = sqrt 2 * (1 - cos (c / 2)) /\ PmexModel.beta K * hm K 2%nat 1%nat * mat_mul 3 Fh Fh 1%nat 2%nat = sqrt 2 * (1 - cos c).
Proof.
  intros expm c K X C (B & H00 & H10 & H01 & H11 & H20 & H21 & HZ) Fh. rewrite B, H21.
  assert (E : forall F s, is_expm 3 (fun i k => s * with_phi (hm K) 2 i k) F -> F 1%nat 2%nat = (1 - cos (s * c)) / c).
  { intros F s. apply rot_entry; auto; unfold with_phi; cbn [Nat.eqb Nat.sub andb]; auto. intros k Hk. destruct (Nat.eqb_spec k 1); [reflexivity|]. destruct k as [|[|k]]; [exact H20|lia|apply HZ; lia]. }
  assert (EF : Fh = expm 3%nat (fun i k => 1 / 2 * (1 * with_phi (hm K) 2 i k))).
  { unfold Fh. f_equal. apply FunctionalExtensionality.functional_extensionality. intros i. apply FunctionalExtensionality.functional_extensionality. intros k. rewrite rsg. replace 0.5 with (1 / 2) by lra. ring. }
  split.
  - rewrite (E Fh (1 / 2)). 2: { rewrite EF. apply is_expm_ext with (2 := X 3%nat _). intros; ring. } replace (1 / 2 * c) with (c / 2) by field. field. lra.
  - rewrite (E (mat_mul 3 Fh Fh) 1). 2: { rewrite EF. apply (expm_square 3). apply X. } rewrite Rmult_1_l. field. lra.
Qed.
Lemma rot_pass : forall expm c f, (forall n M, is_expm n M (expm n M)) -> 1 / 10 <= c -> waiting c f -> exists K, rotk c K /\
  f_pass pdot (rot c) east 1 0 expm rargs 1.2 f =
  match p_pass rargs 1.2 (ctl f) (PProbe None (sqrt 2 * (1 - cos (c / 2))) (sqrt 2 * (1 - cos c))) with
  | None => None
  | Some s' => let accepted := Nat.ltb (step (ctl f)) (step s') in
    let K' := Kry (vs K) (fun i k => if Nat.eqb i 0 && Nat.eqb k 2 then if accepted then 1 else 0 else hm K i k) (nm K) (mi K) (PmexModel.beta K) in
    if accepted then let b := blown rargs (ctl f) in
      Some (FState s' K' (fun k =>
        if Nat.eqb k (l (ctl f) + b) then combine_rows K 2 (let Fh := expm 3%nat (fun i k => sgn rargs * 0.5 * tau (ctl f) * with_phi (hm K) 2 i k) in mat_mul 3 Fh Fh)
        else if (Nat.leb (l (ctl f)) k && Nat.ltb k (l (ctl f) + b))%bool then combine_rows K 2 (expm 2%nat (fun i q => sgn rargs * (nth k (tau_out rargs) 0 - tau_now (ctl f)) * hm K i q))
        else w f k))
    else Some (FState s' K' (w f))
  end.
Proof.
  intros expm c f X C (T & N & M & J & K & B & F). exists K. split; [exact F|]. destruct (rot_probe expm c K X ltac:(lra) F) as [P1 P2].
  unfold f_pass. rewrite B. cbv beta iota zeta. rewrite <- P1, <- P2. rewrite T. reflexivity.
Qed.

Lemma spun_pass : forall expm f, (forall n M, is_expm n M (expm n M)) -> waiting (3 * (PI / 2)) f -> exists f', f_pass pdot (rot (3 * (PI / 2))) east 1 0 expm rargs 1.2 f = Some f' /\ waiting (3 * (PI / 2)) f'.
Proof.
  intros expm f X W. pose proof PI2_1 as PI1. set (c := 3 * (PI / 2)) in *. assert (C : 1 / 10 <= c) by (unfold c, PI2 in *; lra).
  destruct (rot_pass expm c f X C W) as (K & F & E). rewrite E. clear E. destruct W as (T & N & M & J & _).
  assert (C1 : cos c = 0) by (unfold c; apply cos_3PI2). assert (C2 : cos (c / 2) = - 1 / sqrt 2) by (replace (c / 2) with (3 * (PI / 4)) by (unfold c; field); apply cos_3PI4).
  rewrite C1, C2. set (hf := sqrt 2 * (1 - - 1 / sqrt 2)). replace (sqrt 2 * (1 - 0)) with (sqrt 2) by ring.
  pose proof (sqrt_lt_R0 2 ltac:(lra)) as S2. assert (HF : hf = sqrt 2 + 1) by (unfold hf; field; lra). rewrite HF. clearbody hf. clear hf HF.
  assert (S1 : 1 < sqrt 2) by (rewrite <- sqrt_1 at 1; apply sqrt_lt_1; lra).
  unfold p_pass. assert (AR : arnoldi (ctl f) None = (2%Z, false)) by (unfold arnoldi; rewrite M; f_equal; lia). cbn [p_breakdown]. rewrite AR. unfold p_decide. cbn [p_half p_full].
  rewrite (Rabs_pos_eq (sqrt 2)), (Rabs_pos_eq (sqrt 2 + 1)) by lra. unfold exponent.
  destruct (Req_EM_T (sqrt 2) 0) as [Y|_]; [lra|]. destruct (Req_EM_T (sqrt 2 + 1) 0) as [Y|_]; [lra|]. destruct (Req_EM_T (sqrt 2) (sqrt 2 + 1)) as [Y|_]; [lra|].
  set (e := ln 2 / ln (sqrt 2 / (sqrt 2 + 1))).
  assert (EN : e < 0).
  { unfold e. assert (ln (sqrt 2 / (sqrt 2 + 1)) < 0). { rewrite <- ln_1. apply ln_increasing; [apply Rdiv_lt_0_compat; lra|]. apply Rmult_lt_reg_r with (sqrt 2 + 1); [lra|]. unfold Rdiv. rewrite Rmult_assoc, Rinv_l by lra. lra. }
    assert (0 < ln 2) by (rewrite <- ln_1; apply ln_increasing; lra). unfold Rdiv. apply Ropp_lt_cancel. rewrite Ropp_0, Ropp_mult_distr_r. apply Rmult_lt_0_compat; [assumption|]. rewrite <- Rinv_opp. apply Rinv_0_lt_compat. lra. }
  set (om := tau_end rargs * sqrt 2 / (tau (ctl f) * tol rargs)). assert (OM : om = 10 * sqrt 2) by (unfold om; rewrite rte, T; cbn; field). rewrite OM. destruct (estimate_k (ctl f) (10 * sqrt 2)) as [k ko].
  replace (ltR 1.2 (10 * sqrt 2)) with true by (symmetry; apply ltR_true; lra). change (2 =? mmax rargs)%Z with true. cbv iota zeta.
  cbn [d_omega]. replace (ltR 1.2 (10 * sqrt 2)) with true by (symmetry; apply ltR_true; lra). cbv iota. cbn [step]. rewrite Nat.ltb_irrefl. cbv zeta iota. cbn [d_tau d_m].
  set (pw := Rpower _ e).
  assert (PW : 1 < pw).
  { unfold pw, Rpower. rewrite <- exp_0 at 1. apply exp_increasing. unfold gamma_mmax. rewrite rte. destruct (Rlt_dec 1 1) as [Y|_]; [lra|].
    assert (ln (0.6 / (10 * sqrt 2)) < 0). { rewrite <- ln_1. apply ln_increasing; [apply Rdiv_lt_0_compat; lra|]. apply Rmult_lt_reg_r with (10 * sqrt 2); [lra|]. unfold Rdiv. rewrite Rmult_assoc, Rinv_l by lra. lra. }
    nra. }
  eexists. split; [reflexivity|]. unfold waiting. cbn [ctl tau tau_now m j]. rewrite rte, T, N.
  assert (TN : Rmin (1 - 0) (Rmax (1 / 5) (1 * pw)) = 1) by (rewrite Rmax_right by lra; rewrite Rmin_left by lra; ring).
  split; [exact TN|]. split; [reflexivity|]. split; [reflexivity|]. split; [right; reflexivity|].
  unfold basis_of. cbn [ctl kr j m]. change (Z.to_nat (2 - 2)) with 0%nat. cbn [orths]. change (2 =? 0)%Z with false. cbv iota. eexists. split; [reflexivity|].
  destruct F as (B & H00 & H10 & H01 & H11 & H20 & H21 & HZ). unfold rotk. cbn [hm PmexModel.beta Nat.eqb andb]. repeat split; auto. intros i q Hq. destruct (_ && _)%bool; [reflexivity|now apply HZ].
Qed.
Theorem spun_run : forall expm, (forall n M, is_expm n M (expm n M)) -> forall n, exists f, f_run pdot (rot (3 * (PI / 2))) east 1 0 expm rargs 1.2 n (f_start east rargs) = Some f /\ tau_now (ctl f) = 0 /\ tau (ctl f) = 1 /\ m (ctl f) = mmax rargs.
Proof.
  intros expm X n. assert (C : 1 / 10 <= 3 * (PI / 2)) by (pose proof PI2_1; unfold PI2 in *; lra).
  assert (G : forall n f, waiting (3 * (PI / 2)) f -> exists f', f_run pdot (rot (3 * (PI / 2))) east 1 0 expm rargs 1.2 n f = Some f' /\ waiting (3 * (PI / 2)) f').
  { clear n. induction n as [|n IH]; intros f W; [exists f; split; [reflexivity|exact W]|]. cbn [f_run]. destruct (spun_pass expm f X W) as (f1 & P & W1). pose proof W as (_ & N & _). rewrite N, rte. destruct (Rlt_dec 0 1) as [_|Y]; [|lra]. rewrite P. now apply IH. }
  destruct (G n _ (rot_start _ C)) as (f & R & T & N & M & _). exists f. repeat split; assumption.
Qed.
(** a full turn: the estimate vanishes, and so does the argument of a logarithm *)
Theorem turn_run : forall expm, (forall n M, is_expm n M (expm n M)) -> f_run pdot (rot (2 * PI)) east 1 0 expm rargs 1.2 1 (f_start east rargs) = None.
Proof.
  intros expm X. assert (C : 1 / 10 <= 2 * PI) by (pose proof PI2_1; unfold PI2 in *; lra). cbn [f_run]. change (tau_now (ctl (f_start east rargs))) with 0. rewrite rte. destruct (Rlt_dec 0 1) as [_|Y]; [|lra].
  destruct (rot_pass expm (2 * PI) _ X C (rot_start _ C)) as (K & F & E). rewrite E. unfold p_pass. cbn [p_breakdown]. change (arnoldi (ctl (f_start east rargs)) None) with (2%Z, false). unfold p_decide. cbn [p_half p_full].
  rewrite cos_2PI. replace (sqrt 2 * (1 - 1)) with 0 by ring. rewrite Rabs_R0. unfold exponent. destruct (Req_EM_T 0 0) as [_|Y]; [reflexivity|lra].
Qed.

(** the control of a run is a run of the control *)
Lemma run_control : forall (X : ModuleSpace R_Ring) dot (A : X -> X) u p ex expm a delta n f f', f_run dot A u p ex expm a delta n f = Some f' -> exists ps, p_run a delta ps (ctl f) = Some (ctl f').
Proof.
  intros X dot A u p ex expm a delta n. induction n as [|n IH]; intros f f' H; cbn [f_run] in H; [injection H as <-; now exists []|].
  destruct (Rlt_dec (tau_now (ctl f)) (tau_end a)) as [T|T]; [|injection H as <-; now exists []].
  destruct (f_pass dot A u p ex expm a delta f) as [f1|] eqn:P; [|discriminate]. destruct (IH f1 f' H) as [ps E]. unfold f_pass in P. destruct (basis_of dot A u p ex a f) as [[K h] b].
  match type of P with (match p_pass _ _ _ ?q with _ => _ end = _) => exists (q :: ps); cbn [p_run]; destruct (Rlt_dec _ _) as [_|]; [|contradiction]; destruct (p_pass a delta (ctl f) q) as [s'|]; [|discriminate] end.
  assert (Cf : ctl f1 = s') by (cbv zeta in P; destruct (_ <? _)%nat in P; injection P as <-; reflexivity). rewrite <- Cf. exact E.
Qed.
Lemma break_case : 1 <= 1.2 /\ good bargs /\ output_times (tau_out bargs) /\ 0 < last_out bargs /\ exists ps s, p_run bargs 1.2 ps (start bargs) = Some s /\ ~ tau_now s < tau_end bargs.
Proof.
  split; [lra|]. split; [exact bgood|]. split; [intros i k H; cbn in H; lia|]. split; [unfold last_out; cbn; lra|].
  destruct (break_run series_expm series_expm_ok) as (f & R & N & _). destruct (run_control _ _ _ _ _ _ _ _ _ _ _ _ R) as [ps P]. exists ps, (ctl f). split; [exact P|]. rewrite N. unfold tau_end, last_out. cbn. rewrite Rabs_R1. lra.
Qed.
