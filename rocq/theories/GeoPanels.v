(** The six panels are the faces of one turned cube *)
From Coq Require Import Reals ZArith Lra Lia.
From Coquelicot Require Import Coquelicot.
From Verif Require Import TopologySpec GeoModel GeoSpec GeoProofs GeoArea GeoAngles GeoWinds.
Local Open Scope R_scope.

Ltac peq := repeat match goal with |- (_, _) = (_, _) => apply f_equal2 end.
Lemma frame_right_handed : forall o, right_handed (fC o) (fE1 o) (fE2 o).
Proof. intros o. destruct (frame_orthonormal o) as (A & B & C & D & E & F). destruct (frame_right o) as (_ & _ & G). unfold right_handed. auto 10. Qed.
Lemma vec_eq3 : forall x y z (a : vec), x = vx a -> y = vy a -> z = vz a -> (x, y, z) = a.
Proof. intros x y z [[a1 a2] a3]; unfold vx, vy, vz; cbn; intros; subst; reflexivity. Qed.
(** the angles of a frame *)
Lemma frame_of_angles : forall a b c o h, right_handed a b c -> h <> 0 -> h ^ 2 = 1 - vz a ^ 2 ->
  h * cos (lon_p o) = vx a -> h * sin (lon_p o) = vy a -> cos (lat_p o) = h -> sin (lat_p o) = vz a -> h * sin (angle_p o) = - vz b -> h * cos (angle_p o) = vz c ->
  fC o = a /\ fE1 o = b /\ fE2 o = c.
Proof.
  intros a b c o h (A & B & C & D & E & F & G) Hh H2 L1 L2 P1 P2 N1 N2.
  assert (Q1 : cos (lon_p o) = vx a / h) by (rewrite <- L1; field; auto). assert (Q2 : sin (lon_p o) = vy a / h) by (rewrite <- L2; field; auto).
  assert (Q3 : sin (angle_p o) = - vz b / h) by (rewrite <- N1; field; auto). assert (Q4 : cos (angle_p o) = vz c / h) by (rewrite <- N2; field; auto).
  assert (FC : fC o = a). { unfold fC. apply vec_eq3; rewrite ?Q1, ?Q2, ?P1, ?P2; [field; auto|field; auto|reflexivity]. }
  assert (K : vz c = vx a * vy b - vy a * vx b) by (rewrite <- G; reflexivity).
  assert (FE : fE1 o = b).
  { unfold fE1. unfold dot in D, A. rewrite Q1, Q2, P1, P2, Q3, Q4.
    apply vec_eq3.
    - apply Rmult_eq_reg_r with (h ^ 2); [|apply pow_nonzero; auto]. transitivity (- (vx a * (vz a * vz b)) - vy a * vz c); [field; auto|]. rewrite H2, K.
      replace (vz a * vz b) with (- (vx a * vx b + vy a * vy b)) by lra. replace (1 - vz a ^ 2) with (vx a ^ 2 + vy a ^ 2) by (rewrite <- A; ring). ring.
    - apply Rmult_eq_reg_r with (h ^ 2); [|apply pow_nonzero; auto]. transitivity (- (vy a * (vz a * vz b)) + vx a * vz c); [field; auto|]. rewrite H2, K.
      replace (vz a * vz b) with (- (vx a * vx b + vy a * vy b)) by lra. replace (1 - vz a ^ 2) with (vx a ^ 2 + vy a ^ 2) by (rewrite <- A; ring). ring.
    - field. auto. }
  split; [exact FC|split; [exact FE|]]. destruct (frame_right o) as (_ & _ & R3). rewrite <- R3, FC, FE. exact G.
Qed.
Lemma rh_rot1 : forall a b c, right_handed a b c -> right_handed b (vopp a) c.
Proof.
  intros a b c (A & B & C & D & E & F & G). unfold right_handed.
  assert (O1 : forall x y, dot (vopp x) y = - dot x y) by (intros; unfold dot, vopp, vx, vy, vz; cbn [fst snd]; ring).
  assert (O2 : forall x y, dot x (vopp y) = - dot x y) by (intros; unfold dot, vopp, vx, vy, vz; cbn [fst snd]; ring).
  rewrite !O1, !O2, (dot_comm b a), A, B, C, D, E, F. repeat split; try ring. rewrite <- G. vec3; ring.
Qed.
Lemma rh_cyc : forall a b c, right_handed a b c -> right_handed b c a.
Proof.
  intros a b c (A & B & C & D & E & F & G). unfold right_handed. rewrite (dot_comm b a), (dot_comm c a). repeat split; auto.
  rewrite <- G. unfold dot in *. vec3.
  all: unfold vx, vy, vz in *; destruct a as [[ax ay] az], b as [[bx by0] bz]; cbn [fst snd] in *.
  - transitivity (ax * (bx * bx + by0 * by0 + bz * bz) - bx * (ax * bx + ay * by0 + az * bz)); [ring|]. rewrite B, D. ring.
  - transitivity (ay * (bx * bx + by0 * by0 + bz * bz) - by0 * (ax * bx + ay * by0 + az * bz)); [ring|]. rewrite B, D. ring.
  - transitivity (az * (bx * bx + by0 * by0 + bz * bz) - bz * (ax * bx + ay * by0 + az * bz)); [ring|]. rewrite B, D. ring.
Qed.
Lemma vopp_opp : forall a, vopp (vopp a) = a. Proof. intros. unfold vopp. vec3; ring. Qed.
Lemma unit_z : forall a, dot a a = 1 -> vx a ^ 2 + vy a ^ 2 = 1 - vz a ^ 2.
Proof. intros a H. unfold dot in H. lra. Qed.
(** the frame whose first vector is a, from atan2 and asin *)
Lemma frame_atan2 : forall a b c lon lat angle, right_handed a b c -> vz a ^ 2 <> 1 ->
  lon = atan2 (vy a) (vx a) -> cos lat = sqrt (1 - vz a ^ 2) -> sin lat = vz a ->
  (sqrt ((vz c) ^ 2 + (- vz b) ^ 2) * sin angle = - vz b /\ sqrt ((vz c) ^ 2 + (- vz b) ^ 2) * cos angle = vz c) ->
  let o := {| lon_p := lon; lat_p := lat; angle_p := angle |} in fC o = a /\ fE1 o = b /\ fE2 o = c.
Proof.
  intros a b c lon lat angle H Hz HL C S [A1 A2] o. assert (HH := H). destruct H as (A & B & Cc & D & E & F & G).
  pose proof (unit_z a A) as U. assert (P : 0 < 1 - vz a ^ 2) by (pose proof (pow2_ge_0 (vx a)); pose proof (pow2_ge_0 (vy a)); lra).
  assert (V : vz c ^ 2 + (- vz b) ^ 2 = 1 - vz a ^ 2).
  { assert (K : dot axis axis = 1) by (unfold dot, axis, vx, vy, vz; cbn; ring).
    assert (W : vz a ^ 2 + vz b ^ 2 + vz c ^ 2 = 1).
    { assert (Z : vz c = vx a * vy b - vy a * vx b) by (rewrite <- G; reflexivity). unfold dot in *. rewrite Z.
      clear - A B D. nra || (set (ax := vx a) in *; set (ay := vy a) in *; set (az := vz a) in *; set (bx := vx b) in *; set (by0 := vy b) in *; set (bz := vz b) in *;
        transitivity (az ^ 2 + bz ^ 2 + ((ax * ax + ay * ay) * (bx * bx + by0 * by0) - (ax * bx + ay * by0) ^ 2)); [ring|];
        replace (ax * ax + ay * ay) with (1 - az * az) by lra; replace (bx * bx + by0 * by0) with (1 - bz * bz) by lra; replace (ax * bx + ay * by0) with (- (az * bz)) by lra; ring). }
    lra. }
  rewrite V in A1, A2.
  assert (Q : vx a <> 0 \/ vy a <> 0). { destruct (Req_dec (vx a) 0) as [Z|Z]; [|auto]. right. intros Z'. rewrite Z, Z' in U. lra. }
  destruct (atan2_spec (vx a) (vy a) Q) as [T1 T2]. rewrite U in T1, T2. rewrite <- HL in T1, T2.
  apply (frame_of_angles a b c o (sqrt (1 - vz a ^ 2)) HH); auto.
  - apply Rgt_not_eq. apply sqrt_lt_R0. exact P.
  - apply pow2_sqrt. lra.
Qed.
Lemma asin_neg_angles : forall x, - 1 <= x <= 1 -> cos (asin x) = sqrt (1 - x ^ 2) /\ sin (asin x) = x /\ cos (- asin x) = sqrt (1 - x ^ 2) /\ sin (- asin x) = - x.
Proof.
  intros x H. rewrite cos_neg, sin_neg, sin_asin, cos_asin by lra. unfold Rsqr. replace (x * x) with (x ^ 2) by ring. auto.
Qed.
Lemma prod_range : forall x y, - 1 <= cos x * sin y <= 1 /\ - 1 <= cos x * cos y <= 1.
Proof.
  intros x y. pose proof (COS_bound x). pose proof (SIN_bound y). pose proof (COS_bound y).
  assert (K : forall u v, - 1 <= u <= 1 -> - 1 <= v <= 1 -> - 1 <= u * v <= 1) by (intros; nra). split; apply K; lra.
Qed.
(** the frame that panel p must have *)
Definition face (a b c : vec) (p : nat) : vec * vec * vec :=
  match p with
  | 0%nat => (a, b, c) | 1%nat => (b, vopp a, c) | 2%nat => (vopp a, vopp b, c) | 3%nat => (vopp b, a, c)
  | 4%nat => (c, b, vopp a) | _ => (vopp c, b, a)
  end.
Lemma face_turn : forall a b c p X Y, (p < 6)%nat -> let '(f, e1, e2) := face a b c p in vadd f (vadd (vscal X e1) (vscal Y e2)) = turn a b c (cube_point 1 (Z.of_nat p) X Y).
Proof.
  intros a b c p X Y Hp. destruct p as [|[|[|[|[|[|p]]]]]]; [..|lia]; cbn [face Z.of_nat Pos.of_succ_nat Pos.succ cube_point]; unfold turn; unfold vopp; vec3; ring.
Qed.
Lemma panel_frame : forall p lambda0 phi0 alpha0 o, (p < 6)%nat -> off_poles p phi0 alpha0 -> panel_rotation p lambda0 phi0 alpha0 = Some o ->
  let b := {| lon_p := lambda0; lat_p := phi0; angle_p := alpha0 |} in (fC o, fE1 o, fE2 o) = face (fC b) (fE1 b) (fE2 b) p.
Proof.
  intros p lambda0 phi0 alpha0 o Hp Hoff E b. pose proof (frame_right_handed b) as RH.
  destruct (prod_range phi0 alpha0) as [PR1 PR2].
  assert (G : forall a' b' c' lon lat angle, right_handed a' b' c' -> vz a' ^ 2 <> 1 -> lon = atan2 (vy a') (vx a') -> cos lat = sqrt (1 - vz a' ^ 2) -> sin lat = vz a' ->
    (sqrt ((vz c') ^ 2 + (- vz b') ^ 2) * sin angle = - vz b' /\ sqrt ((vz c') ^ 2 + (- vz b') ^ 2) * cos angle = vz c') ->
    let o := {| lon_p := lon; lat_p := lat; angle_p := angle |} in (fC o, fE1 o, fE2 o) = (a', b', c')).
  { intros a' b' c' lon lat angle H1 H2 H3 H4 H5 H6 o'. destruct (frame_atan2 a' b' c' lon lat angle H1 H2 H3 H4 H5 H6) as (Q1 & Q2 & Q3). unfold o'. rewrite Q1, Q2, Q3. reflexivity. }
  destruct p as [|[|[|[|[|[|p]]]]]]; [..|lia]; cbn [panel_rotation] in E; cbn [face off_poles] in *.
  - inversion E. subst o. reflexivity.
  - inversion E. subst o. clear E. pose proof (rh_rot1 _ _ _ RH) as RH1. destruct (asin_neg_angles _ PR1) as (A1 & A2 & A3 & A4).
    apply (G (fE1 b) (vopp (fC b)) (fE2 b)); auto.
    + unfold b, fE1, vz; cbn [fst snd lat_p angle_p lon_p]. replace (- cos phi0 * sin alpha0) with (- (cos phi0 * sin alpha0)) by ring. replace ((- (cos phi0 * sin alpha0)) ^ 2) with ((cos phi0 * sin alpha0) ^ 2) by ring. exact Hoff.
    + rewrite A3. f_equal. unfold b, fE1, vz; cbn [fst snd lat_p angle_p lon_p]. ring.
    + rewrite A4. unfold b, fE1, vz; cbn [fst snd lat_p angle_p lon_p]. ring.
    + unfold vopp, b, fC, fE2, vz; cbn [fst snd lat_p angle_p lon_p]. rewrite !Ropp_involutive.
      assert (Q : cos phi0 * cos alpha0 <> 0 \/ sin phi0 <> 0).
      { destruct (Req_dec (cos phi0 * cos alpha0) 0) as [Z|Z]; [|auto]. right. intros Z'. apply Hoff. pose proof (sc1 phi0). pose proof (sc1 alpha0). rewrite Z' in *. replace ((cos phi0 * sin alpha0) ^ 2) with (cos phi0 ^ 2 * sin alpha0 ^ 2) by ring. rewrite H0.
        replace (cos phi0 ^ 2 * (1 - cos alpha0 ^ 2)) with (cos phi0 ^ 2 - (cos phi0 * cos alpha0) ^ 2) by ring. rewrite Z. lra. }
      destruct (atan2_spec _ _ Q) as [T1 T2]. split; [exact T2|exact T1].
  - inversion E. subst o. clear E.
    assert (L : cos (atan2 (- sin lambda0) (- cos lambda0)) = - cos lambda0 /\ sin (atan2 (- sin lambda0) (- cos lambda0)) = - sin lambda0).
    { pose proof (sc1 lambda0) as S. assert (Q : - cos lambda0 <> 0 \/ - sin lambda0 <> 0). { destruct (Req_dec (cos lambda0) 0) as [Z|Z]; [right|left; lra]. intros Z'. assert (sin lambda0 = 0) by lra. rewrite H, Z in S. lra. }
      destruct (atan2_spec _ _ Q) as [T1 T2]. replace ((- cos lambda0) ^ 2 + (- sin lambda0) ^ 2) with 1 in * by (replace ((- cos lambda0) ^ 2) with (cos lambda0 ^ 2) by ring; replace ((- sin lambda0) ^ 2) with (sin lambda0 ^ 2) by ring; lra).
      rewrite sqrt_1, !Rmult_1_l in *. auto. }
    assert (L3 : cos (- atan2 (sin alpha0) (cos alpha0)) = cos alpha0 /\ sin (- atan2 (sin alpha0) (cos alpha0)) = - sin alpha0).
    { pose proof (sc1 alpha0) as S. assert (Q : cos alpha0 <> 0 \/ sin alpha0 <> 0). { destruct (Req_dec (cos alpha0) 0) as [Z|Z]; [right|left; lra]. intros Z'. rewrite Z', Z in S. lra. }
      destruct (atan2_spec _ _ Q) as [T1 T2]. replace (cos alpha0 ^ 2 + sin alpha0 ^ 2) with 1 in * by lra.
      rewrite sqrt_1, !Rmult_1_l in *. rewrite cos_neg, sin_neg, T1, T2. auto. }
    destruct L as [L1 L2]. destruct L3 as [L3 L4]. unfold fC, fE1, fE2, b. cbn [fst snd lat_p angle_p lon_p]. rewrite L1, L2, L3, L4, cos_neg, sin_neg.
    unfold vopp, vx, vy, vz; cbn [fst snd]. peq; ring.
  - inversion E. subst o. clear E. pose proof (rh_rot1 _ _ _ (rh_rot1 _ _ _ (rh_rot1 _ _ _ RH))) as RH1. rewrite vopp_opp in RH1. destruct (asin_neg_angles _ PR1) as (A1 & A2 & A3 & A4).
    apply (G (vopp (fE1 b)) (fC b) (fE2 b)); auto.
    + unfold b, vopp, fE1, vz; cbn [fst snd lat_p angle_p lon_p]. replace ((- (- cos phi0 * sin alpha0)) ^ 2) with ((cos phi0 * sin alpha0) ^ 2) by ring. exact Hoff.
    + unfold b, vopp, fE1, vx, vy; cbn [fst snd lat_p angle_p lon_p]. f_equal; ring.
    + rewrite A1. f_equal. unfold b, vopp, fE1, vz; cbn [fst snd lat_p angle_p lon_p]. ring.
    + rewrite A2. unfold b, vopp, fE1, vz; cbn [fst snd lat_p angle_p lon_p]. ring.
    + unfold b, fC, fE2, vz; cbn [fst snd lat_p angle_p lon_p]. replace ((- sin phi0) ^ 2) with (sin phi0 ^ 2) by ring.
      assert (Q : cos phi0 * cos alpha0 <> 0 \/ sin phi0 <> 0).
      { destruct (Req_dec (cos phi0 * cos alpha0) 0) as [Z|Z]; [|auto]. right. intros Z'. apply Hoff. pose proof (sc1 phi0). pose proof (sc1 alpha0). rewrite Z' in *. replace ((cos phi0 * sin alpha0) ^ 2) with (cos phi0 ^ 2 * sin alpha0 ^ 2) by ring. rewrite H0.
        replace (cos phi0 ^ 2 * (1 - cos alpha0 ^ 2)) with (cos phi0 ^ 2 - (cos phi0 * cos alpha0) ^ 2) by ring. rewrite Z. lra. }
      destruct (atan2_spec _ _ Q) as [T1 T2]. rewrite sin_neg, cos_neg. split; [rewrite Ropp_mult_distr_r_reverse, T2; reflexivity|exact T1].
  - pose proof (rh_cyc _ _ _ (rh_cyc _ _ _ (rh_rot1 _ _ _ RH))) as RH1. destruct (asin_neg_angles _ PR2) as (A1 & A2 & A3 & A4).
    assert (ZERO : Rabs 0 < / 10 ^ 13) by (rewrite Rabs_R0; apply Rinv_0_lt_compat, pow_lt; lra).
    destruct Hoff as [[Z1 Z2]|[Hoff T]].
    + subst phi0 alpha0. destruct (Rlt_dec (Rabs 0) (/ 10 ^ 13)) as [_|N]; [|contradiction]. cbn [andb] in E. inversion E. subst o. clear E.
      unfold fC, fE1, fE2, b. cbn [fst snd lat_p angle_p lon_p]. rewrite cos_neg, sin_neg, cos_PI2, sin_PI2, cos_0, sin_0. unfold vopp, vx, vy, vz; cbn [fst snd]. peq; ring.
    + assert (E' : Some o = Some {| lon_p := atan2 (- sin lambda0 * sin phi0 * cos alpha0 + cos lambda0 * sin alpha0) (- cos lambda0 * sin phi0 * cos alpha0 - sin lambda0 * sin alpha0); lat_p := asin (cos phi0 * cos alpha0); angle_p := atan2 (cos phi0 * sin alpha0) (- sin phi0) |}).
      { rewrite <- E. destruct (Rlt_dec (Rabs phi0) (/ 10 ^ 13)); destruct (Rlt_dec (Rabs alpha0) (/ 10 ^ 13)); cbn [andb]; try reflexivity. exfalso. lra. }
      clear E. inversion E'. subst o. clear E'.
      apply (G (fE2 b) (fE1 b) (vopp (fC b))); auto.
      * unfold b, fE2, vx, vy; cbn [fst snd lat_p angle_p lon_p]. f_equal; ring.
      * unfold vopp, b, fC, fE1, vz; cbn [fst snd lat_p angle_p lon_p]. replace (- (- cos phi0 * sin alpha0)) with (cos phi0 * sin alpha0) by ring.
      assert (Q : - sin phi0 <> 0 \/ cos phi0 * sin alpha0 <> 0).
      { destruct (Req_dec (cos phi0 * sin alpha0) 0) as [Z|Z]; [left|auto]. intros Z'. apply Hoff. assert (Z2 : sin phi0 = 0) by lra. pose proof (sc1 phi0). pose proof (sc1 alpha0). rewrite Z2 in *. replace ((cos phi0 * cos alpha0) ^ 2) with (cos phi0 ^ 2 - cos phi0 ^ 2 * sin alpha0 ^ 2) by (rewrite H0; ring).
        replace (cos phi0 ^ 2 * sin alpha0 ^ 2) with ((cos phi0 * sin alpha0) ^ 2) by ring. rewrite Z. lra. }
        destruct (atan2_spec _ _ Q) as [T1 T2]. split; [exact T2|exact T1].
  - pose proof (rh_rot1 _ _ _ (rh_rot1 _ _ _ (rh_rot1 _ _ _ (rh_cyc _ _ _ RH)))) as RH1. rewrite vopp_opp in RH1. destruct (asin_neg_angles _ PR2) as (A1 & A2 & A3 & A4).
    assert (ZERO : Rabs 0 < / 10 ^ 13) by (rewrite Rabs_R0; apply Rinv_0_lt_compat, pow_lt; lra).
    destruct Hoff as [[Z1 Z2]|[Hoff T]].
    + subst phi0 alpha0. destruct (Rlt_dec (Rabs 0) (/ 10 ^ 13)) as [_|N]; [|contradiction]. cbn [andb] in E. inversion E. subst o. clear E.
      unfold fC, fE1, fE2, b. cbn [fst snd lat_p angle_p lon_p]. rewrite cos_neg, sin_neg, cos_PI2, sin_PI2, cos_0, sin_0. unfold vopp, vx, vy, vz; cbn [fst snd]. peq; ring.
    + assert (E' : Some o = Some {| lon_p := atan2 (sin lambda0 * sin phi0 * cos alpha0 - cos lambda0 * sin alpha0) (cos lambda0 * sin phi0 * cos alpha0 + sin lambda0 * sin alpha0); lat_p := - asin (cos phi0 * cos alpha0); angle_p := atan2 (cos phi0 * sin alpha0) (sin phi0) |}).
      { rewrite <- E. destruct (Rlt_dec (Rabs phi0) (/ 10 ^ 13)); destruct (Rlt_dec (Rabs alpha0) (/ 10 ^ 13)); cbn [andb]; try reflexivity. exfalso. lra. }
      clear E. inversion E'. subst o. clear E'.
      apply (G (vopp (fE2 b)) (fE1 b) (fC b)); auto.
      * unfold b, vopp, fE2, vz; cbn [fst snd lat_p angle_p lon_p]. replace ((- (cos phi0 * cos alpha0)) ^ 2) with ((cos phi0 * cos alpha0) ^ 2) by ring. exact Hoff.
      * unfold b, vopp, fE2, vx, vy; cbn [fst snd lat_p angle_p lon_p]. f_equal; ring.
      * rewrite A3. f_equal. unfold b, vopp, fE2, vz; cbn [fst snd lat_p angle_p lon_p]. ring.
      * unfold b, fC, fE1, vz; cbn [fst snd lat_p angle_p lon_p]. replace (- (- cos phi0 * sin alpha0)) with (cos phi0 * sin alpha0) by ring.
      assert (Q : sin phi0 <> 0 \/ cos phi0 * sin alpha0 <> 0).
      { destruct (Req_dec (cos phi0 * sin alpha0) 0) as [Z|Z]; [left|auto]. intros Z'. apply Hoff. assert (Z2 : sin phi0 = 0) by lra. pose proof (sc1 phi0). pose proof (sc1 alpha0). rewrite Z2 in *. replace ((cos phi0 * cos alpha0) ^ 2) with (cos phi0 ^ 2 - cos phi0 ^ 2 * sin alpha0 ^ 2) by (rewrite H0; ring).
        replace (cos phi0 ^ 2 * sin alpha0 ^ 2) with ((cos phi0 * sin alpha0) ^ 2) by ring. rewrite Z. lra. }
        destruct (atan2_spec _ _ Q) as [T1 T2]. split; [exact T2|exact T1].
Qed.
Lemma panel_some : forall p l f a, (p < 6)%nat -> exists o, panel_rotation p l f a = Some o.
Proof. intros p l f a H. destruct p as [|[|[|[|[|[|p]]]]]]; [..|lia]; cbn [panel_rotation]; try (eexists; reflexivity); destruct (andb _ _); eexists; reflexivity. Qed.
(** every panel is the projection of its face of the cube *)
Lemma panel_projection : forall p lambda0 phi0 alpha0 o r X Y, (p < 6)%nat -> off_poles p phi0 alpha0 -> panel_rotation p lambda0 phi0 alpha0 = Some o ->
  let b := {| lon_p := lambda0; lat_p := phi0; angle_p := alpha0 |} in
  to_cartesian o r X Y = vscal (r / sqrt (1 + X ^ 2 + Y ^ 2)) (turn (fC b) (fE1 b) (fE2 b) (cube_point 1 (Z.of_nat p) X Y)).
Proof.
  intros p lambda0 phi0 alpha0 o r X Y Hp Hoff E b. rewrite cartesian_gn. pose proof (panel_frame p lambda0 phi0 alpha0 o Hp Hoff E) as F. cbv zeta in F. fold b in F.
  pose proof (face_turn (fC b) (fE1 b) (fE2 b) p X Y Hp) as T. rewrite <- F in T. unfold gn. rewrite T. reflexivity.
Qed.
(** ** Edges, overlap and covering *)
Lemma cube_norm : forall p X Y, dot (cube_point 1 p X Y) (cube_point 1 p X Y) = 1 + X ^ 2 + Y ^ 2.
Proof.
  intros p X Y. unfold cube_point, dot, vx, vy, vz. destruct p as [|p|p]; [|destruct p as [[p|p|]|[p|[p|p|]|]|]|]; cbn [fst snd]; ring.
Qed.
Lemma turn_dot : forall a b c q q', right_handed a b c -> dot (turn a b c q) (turn a b c q') = dot q q'.
Proof.
  intros a b c q q' (A & B & C & D & E & F & G). unfold turn. rewrite !dot_add_l, !dot_add_r, !dot_scal_l, !dot_scal_r, (dot_comm b a), (dot_comm c a), (dot_comm c b), A, B, C, D, E, F. unfold dot. ring.
Qed.
Lemma turn_scal : forall a b c k q, vscal k (turn a b c q) = turn a b c (vscal k q).
Proof. intros. unfold turn. vec3; ring. Qed.
Lemma turn_coords : forall a b c q, right_handed a b c -> q = (dot (turn a b c q) a, dot (turn a b c q) b, dot (turn a b c q) c).
Proof.
  intros a b c q (A & B & C & D & E & F & G). unfold turn. rewrite !dot_add_l, !dot_scal_l, (dot_comm b a), (dot_comm c a), (dot_comm c b), A, B, C, D, E, F. destruct q as [[x y] z]. unfold vx, vy, vz; cbn [fst snd]. peq; ring.
Qed.
Lemma turn_inj : forall a b c q q', right_handed a b c -> turn a b c q = turn a b c q' -> q = q'.
Proof. intros a b c q q' H E. rewrite (turn_coords a b c q H), (turn_coords a b c q' H), E. reflexivity. Qed.
Lemma turn_onto : forall a b c v, right_handed a b c -> exists q, turn a b c q = v.
Proof.
  intros a b c v H. exists (dot v a, dot v b, dot v c). assert (HH := H). destruct H as (A & B & C & D & E & F & G).
  set (q := (dot v a, dot v b, dot v c)). set (w := vadd v (vscal (- 1) (turn a b c q))).
  assert (W : dot w a = 0 /\ dot w b = 0 /\ dot w c = 0).
  { unfold w. rewrite !dot_add_l, !dot_scal_l. unfold turn. rewrite !dot_add_l, !dot_scal_l, (dot_comm b a), (dot_comm c a), (dot_comm c b), A, B, C, D, E, F. unfold q, vx, vy, vz; cbn [fst snd]. repeat split; ring. }
  destruct W as (W1 & W2 & W3).
  (* w is orthogonal to a, b and a x b *)
  assert (Z : dot w w = 0).
  { assert (L : dot w w * (dot a a * dot b b - dot a b ^ 2) = dot w c ^ 2 + (dot w a ^ 2 * dot b b - 2 * dot w a * dot w b * dot a b + dot w b ^ 2 * dot a a)).
    { rewrite <- G. unfold dot, cross, vx, vy, vz; cbn [fst snd]. ring. }
    rewrite A, B, D, W1, W2, W3 in L. lra. }
  assert (Z3 : vx w = 0 /\ vy w = 0 /\ vz w = 0).
  { unfold dot in Z. pose proof (Rle_0_sqr (vx w)). pose proof (Rle_0_sqr (vy w)). pose proof (Rle_0_sqr (vz w)). unfold Rsqr in *. repeat split; nra. }
  destruct Z3 as (Zx & Zy & Zz). change (vx w) with (vx v + - 1 * vx (turn a b c q)) in Zx. change (vy w) with (vy v + - 1 * vy (turn a b c q)) in Zy. change (vz w) with (vz v + - 1 * vz (turn a b c q)) in Zz.
  apply vec_eq; lra.
Qed.
Section Sphere.
Variables (lambda0 phi0 alpha0 : R).
Let base := {| lon_p := lambda0; lat_p := phi0; angle_p := alpha0 |}.
Let T := turn (fC base) (fE1 base) (fE2 base).
Lemma edges_meet : forall p q op oq r X Y X' Y', (p < 6)%nat -> (q < 6)%nat -> off_poles p phi0 alpha0 -> off_poles q phi0 alpha0 ->
  panel_rotation p lambda0 phi0 alpha0 = Some op -> panel_rotation q lambda0 phi0 alpha0 = Some oq ->
  cube_point 1 (Z.of_nat p) X Y = cube_point 1 (Z.of_nat q) X' Y' -> to_cartesian op r X Y = to_cartesian oq r X' Y'.
Proof.
  intros p q op oq r X Y X' Y' Hp Hq Gp Gq Ep Eq E. rewrite (panel_projection p lambda0 phi0 alpha0 op r X Y Hp Gp Ep), (panel_projection q lambda0 phi0 alpha0 oq r X' Y' Hq Gq Eq).
  rewrite <- (cube_norm (Z.of_nat p) X Y), <- (cube_norm (Z.of_nat q) X' Y'), E. reflexivity.
Qed.
(** the largest coordinate of a point of the cube *)
Definition big (q : vec) : R := Rmax (Rabs (vx q)) (Rmax (Rabs (vy q)) (Rabs (vz q))).
Lemma big_scal : forall k q, 0 <= k -> big (vscal k q) = k * big q.
Proof. intros k q H. unfold big, vscal, vx, vy, vz; cbn [fst snd]. rewrite !Rabs_mult, (Rabs_pos_eq k H), !RmaxRmult by auto. reflexivity. Qed.
Lemma big_cube : forall p X Y, - 1 <= X <= 1 -> - 1 <= Y <= 1 -> big (cube_point 1 p X Y) = 1.
Proof.
  intros p X Y HX HY. assert (AX : Rabs X <= 1) by (apply Rabs_le; lra). assert (AY : Rabs Y <= 1) by (apply Rabs_le; lra).
  unfold cube_point, big, vx, vy, vz. destruct p as [|p|p]; [|destruct p as [[p|p|]|[p|[p|p|]|]|]|]; cbn [fst snd]; rewrite ?Rabs_Ropp, ?Rabs_R1; unfold Rmax; repeat destruct (Rle_dec _ _); lra.
Qed.
Lemma overlap_edges : forall p q op oq r X Y X' Y', (p < 6)%nat -> (q < 6)%nat -> off_poles p phi0 alpha0 -> off_poles q phi0 alpha0 ->
  panel_rotation p lambda0 phi0 alpha0 = Some op -> panel_rotation q lambda0 phi0 alpha0 = Some oq -> 0 < r ->
  - 1 <= X <= 1 -> - 1 <= Y <= 1 -> - 1 <= X' <= 1 -> - 1 <= Y' <= 1 ->
  to_cartesian op r X Y = to_cartesian oq r X' Y' -> cube_point 1 (Z.of_nat p) X Y = cube_point 1 (Z.of_nat q) X' Y'.
Proof.
  intros p q op oq r X Y X' Y' Hp Hq Gp Gq Ep Eq Hr B1 B2 B3 B4 E. rewrite (panel_projection p lambda0 phi0 alpha0 op r X Y Hp Gp Ep), (panel_projection q lambda0 phi0 alpha0 oq r X' Y' Hq Gq Eq) in E.
  fold base in E. rewrite !turn_scal in E. apply (turn_inj _ _ _ _ _ (frame_right_handed base)) in E.
  assert (P1 : 0 < r / sqrt (1 + X ^ 2 + Y ^ 2)) by (apply Rdiv_lt_0_compat; [lra|exact (delta_pos X Y)]).
  assert (P2 : 0 < r / sqrt (1 + X' ^ 2 + Y' ^ 2)) by (apply Rdiv_lt_0_compat; [lra|exact (delta_pos X' Y')]).
  set (k := r / sqrt (1 + X ^ 2 + Y ^ 2)) in *. set (k' := r / sqrt (1 + X' ^ 2 + Y' ^ 2)) in *.
  assert (K : k = k').
  { pose proof (f_equal big E) as F. rewrite !big_scal, !big_cube in F by lra. lra. }
  rewrite <- K in E. set (u := cube_point 1 (Z.of_nat p) X Y) in *. set (v := cube_point 1 (Z.of_nat q) X' Y') in *.
  assert (S : forall w, vscal (/ k) (vscal k w) = w) by (intros w; vec3; field; lra). rewrite <- (S u), <- (S v), E. reflexivity.
Qed.
Lemma scale_to_cube : forall q, 0 < dot q q -> exists p X Y k, (p < 6)%nat /\ - 1 <= X <= 1 /\ - 1 <= Y <= 1 /\ 0 < k /\ q = vscal k (cube_point 1 (Z.of_nat p) X Y).
Proof.
  intros [[x y] z] H. unfold dot, vx, vy, vz in H; cbn [fst snd] in H.
  assert (B : forall u k, 0 < k -> - k <= u <= k -> - 1 <= u / k <= 1).
  { intros u k Hk Hu. split; apply Rmult_le_reg_r with k; auto; unfold Rdiv; rewrite Rmult_assoc, Rinv_l by lra; lra. }
  assert (C : (0 < x /\ - x <= y <= x /\ - x <= z <= x) \/ (x < 0 /\ x <= y <= - x /\ x <= z <= - x) \/ (0 < y /\ - y <= x <= y /\ - y <= z <= y) \/ (y < 0 /\ y <= x <= - y /\ y <= z <= - y)
    \/ (0 < z /\ - z <= x <= z /\ - z <= y <= z) \/ (z < 0 /\ z <= x <= - z /\ z <= y <= - z)).
  { assert (D : forall u k, Rabs u <= Rabs k -> (0 < k -> - k <= u <= k) /\ (k < 0 -> k <= u <= - k)).
    { intros u k Huk. split; intros Hk; [rewrite (Rabs_pos_eq k) in Huk by lra|rewrite (Rabs_left k) in Huk by lra]; apply Rabs_le_between in Huk; lra. }
    assert (N : forall k u v, Rabs u <= Rabs k -> Rabs v <= Rabs k -> 0 < k * k + u * u + v * v -> k <> 0).
    { intros k u v Hu Hv Hp Z. rewrite Z, Rabs_R0 in *. assert (Rabs u = 0) by (pose proof (Rabs_pos u); lra). assert (Rabs v = 0) by (pose proof (Rabs_pos v); lra).
      apply Rabs_eq_0 in H0. apply Rabs_eq_0 in H1. subst. lra. }
    assert (M : (Rabs y <= Rabs x /\ Rabs z <= Rabs x) \/ (Rabs x <= Rabs y /\ Rabs z <= Rabs y) \/ (Rabs x <= Rabs z /\ Rabs y <= Rabs z)) by lra.
    destruct M as [[M1 M2]|[[M1 M2]|[M1 M2]]].
    - assert (x <> 0) by (apply (N x y z); auto; lra). destruct (D y x M1), (D z x M2). assert (Q : 0 < x \/ x < 0) by lra. destruct Q; [left|right; left]; auto.
    - assert (y <> 0) by (apply (N y x z); auto; lra). destruct (D x y M1), (D z y M2). assert (Q : 0 < y \/ y < 0) by lra. destruct Q; [do 2 right; left|do 3 right; left]; auto.
    - assert (z <> 0) by (apply (N z x y); auto; lra). destruct (D x z M1), (D y z M2). assert (Q : 0 < z \/ z < 0) by lra. destruct Q; [do 4 right; left|do 5 right]; auto. }
  destruct C as [(K & K1 & K2)|[(K & K1 & K2)|[(K & K1 & K2)|[(K & K1 & K2)|[(K & K1 & K2)|(K & K1 & K2)]]]]].
  - exists 0%nat, (y / x), (z / x), x. split; [lia|]. split; [apply B; lra|]. split; [apply B; lra|]. split; [lra|]. cbn [Z.of_nat cube_point]. unfold vscal, vx, vy, vz; cbn [fst snd]. peq; field; lra.
  - exists 2%nat, (- y / - x), (z / - x), (- x). split; [lia|]. split; [apply B; lra|]. split; [apply B; lra|]. split; [lra|]. cbn [Z.of_nat Pos.of_succ_nat Pos.succ cube_point]. unfold vscal, vx, vy, vz; cbn [fst snd]. peq; field; lra.
  - exists 1%nat, (- x / y), (z / y), y. split; [lia|]. split; [apply B; lra|]. split; [apply B; lra|]. split; [lra|]. cbn [Z.of_nat Pos.of_succ_nat Pos.succ cube_point]. unfold vscal, vx, vy, vz; cbn [fst snd]. peq; field; lra.
  - exists 3%nat, (x / - y), (z / - y), (- y). split; [lia|]. split; [apply B; lra|]. split; [apply B; lra|]. split; [lra|]. cbn [Z.of_nat Pos.of_succ_nat Pos.succ cube_point]. unfold vscal, vx, vy, vz; cbn [fst snd]. peq; field; lra.
  - exists 4%nat, (y / z), (- x / z), z. split; [lia|]. split; [apply B; lra|]. split; [apply B; lra|]. split; [lra|]. cbn [Z.of_nat Pos.of_succ_nat Pos.succ cube_point]. unfold vscal, vx, vy, vz; cbn [fst snd]. peq; field; lra.
  - exists 5%nat, (y / - z), (x / - z), (- z). split; [lia|]. split; [apply B; lra|]. split; [apply B; lra|]. split; [lra|]. cbn [Z.of_nat Pos.of_succ_nat Pos.succ cube_point]. unfold vscal, vx, vy, vz; cbn [fst snd]. peq; field; lra.
Qed.
Lemma sphere_covered : forall r v, 0 < r -> dot v v = r ^ 2 -> (forall p, (p < 6)%nat -> off_poles p phi0 alpha0) ->
  exists p o X Y, (p < 6)%nat /\ panel_rotation p lambda0 phi0 alpha0 = Some o /\ - 1 <= X <= 1 /\ - 1 <= Y <= 1 /\ to_cartesian o r X Y = v.
Proof.
  intros r v Hr Hv Hoff. destruct (turn_onto _ _ _ v (frame_right_handed base)) as [q Hq].
  assert (Nq : dot q q = r ^ 2) by (rewrite <- (turn_dot _ _ _ q q (frame_right_handed base)), Hq; exact Hv).
  destruct (scale_to_cube q) as (p & X & Y & k & Hp & BX & BY & Hk & E); [rewrite Nq; apply sq_pos; lra|].
  destruct (panel_some p lambda0 phi0 alpha0 Hp) as [o Ho]. exists p, o, X, Y. repeat split; auto; try lra.
  rewrite (panel_projection p lambda0 phi0 alpha0 o r X Y Hp (Hoff p Hp) Ho). fold base. rewrite turn_scal.
  rewrite <- Hq. f_equal. rewrite E. f_equal.
  rewrite E, dot_scal_l, dot_scal_r, cube_norm in Nq. fold (delta2 X Y) in *. fold (delta X Y). rewrite <- delta_sq in Nq. pose proof (delta_pos X Y) as DP.
  assert (F : (k * delta X Y - r) * (k * delta X Y + r) = 0) by nra. apply Rmult_integral in F. assert (k * delta X Y = r) by (destruct F; nra). rewrite <- H. field. lra.
Qed.
End Sphere.
(** ** Panels 4 and 5 of a grid turned by less than 1e-13 are placed as if it were not turned: they are off by at most 2e-12 times the radius *)
Lemma sin_abs : forall x, Rabs (sin x) <= Rabs x.
Proof.
  intros x. destruct (Rle_dec 0 x) as [H|H].
  - rewrite (Rabs_pos_eq x H). destruct (Req_dec x 0) as [->|N]; [rewrite sin_0, Rabs_R0; lra|]. pose proof (sin_lt_x x ltac:(lra)).
    destruct (Rle_dec 0 (sin x)); [rewrite Rabs_pos_eq; lra|]. rewrite Rabs_left by lra. pose proof (SIN_bound x).
    destruct (Rle_dec x PI); [exfalso; pose proof (sin_ge_0 x H); lra|]. pose proof PI_RGT_0. pose proof (PI2_3_2). assert (3 < PI) by lra. lra.
  - rewrite (Rabs_left x) by lra. rewrite <- Rabs_Ropp, <- sin_neg. set (y := - x). assert (Hy : 0 < y) by (unfold y; lra). pose proof (sin_lt_x y Hy).
    destruct (Rle_dec 0 (sin y)); [rewrite Rabs_pos_eq; lra|]. rewrite Rabs_left by lra. pose proof (SIN_bound y).
    destruct (Rle_dec y PI); [exfalso; pose proof (sin_ge_0 y ltac:(lra)); lra|]. pose proof (PI2_3_2). assert (3 < PI) by lra. lra.
Qed.
Lemma cos_abs : forall x, 0 <= 1 - cos x <= Rabs x.
Proof.
  intros x. pose proof (COS_bound x). split; [lra|]. replace x with (2 * (x / 2)) at 1 by field. rewrite cos_2a_sin.
  pose proof (sin_abs (x / 2)) as S. pose proof (SIN_bound (x / 2)) as B. assert (Rabs (x / 2) = Rabs x / 2) by (unfold Rdiv; rewrite Rabs_mult, (Rabs_pos_eq (/ 2)) by lra; reflexivity).
  assert (Rabs (sin (x / 2)) <= 1) by (apply Rabs_le; lra). replace (1 - (1 - 2 * sin (x / 2) * sin (x / 2))) with (2 * (sin (x / 2) * sin (x / 2))) by ring.
  replace (sin (x / 2) * sin (x / 2)) with (Rabs (sin (x / 2)) * Rabs (sin (x / 2))) by (rewrite <- Rabs_mult; apply Rabs_pos_eq; nra). pose proof (Rabs_pos (sin (x / 2))). nra.
Qed.
Lemma tiny_panels : forall p lambda0 phi0 alpha0 o r X Y, p = 4%nat \/ p = 5%nat -> Rabs phi0 < / 10 ^ 13 -> Rabs alpha0 < / 10 ^ 13 -> panel_rotation p lambda0 phi0 alpha0 = Some o ->
  0 < r -> - 1 <= X <= 1 -> - 1 <= Y <= 1 ->
  let b := {| lon_p := lambda0; lat_p := phi0; angle_p := alpha0 |} in
  let v := vscal (r / sqrt (1 + X ^ 2 + Y ^ 2)) (turn (fC b) (fE1 b) (fE2 b) (cube_point 1 (Z.of_nat p) X Y)) in let w := to_cartesian o r X Y in
  Rabs (vx w - vx v) <= 2 / 10 ^ 12 * r /\ Rabs (vy w - vy v) <= 2 / 10 ^ 12 * r /\ Rabs (vz w - vz v) <= 2 / 10 ^ 12 * r.
Proof.
  intros p lambda0 phi0 alpha0 o r X Y Hp Hf Ha E Hr HX HY b v w. set (t := / 10 ^ 13) in *. assert (Ht : 0 < t) by (apply Rinv_0_lt_compat, pow_lt; lra).
  assert (TT : 2 / 10 ^ 12 = 20 * t) by (unfold t; field).
  pose proof (sin_abs phi0) as S2. pose proof (sin_abs alpha0) as S3. pose proof (cos_abs phi0) as C2. pose proof (cos_abs alpha0) as C3.
  pose proof (COS_bound lambda0) as B1. pose proof (SIN_bound lambda0) as B2. 
  assert (S2' : - t <= sin phi0 <= t) by (apply Rabs_le_between; lra). assert (S3' : - t <= sin alpha0 <= t) by (apply Rabs_le_between; lra).
  assert (M : forall u e k, - 1 <= u <= 1 -> - k <= e <= k -> - k <= u * e <= k) by (intros; nra).
  assert (K : forall k, - (12 * t) <= k <= 12 * t -> Rabs (r / sqrt (1 + X ^ 2 + Y ^ 2) * k) <= 2 / 10 ^ 12 * r).
  { intros k Hk. rewrite TT, Rabs_mult. assert (D1 : 1 <= sqrt (1 + X ^ 2 + Y ^ 2)) by (rewrite <- sqrt_1 at 1; apply sqrt_le_1_alt; nra).
    assert (Q : 0 < r / sqrt (1 + X ^ 2 + Y ^ 2) <= r). { split; [apply Rdiv_lt_0_compat; lra|]. apply Rmult_le_reg_r with (sqrt (1 + X ^ 2 + Y ^ 2)); [lra|]. unfold Rdiv. rewrite Rmult_assoc, Rinv_l by lra. nra. }
    rewrite Rabs_pos_eq by lra. assert (Rabs k <= 12 * t) by (apply Rabs_le; lra). pose proof (Rabs_pos k). nra. }
  assert (W : forall i j : vec, (- (12 * t) <= vx i - vx j <= 12 * t /\ - (12 * t) <= vy i - vy j <= 12 * t /\ - (12 * t) <= vz i - vz j <= 12 * t) ->
     Rabs (vx (vscal (r / delta X Y) i) - vx (vscal (r / delta X Y) j)) <= 2 / 10 ^ 12 * r /\ Rabs (vy (vscal (r / delta X Y) i) - vy (vscal (r / delta X Y) j)) <= 2 / 10 ^ 12 * r /\ Rabs (vz (vscal (r / delta X Y) i) - vz (vscal (r / delta X Y) j)) <= 2 / 10 ^ 12 * r).
  { intros i j (I1 & I2 & I3). unfold vscal, vx, vy, vz; cbn [fst snd]. unfold vx, vy, vz in I1, I2, I3. rewrite <- !Rmult_minus_distr_l. repeat split; apply K; auto. }
  pose proof (COS_bound phi0) as B3. pose proof (COS_bound alpha0) as B4.
  assert (M1 : forall u, - 1 <= u <= 1 -> - t <= u * sin phi0 <= t) by (intros; apply M; lra).
  assert (M2 : forall u, - 1 <= u <= 1 -> - t <= u * sin alpha0 <= t) by (intros; apply M; lra).
  assert (M3 : forall u, - 1 <= u <= 1 -> - t <= u * (1 - cos phi0) <= t) by (intros; apply M; lra).
  assert (M4 : forall u, - 1 <= u <= 1 -> - t <= u * (1 - cos alpha0) <= t) by (intros; apply M; lra).
  assert (U : forall u v, - 1 <= u <= 1 -> - 1 <= v <= 1 -> - 1 <= u * v <= 1) by (intros; nra).
  assert (SB2 : - 1 <= sin phi0 <= 1) by (apply SIN_bound). assert (SB3 : - 1 <= sin alpha0 <= 1) by (apply SIN_bound).
  unfold v, w. rewrite cartesian_gn. fold (delta2 X Y). fold (delta X Y).
  destruct Hp as [-> | ->]; cbn [panel_rotation] in E;
    (destruct (Rlt_dec (Rabs phi0) (/ 10 ^ 13)) as [_|N]; [|contradiction]); (destruct (Rlt_dec (Rabs alpha0) (/ 10 ^ 13)) as [_|N]; [|contradiction]); cbn [andb] in E; inversion E; subst o; clear E; apply W;
    unfold turn, gn, fC, fE1, fE2, b, cube_point; cbn [Z.of_nat Pos.of_succ_nat Pos.succ]; unfold vadd, vscal, vx, vy, vz; cbn [fst snd lon_p lat_p angle_p]; rewrite ?cos_neg, ?sin_neg, ?cos_PI2, ?sin_PI2, ?cos_0, ?sin_0.
  - pose proof (M1 (cos lambda0 * cos alpha0) ltac:(apply U; lra)). pose proof (M2 (sin lambda0) B2). pose proof (M1 (X * (cos lambda0 * sin alpha0)) ltac:(apply U; [lra|apply U; lra])). pose proof (M4 (X * sin lambda0) ltac:(apply U; lra)). pose proof (M3 (Y * cos lambda0) ltac:(apply U; lra)).
    pose proof (M1 (sin lambda0 * cos alpha0) ltac:(apply U; lra)). pose proof (M2 (cos lambda0) B1). pose proof (M1 (X * (sin lambda0 * sin alpha0)) ltac:(apply U; [lra|apply U; lra])). pose proof (M4 (X * cos lambda0) ltac:(apply U; lra)). pose proof (M3 (Y * sin lambda0) ltac:(apply U; lra)).
    pose proof (M3 1 ltac:(lra)). pose proof (M4 (cos phi0) ltac:(lra)). pose proof (M2 (X * cos phi0) ltac:(apply U; lra)). pose proof (M1 Y HY).
    repeat split; lra.
  - pose proof (M1 (cos lambda0 * cos alpha0) ltac:(apply U; lra)). pose proof (M2 (sin lambda0) B2). pose proof (M1 (X * (cos lambda0 * sin alpha0)) ltac:(apply U; [lra|apply U; lra])). pose proof (M4 (X * sin lambda0) ltac:(apply U; lra)). pose proof (M3 (Y * cos lambda0) ltac:(apply U; lra)).
    pose proof (M1 (sin lambda0 * cos alpha0) ltac:(apply U; lra)). pose proof (M2 (cos lambda0) B1). pose proof (M1 (X * (sin lambda0 * sin alpha0)) ltac:(apply U; [lra|apply U; lra])). pose proof (M4 (X * cos lambda0) ltac:(apply U; lra)). pose proof (M3 (Y * sin lambda0) ltac:(apply U; lra)).
    pose proof (M3 1 ltac:(lra)). pose proof (M4 (cos phi0) ltac:(lra)). pose proof (M2 (X * cos phi0) ltac:(apply U; lra)). pose proof (M1 Y HY).
    repeat split; lra.
Qed.
