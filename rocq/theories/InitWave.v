(** The Rossby-Haurwitz wave: nondivergent, and its height balances its wind *)
From Coq Require Import Reals Lra Lia Arith.
From Coquelicot Require Import Coquelicot.
From Verif Require Import GeoModel FluxModel InitModel InitSpec.
Local Open Scope R_scope.
Section Wave.
Variables (R0 Omega : R).
Hypothesis HR : R0 <> 0.
Let w := omega6.
Definition wu l p := fst (wind_case6 R0 l p).
Definition wv l p := snd (wind_case6 R0 l p).
Definition wuL l p := - 4 * (R0 * w * cos p ^ 3 * (4 * sin p ^ 2 - cos p ^ 2)) * sin (4 * l).
Definition wuP l p := - R0 * w * sin p + R0 * w * cos (4 * l) * (- 3 * cos p ^ 2 * sin p * (4 * sin p ^ 2 - cos p ^ 2) + cos p ^ 3 * (10 * sin p * cos p)).
Definition wvL l p := - R0 * w * 16 * cos p ^ 3 * sin p * cos (4 * l).
Definition wvP l p := - R0 * w * 4 * sin (4 * l) * (- 3 * cos p ^ 2 * sin p ^ 2 + cos p ^ 4).
Let sc p := sin2_cos2 p.
Lemma wu_L l p : is_derive (fun l : R => wu l p) l (wuL l p).
Proof. unfold wu, wind_case6, wuL; cbn [fst snd]. auto_derive; [exact I|]. unfold w. change (4-1)%nat with 3%nat. ring. Qed.
Lemma wu_P l p : is_derive (fun p : R => wu l p) p (wuP l p).
Proof. unfold wu, wind_case6, wuP; cbn [fst snd]. change (4-1)%nat with 3%nat. auto_derive; [exact I|]. unfold w. ring. Qed.
Lemma wv_L l p : is_derive (fun l : R => wv l p) l (wvL l p).
Proof. unfold wv, wind_case6, wvL; cbn [fst snd]. change (4-1)%nat with 3%nat. auto_derive; [exact I|]. unfold w. ring. Qed.
Lemma wv_P l p : is_derive (fun p : R => wv l p) p (wvP l p).
Proof. unfold wv, wind_case6, wvP; cbn [fst snd]. change (4-1)%nat with 3%nat. auto_derive; [exact I|]. unfold w. ring. Qed.
Lemma wave_nondiv l p : wuL l p + (wvP l p * cos p - wv l p * sin p) = 0.
Proof. unfold wuL, wvP, wv, wind_case6; cbn [fst snd]. change (4-1)%nat with 3%nat. fold w. ring. Qed.

(** the vorticity, and the energy: height and kinetic energy *)
Definition wz p l := 2 * w * sin p - 30 * w * sin p * cos p ^ 4 * cos (4 * l).
Lemma wz_ok l p : cos p <> 0 -> (wvL l p - (wuP l p * cos p - wu l p * sin p)) / (R0 * cos p) = wz p l.
Proof.
  intros N. unfold wvL, wuP, wu, wz, wind_case6; cbn [fst]. change (4 - 1)%nat with 3%nat. fold w. pose proof (sin2_cos2 p) as E. unfold Rsqr in E.
  assert (E2 : sin p ^ 2 = 1 - cos p ^ 2) by lra. field_simplify_eq [E2]; [|auto]. ring [E2].
Qed.
Definition wE l p := gravity * 8000 + R0 ^ 2 * (w / 2 * (2 * Omega + w) * cos p ^ 2 + w ^ 2 / 4 * (5 * cos p ^ 10 + 26 * cos p ^ 8 - 32 * cos p ^ 6)
   + 2 * (Omega + w) * w / 30 * cos p ^ 4 * (26 - 25 * cos p ^ 2) * cos (4 * l) + w ^ 2 / 4 * cos p ^ 8 * (5 * cos p ^ 2 - 6) * cos (8 * l)) + (wu l p ^ 2 + wv l p ^ 2) / 2.
Lemma wE_ok l p : cos p <> 0 -> gravity * height_case6 R0 Omega l p + (wu l p ^ 2 + wv l p ^ 2) / 2 = wE l p.
Proof.
  intros N. unfold wE, height_case6. cbv zeta. fold w. assert (gravity <> 0) by (unfold gravity; lra). replace (2 * 4 * l) with (8 * l) by ring. change (2 * 4)%nat with 8%nat. field. auto.
Qed.
Definition wEL l p := R0 ^ 2 * (- 4 * (2 * (Omega + w) * w / 30 * cos p ^ 4 * (26 - 25 * cos p ^ 2)) * sin (4 * l) - 8 * (w ^ 2 / 4 * cos p ^ 8 * (5 * cos p ^ 2 - 6)) * (2 * sin (4 * l) * cos (4 * l))) + (wu l p * wuL l p + wv l p * wvL l p).
Definition wEP l p := R0 ^ 2 * (- sin p) * (w * (2 * Omega + w) * cos p + w ^ 2 / 4 * (50 * cos p ^ 9 + 26 * 8 * cos p ^ 7 - 32 * 6 * cos p ^ 5)
   + 2 * (Omega + w) * w / 30 * (26 * 4 * cos p ^ 3 - 25 * 6 * cos p ^ 5) * cos (4 * l) + w ^ 2 / 4 * (50 * cos p ^ 9 - 48 * cos p ^ 7) * (2 * cos (4 * l) ^ 2 - 1)) + (wu l p * wuP l p + wv l p * wvP l p).
Lemma derive_squares (f g : R -> R) (x f' g' : R) : is_derive f x f' -> is_derive g x g' -> is_derive (fun t : R => (f t ^ 2 + g t ^ 2) / 2) x (f x * f' + g x * g').
Proof.
  intros E1 E2. pose proof (is_derive_unique _ _ _ E1) as U1. pose proof (is_derive_unique _ _ _ E2) as U2. auto_derive; [repeat split; [exists f'|exists g']; assumption|].
  change (fun x0 : R => f x0) with f in *. change (fun x0 : R => g x0) with g in *. rewrite U1, U2. field.
Qed.
Lemma sin8 l : sin (8 * l) = 2 * sin (4 * l) * cos (4 * l).
Proof. rewrite <- sin_2a. f_equal. ring. Qed.
Lemma cos8 l : cos (8 * l) = 2 * cos (4 * l) ^ 2 - 1.
Proof. replace (8 * l) with (2 * (4 * l)) by ring. rewrite cos_2a_cos. ring. Qed.
Lemma wE_L l p : is_derive (fun l : R => wE l p) l (wEL l p).
Proof.
  unfold wE, wEL. refine (is_derive_plus (V := R_NormedModule) _ _ _ _ _ _ (derive_squares _ _ _ _ _ (wu_L l p) (wv_L l p))). rewrite <- sin8. auto_derive; [exact I|]. field.
Qed.
Lemma wE_P l p : is_derive (fun p : R => wE l p) p (wEP l p).
Proof.
  unfold wE, wEP. refine (is_derive_plus (V := R_NormedModule) _ _ _ _ _ _ (derive_squares _ _ _ _ _ (wu_P l p) (wv_P l p))). rewrite <- cos8. auto_derive; [exact I|]. field.
Qed.
Definition wTu l p := ((wvL l p - (wuP l p * cos p - wu l p * sin p)) / (R0 * cos p) + 2 * Omega * sin p) * wv l p - wEL l p / (R0 * cos p).
Definition wTv l p := - ((wvL l p - (wuP l p * cos p - wu l p * sin p)) / (R0 * cos p) + 2 * Omega * sin p) * wu l p - wEP l p / R0.
Lemma wave_balance l p : cos p <> 0 -> exists d1 d2, is_derive (fun l : R => wTu l p) l d1 /\ is_derive (fun p : R => wTv l p * cos p) p d2 /\ d1 + d2 = 0.
Proof.
  intros N. do 2 eexists. split; [|split].
  - apply is_derive_ext with (fun l : R => (wz p l + 2 * Omega * sin p) * wv l p - wEL l p / (R0 * cos p)). { intros t. unfold wTu. now rewrite wz_ok. }
    unfold wz, wv, wEL, wu, wuL, wv, wvL, wind_case6. cbn [fst snd]. change (4 - 1)%nat with 3%nat. auto_derive; [exact I|]. reflexivity.
  - eapply is_derive_ext_loc with (fun p : R => (- (wz p l + 2 * Omega * sin p) * wu l p - wEP l p / R0) * cos p).
    { apply (filter_imp (fun p => cos p <> 0)); [intros t Ht; unfold wTv; now rewrite wz_ok|]. assert (E : ex_derive cos p) by (auto_derive; exact I). exact (ex_derive_continuous cos p E (fun y => y <> 0) (open_neq 0 (cos p) N)). }
    unfold wz, wv, wEP, wu, wuP, wv, wvP, wind_case6. cbn [fst snd]. change (4 - 1)%nat with 3%nat. auto_derive; [exact I|]. reflexivity.
  - fold w. cbn [pow Nat.pred INR]. pose proof (sin2_cos2 p) as E. unfold Rsqr in E. pose proof (sin2_cos2 (4 * l)) as E'. unfold Rsqr in E'.
    assert (E2 : sin p ^ 2 = 1 - cos p ^ 2) by lra. assert (E3 : sin (4 * l) ^ 2 = 1 - cos (4 * l) ^ 2) by lra.
    generalize dependent (sin (4 * l)). generalize dependent (cos (4 * l)). generalize dependent (sin p). generalize dependent (cos p). intros. field_simplify_eq [E2 E3]; [|auto]. ring [E2 E3].
Qed.
Lemma wave_balanced : balanced_wind R0 Omega gravity (fun l p => fst (wind_case6 R0 l p)) (fun l p => snd (wind_case6 R0 l p)) (height_case6 R0 Omega).
Proof.
  exists wuL, wuP, wvL, wvP, wEL, wEP. split; [intros l p _; split; [apply wu_L|apply wu_P]|]. split; [intros l p _; split; [apply wv_L|apply wv_P]|]. split.
  - intros l p N. split.
    + apply is_derive_ext with (fun l : R => wE l p); [|apply wE_L]. intros t. symmetry. exact (wE_ok t p N).
    + apply is_derive_ext_loc with (fun p : R => wE l p); [|apply wE_P]. apply (filter_imp (fun p => cos p <> 0)); [intros t Ht; symmetry; exact (wE_ok l t Ht)|].
      assert (E : ex_derive cos p) by (auto_derive; exact I). exact (ex_derive_continuous cos p E (fun y => y <> 0) (open_neq 0 (cos p) N)).
  - cbv zeta. intros l p N. split.
    + exists (wuL l p), (wvP l p * cos p - wv l p * sin p). split; [apply wu_L|]. split.
      * assert (C : is_derive cos p (- sin p)) by (auto_derive; [exact I|ring]). evar_last; [exact (is_derive_mult (fun p : R => wv l p) cos p _ _ (wv_P l p) C Rmult_comm)|]. unfold plus, mult; cbn. ring.
      * symmetry. apply wave_nondiv.
    + destruct (wave_balance l p N) as (d1 & d2 & A & B & E). exists d1, d2. split; [exact A|]. split; [exact B|]. now symmetry.
Qed.
End Wave.

Lemma wave_values : 6371220 <> 0 /\ exists R0 l p, snd (wind_case6 R0 l p) <> 0 /\ cos p <> 0.
Proof.
  split; [lra|]. exists 1, (PI / 8), (PI / 4). unfold wind_case6; cbn [snd]. replace (4 * (PI / 8)) with (PI / 2) by field. rewrite sin_PI2. pose proof PI_RGT_0. assert (0 < cos (PI / 4)) by (apply cos_gt_0; lra). assert (0 < sin (PI / 4)) by (apply sin_gt_0; lra).
  split; [|lra]. change (4 - 1)%nat with 3%nat. unfold omega6. set (c := cos (PI / 4)) in *. set (s := sin (PI / 4)) in *. assert (0 < c ^ 3 * s) by (apply Rmult_lt_0_compat; [apply pow_lt|]; assumption). lra.
Qed.
