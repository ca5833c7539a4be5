(** The initial atmospheres: equation of state, balances, winds without divergence *)
From Coq Require Import Reals Lra Lia.
From Coquelicot Require Import Coquelicot.
From Verif Require Import FluxModel AtmoModel AtmoSpec.
Local Open Scope R_scope.

Lemma const_pos : 0 < gravity /\ 0 < Rd /\ 0 < cpd /\ 0 < cvd /\ 0 < p0 /\ 0 < scale_height /\ 0 < bigG.
Proof. unfold cvd, scale_height, bigG, gravity, Rd, cpd, p0. repeat split; try lra; apply Rdiv_lt_0_compat; lra. Qed.
Ltac consts := pose proof const_pos as (Kg & KR & Kc & Kv & Kp & Ks & KG).

(** the equation of state gives the pressure back *)
Lemma state_pressure p T : 0 < p -> 0 < T -> pressure_points (snd (thermo p T)) = p.
Proof.
  intros Hp HT. consts. unfold thermo, pressure_points; cbn [snd].
  replace (Rd / p0 * (p / (Rd * T) * (T * Rpower (p0 / p) (Rd / cpd)))) with (p / p0 * Rpower (p0 / p) (Rd / cpd)) by (field; lra).
  assert (0 < p / p0) by (apply Rdiv_lt_0_compat; assumption). rewrite ln_mult by (try assumption; unfold Rpower; apply exp_pos). unfold Rpower. rewrite ln_exp.
  replace (p0 / p) with (/ (p / p0)) by (field; lra). rewrite ln_Rinv by assumption. replace (cpd / cvd * (ln (p / p0) + Rd / cpd * - ln (p / p0))) with (ln (p / p0)) by (unfold cvd; field; unfold cvd in Kv; lra).
  rewrite exp_ln by assumption. field. lra.
Qed.
Lemma thermo_rho p T : fst (thermo p T) = p / (Rd * T). Proof. reflexivity. Qed.

(** ** Hydrostatic balance *)
Lemma iso_pos z : 0 < p_isothermal z.
Proof. consts. unfold p_isothermal. apply Rmult_lt_0_compat; [assumption|apply exp_pos]. Qed.
Lemma iso_derive (z : R) : is_derive p_isothermal z (- (p_isothermal z / (Rd * 300)) * gravity).
Proof. consts. unfold p_isothermal. auto_derive; [lra|]. unfold scale_height, Rdiv. field. lra. Qed.
Lemma lapse_derive (z : R) : 0 < T_lapse z -> is_derive p_lapse z (- (p_lapse z / (Rd * T_lapse z)) * gravity).
Proof.
  intros H. consts. unfold T_lapse in *. assert (L : 0 < lapse) by (unfold lapse; lra). assert (B : 0 < 1 - lapse / 300 * z) by lra. unfold p_lapse, Rpower. auto_derive; [assumption|]. change (1 + - (lapse / 300 * z)) with (1 - lapse / 300 * z). set (e := exp _). field. repeat split; lra.
Qed.
Lemma lapse_pos z : 0 < p_lapse z.
Proof. consts. unfold p_lapse, Rpower. apply Rmult_lt_0_compat; [assumption|apply exp_pos]. Qed.
Lemma schar_T_pos shear lat : 0 < schar_T shear lat.
Proof. unfold schar_T, wind_shear, gravity. pose proof (SIN_bound lat). assert (0 <= sin lat ^ 2 <= 1) by nra. destruct shear; lra. Qed.
Lemma schar_p_pos shear lat z : 0 < schar_p shear lat z.
Proof. unfold schar_p. apply Rmult_lt_0_compat; [lra|apply exp_pos]. Qed.
Lemma schar_derive shear lat (z : R) : is_derive (fun z : R => schar_p shear lat z) z (- (schar_p shear lat z / (Rd * schar_T shear lat)) * gravity).
Proof. consts. pose proof (schar_T_pos shear lat) as T. unfold schar_p. auto_derive; [exact I|]. unfold Rminus, Rdiv. set (e := exp _). field. split; lra. Qed.

Section Wave.
Variables (radius Omega lat : R).
Let TS := gw_TS radius Omega lat.
Hypothesis HTS : 0 < TS.
Lemma gw_base z : 0 < gw_T radius Omega lat z -> 0 < bigG / TS * exp (- ((1 / 100) * (1 / 100)) * z / gravity) + 1 - bigG / TS.
Proof.
  intros H. unfold gw_T in H. fold TS in H. set (e := exp ((1 / 100) * (1 / 100) * z / gravity)) in *. assert (E : exp (- ((1 / 100) * (1 / 100)) * z / gravity) = / e).
  { unfold e. rewrite <- exp_Ropp. f_equal. unfold Rdiv. ring. } rewrite E. assert (P : 0 < e) by (apply exp_pos).
  replace (bigG / TS * / e + 1 - bigG / TS) with ((bigG * (1 - e) + TS * e) * / (TS * e)) by (field; lra). apply Rmult_lt_0_compat; [assumption|]. apply Rinv_0_lt_compat. now apply Rmult_lt_0_compat.
Qed.
Lemma gw_base_T z : (bigG / TS * exp (- ((1 / 100) * (1 / 100)) * z / gravity) + 1 - bigG / TS) * (TS * exp ((1 / 100) * (1 / 100) * z / gravity)) = gw_T radius Omega lat z.
Proof.
  unfold gw_T. fold TS. set (e := exp ((1 / 100) * (1 / 100) * z / gravity)). assert (E : exp (- ((1 / 100) * (1 / 100)) * z / gravity) = / e).
  { unfold e. rewrite <- exp_Ropp. f_equal. unfold Rdiv. ring. } rewrite E. assert (P : 0 < e) by (apply exp_pos). field. lra.
Qed.
Lemma gw_p_pos z : 0 < gw_p radius Omega lat z.
Proof. unfold gw_p, gw_ps, Rpower. repeat apply Rmult_lt_0_compat; first [apply exp_pos|lra]. Qed.
Lemma gw_hydro (z : R) : 0 < gw_T radius Omega lat z -> is_derive (fun z : R => gw_p radius Omega lat z) z (- (gw_p radius Omega lat z / (Rd * gw_T radius Omega lat z)) * gravity).
Proof.
  intros H. consts. pose proof (gw_base z H) as B. pose proof (gw_base_T z) as ET. unfold gw_p. fold TS. cbv zeta. set (ps := gw_ps radius Omega lat). unfold Rpower.
  auto_derive; [exact B|]. rewrite <- ET. unfold Rdiv in *. set (e := exp (1 * / 100 * (1 * / 100) * z * / gravity)) in *. assert (P : 0 < e) by (apply exp_pos).
  assert (E : exp (- (1 * / 100 * (1 * / 100)) * z * / gravity) = / e). { unfold e. rewrite <- exp_Ropp. f_equal. ring. } rewrite E in *.
  set (b := bigG * / TS * / e + 1 + - (bigG * / TS)) in *. change (bigG * / TS * / e + 1 - bigG * / TS) with b in *. set (x := exp (cpd * / Rd * ln b)).
  unfold bigG, Rdiv. field. repeat split; lra.
Qed.
End Wave.
(** ** Gradient wind *)
Lemma schar_wind shear R0 lat (z : R) : 0 < R0 -> 0 <= z -> cos lat <> 0 -> 
  exists d : R, is_derive (fun y : R => schar_p shear y z) lat d /\ - d / (R0 * (schar_p shear lat z / (Rd * schar_T shear lat))) - 2 * 0 * sin lat * schar_u shear lat z - schar_u shear lat z ^ 2 * tan lat / R0 = 0.
Proof.
  intros HR Hz N. consts. pose proof (schar_T_pos shear lat) as T. pose proof (schar_p_pos shear lat z) as P. eexists. split.
  - unfold schar_p at 1. unfold schar_T at 1. auto_derive; [|reflexivity]. change (sin lat * (sin lat * 1)) with (sin lat ^ 2). change (20 * (20 * 1)) with (20 ^ 2). unfold schar_T in T. apply Rgt_not_eq. unfold Rdiv in *. nra.
  - assert (U : schar_u shear lat z ^ 2 = 20 ^ 2 * cos lat ^ 2 * (2 * 300 / schar_T shear lat * wind_shear shear * z + schar_T shear lat / 300)).
    { unfold schar_u. rewrite !Rpow_mult_distr. rewrite pow2_sqrt; [reflexivity|]. assert (0 <= wind_shear shear) by (unfold wind_shear; destruct shear; lra).
      assert (0 <= schar_T shear lat / 300) by lra. assert (0 <= 2 * 300 / schar_T shear lat) by (apply Rdiv_le_0_compat; lra). assert (0 <= 2 * 300 / schar_T shear lat * wind_shear shear * z) by (apply Rmult_le_pos; [apply Rmult_le_pos|]; assumption). lra. }
    rewrite U. unfold tan. unfold schar_p in *. unfold schar_T in *. change (sin lat * (sin lat * 1)) with (sin lat ^ 2) in *. change (20 * (20 * 1)) with (20 ^ 2) in *.
    unfold Rminus, Rdiv in P |- *. set (c := wind_shear shear) in *. set (e := exp _) in *. assert (e <> 0) by (intro Q; rewrite Q in P; lra).
    assert (1 - c * 20 ^ 2 / gravity * sin lat ^ 2 <> 0) by lra. assert (gravity - c * 20 ^ 2 * sin lat ^ 2 <> 0). { intros Q. apply H0. replace (1 - c * 20 ^ 2 / gravity * sin lat ^ 2) with ((gravity - c * 20 ^ 2 * sin lat ^ 2) / gravity) by (field; lra). rewrite Q. unfold Rdiv. ring. }
    field. repeat split; try lra; assumption.
Qed.
Lemma gw_TS_derive radius Omega (lat : R) : is_derive (fun y : R => gw_TS radius Omega y) lat ((gw_TS radius Omega lat - bigG) * (20 * (1 / 100 * (1 / 100)) / gravity ^ 2 * (20 + 2 * Omega * radius) * (sin lat * cos lat))).
Proof.
  consts. unfold gw_TS. auto_derive; [exact I|]. change (gravity * (gravity * 1)) with (gravity ^ 2). rewrite sin_2a. unfold Rdiv, Rminus. set (e := exp _). field. lra.
Qed.
Lemma gw_wind radius Omega lat (z : R) : 0 < radius -> 0 < gw_TS radius Omega lat -> 0 < gw_T radius Omega lat z -> cos lat <> 0 ->
  exists d : R, is_derive (fun y : R => gw_p radius Omega y z) lat d /\ - d / (radius * (gw_p radius Omega lat z / (Rd * gw_T radius Omega lat z))) - 2 * Omega * sin lat * gw_u lat - gw_u lat ^ 2 * tan lat / radius = 0.
Proof.
  intros HR HTS HT N. consts. pose proof (gw_base radius Omega lat HTS z HT) as B. pose proof (gw_base_T radius Omega lat HTS z) as ET. pose proof (gw_p_pos radius Omega lat z) as PP.
  pose proof (gw_TS_derive radius Omega lat) as DT. pose proof (is_derive_unique _ _ _ DT) as UT. change (fun y : R => gw_TS radius Omega y) with (gw_TS radius Omega) in UT. eexists. split.
  - unfold gw_p, gw_ps, Rpower. auto_derive; [|reflexivity]. unfold Rdiv, Rminus in B. repeat split; try (eexists; exact DT); try exact B; try lra; try (apply Rgt_not_eq; exact HTS).
  - change (fun x : R => gw_TS radius Omega x) with (gw_TS radius Omega). rewrite UT. rewrite <- ET. unfold gw_p, gw_ps, Rpower in *. unfold gw_u, tan. rewrite sin_2a. unfold Rdiv, Rminus in *.
    assert (E : exp (- (1 * / 100 * (1 * / 100)) * z * / gravity) = / exp (1 * / 100 * (1 * / 100) * z * / gravity)). { rewrite <- exp_Ropp. f_equal. ring. } rewrite E in *.
    set (e := exp (1 * / 100 * (1 * / 100) * z * / gravity)) in *. assert (P : 0 < e) by (apply exp_pos). set (TS := gw_TS radius Omega lat) in *. set (b := bigG * / TS * / e + 1 + - (bigG * / TS)) in *.
    set (x1 := exp (20 * _ * _ * _)) in *. set (x2 := exp (cpd * / Rd * ln b)) in *. set (x3 := exp (_ * ln (TS * / 300))) in *.
    assert (x1 <> 0) by (apply Rgt_not_eq, exp_pos). assert (x2 <> 0) by (apply Rgt_not_eq, exp_pos). assert (x3 <> 0) by (apply Rgt_not_eq, exp_pos).
    assert (G2 : gravity ^ 2 = bigG * (1 * / 100 * (1 * / 100)) * cpd) by (unfold bigG, Rdiv; field; lra). rewrite G2. clear E UT DT ET.
    assert (b <> 0) by lra. assert (bigG + e * TS - bigG * e <> 0). { intros Q. apply H2. unfold b. replace (bigG * / TS * / e + 1 + - (bigG * / TS)) with ((bigG + e * TS - bigG * e) * / (TS * e)) by (field; lra). rewrite Q. ring. }
    clearbody x1 x2 x3. unfold b. clearbody e TS. generalize dependent bigG. intros G; intros. field. repeat split; first [assumption|lra].
Qed.

(** ** Winds without divergence *)
Lemma iso_rho (z : R) : p_isothermal z / (Rd * 300) = p0 / (Rd * 300) * exp (- z / scale_height).
Proof. unfold p_isothermal, Rdiv. ring. Qed.
Lemma winds_12_mass radius ztop time lon lat (z : R) : radius <> 0 -> ztop <> 0 -> cos lat <> 0 ->
  mass_conserving radius (fun z => p_isothermal z / (Rd * 300)) (fun l p z => fst (fst (winds_12 radius ztop time l p z))) (fun l p z => snd (fst (winds_12 radius ztop time l p z))) (fun l p z => snd (winds_12 radius ztop time l p z)) lon lat z.
Proof.
  intros HR HZ N. consts. unfold winds_12; cbn [fst snd]. do 3 eexists. split; [|split; [|split]].
  - auto_derive; [exact I|reflexivity].
  - auto_derive; [exact I|reflexivity].
  - apply is_derive_ext with (fun t : R => p0 / (Rd * 300) * (15 / 100 / 5) * (- 2 * sin (5 * lat) * sin lat + 5 * cos lat * cos (5 * lat)) * sin (PI * t / ztop) * cos (PI * time / 86400)).
    { intros t. pose proof (iso_pos t). match goal with |- ?a = ?b => change (@eq R a b) end. field. repeat split; lra. }
    auto_derive; [exact I|reflexivity].
  - pose proof (iso_pos z). unfold Rdiv. field. repeat split; lra.
Qed.
Lemma winds_11_mass radius time lon lat (z : R) : radius <> 0 -> cos lat <> 0 ->
  mass_conserving radius (fun z => p_isothermal z / (Rd * 300)) (fun l p z => fst (fst (winds_11 radius time l p z))) (fun l p z => snd (fst (winds_11 radius time l p z))) (fun l p z => snd (winds_11 radius time l p z)) lon lat z.
Proof.
  intros HR N. consts. unfold winds_11; cbn [fst snd]. set (tau := 12 * 86400). assert (Ht : tau <> 0) by (unfold tau; lra). set (ptop := p0 * exp (- 12000 / scale_height)). assert (HP : 0 < ptop) by (unfold ptop; apply Rmult_lt_0_compat; [assumption|apply exp_pos]).
  do 3 eexists. split; [|split; [|split]].
  - auto_derive; [exact I|reflexivity].
  - auto_derive; [exact I|reflexivity].
  - apply is_derive_ext with (fun t : R => - (/ gravity) * (23000 * PI / tau) * sin (lon - 2 * PI * time / tau) * cos lat * cos (2 * PI * time / tau)
        * (1 + exp ((ptop - p0) / (2 / 10 * ptop)) - exp ((p_isothermal t - p0) / (2 / 10 * ptop)) - exp ((ptop - p_isothermal t) / (2 / 10 * ptop)))).
    { intros t. pose proof (iso_pos t). match goal with |- ?a = ?b => change (@eq R a b) end. field. repeat split; lra. }
    pose proof (iso_derive z) as D. pose proof (is_derive_unique _ _ _ D) as U. auto_derive; [repeat split; eexists; exact D|]. change (fun x : R => p_isothermal x) with p_isothermal. rewrite U. reflexivity.
  - pose proof (iso_pos z). change (lon + - (2 * PI * time / tau)) with (lon - 2 * PI * time / tau). set (l := lon - 2 * PI * time / tau). rewrite !sin_2a. unfold Rdiv, Rminus. set (e1 := exp ((p_isothermal z + - p0) * _)). set (e2 := exp ((ptop + - p_isothermal z) * _)).
    field. repeat split; lra.
Qed.
Lemma winds_bottom radius ztop time lon lat : ztop <> 0 -> snd (winds_11 radius time lon lat 0) = 0 /\ snd (winds_11 radius time lon lat 12000) = 0 /\ snd (winds_12 radius ztop time lon lat 0) = 0 /\ snd (winds_12 radius ztop time lon lat ztop) = 0.
Proof.
  intros HZ. consts. assert (P0 : p_isothermal 0 = p0). { unfold p_isothermal. replace (- 0 / scale_height) with 0 by (unfold Rdiv; ring). rewrite exp_0. ring. }
  split; [|split; [|split]].
  - unfold winds_11; cbn [snd]. rewrite P0. replace ((p0 - p0) / (2 / 10 * (p0 * exp (-12000 / scale_height)))) with 0 by (unfold Rdiv; ring). rewrite exp_0. ring.
  - unfold winds_11; cbn [snd]. replace (p0 * exp (- 12000 / scale_height)) with (p_isothermal 12000) by reflexivity. replace ((p_isothermal 12000 - p_isothermal 12000) / (2 / 10 * p_isothermal 12000)) with 0 by (unfold Rdiv; ring). rewrite exp_0. ring.
  - unfold winds_12; cbn [snd]. replace (PI * 0 / ztop) with 0 by (unfold Rdiv; ring). rewrite sin_0. ring.
  - unfold winds_12; cbn [snd]. replace (PI * ztop / ztop) with PI by (field; assumption). rewrite sin_PI. ring.
Qed.

(** ** The vertical plane *)
Lemma plane_pressure exner th uu : 0 < exner -> 0 < th -> pressure_points (snd (fst (cartesian_state exner th uu))) = p0 * Rpower exner (cpd / Rd).
Proof.
  intros He Ht. consts. unfold cartesian_state, pressure_points; cbn [fst snd]. replace (Rd / p0 * (p0 / (Rd * th) * Rpower exner (cvd / Rd) * th)) with (Rpower exner (cvd / Rd)) by (field; lra).
  unfold Rpower. rewrite ln_exp. f_equal. f_equal. field. lra.
Qed.
Lemma plane_derive (f th : R -> R) uu (z f' : R) : is_derive f z f' -> locally z (fun t => 0 < f t /\ 0 < th t) ->
  is_derive (fun t : R => pressure_points (snd (fst (cartesian_state (f t) (th t) uu)))) z (fst (fst (cartesian_state (f z) (th z) uu)) * (cpd * th z * f')).
Proof.
  intros D L. consts. pose proof (locally_singleton _ _ L) as [F T]. apply is_derive_ext_loc with (fun t : R => p0 * Rpower (f t) (cpd / Rd)).
  { apply (filter_imp (fun t => 0 < f t /\ 0 < th t)); [|exact L]. intros t [A B]. symmetry. exact (plane_pressure _ _ _ A B). }
  pose proof (is_derive_unique _ _ _ D) as U. unfold Rpower. auto_derive; [split; [eexists; exact D|split; [exact F|exact I]]|]. change (fun x : R => f x) with f in *. rewrite U. unfold cartesian_state, Rpower; cbn [fst].
  replace (cpd / Rd * ln (f z)) with (cvd / Rd * ln (f z) + ln (f z)) by (unfold cvd; field; lra). rewrite exp_plus, exp_ln by assumption. field. lra.
Qed.

(** ** The states *)
Lemma locally_pos (f : R -> R) (x : R) : ex_derive f x -> 0 < f x -> locally x (fun t => 0 < f t).
Proof. intros E N. exact (ex_derive_continuous f x E (fun y => 0 < y) (open_gt 0 (f x) N)). Qed.
Lemma start_hydrostatic : forall radius Omega ztop case lon lat (z : R), List.In case (List.cons 11 (List.cons 12 (List.cons 20 (List.cons 21 (List.cons 22 List.nil)))))%nat -> (case = 20%nat -> z < 300 / (65 / 10000)) ->
  let q t := initial_euler radius Omega ztop case lon lat t in 0 < rho_of (q z) /\ hydrostatic gravity (fun t => rho_of (q t)) (fun t => pressure_points (rho_theta_of (q t))) z.
Proof.
  intros radius Omega ztop case lon lat z I L q. consts.
  assert (G : forall p T : R -> R, (forall t, 0 < p t) -> locally z (fun t => 0 < T t) -> is_derive p z (- (p z / (Rd * T z)) * gravity) -> (forall t, exists w, q t = Some (thermo (p t) (T t), w)) ->
     0 < rho_of (q z) /\ hydrostatic gravity (fun t => rho_of (q t)) (fun t => pressure_points (rho_theta_of (q t))) z).
  { intros p T Pp LT D E. pose proof (locally_singleton _ _ LT) as HT. assert (Er : forall t, rho_of (q t) = p t / (Rd * T t)) by (intros t; destruct (E t) as [w ->]; reflexivity).
    split; [rewrite Er; apply Rdiv_lt_0_compat; [apply Pp|now apply Rmult_lt_0_compat]|]. unfold hydrostatic. rewrite Er. apply is_derive_ext_loc with p; [|exact D].
    apply (filter_imp (fun t => 0 < T t)); [|exact LT]. intros t Ht. destruct (E t) as [w ->]. change (rho_theta_of (Some (thermo (p t) (T t), w))) with (snd (thermo (p t) (T t))). symmetry. apply state_pressure; [apply Pp|exact Ht]. }
  destruct I as [<- |[<- |[<- |[<- |[<- |[]]]]]].
  - apply (G p_isothermal (fun _ => 300)); [exact iso_pos|apply filter_forall; intros; lra|exact (iso_derive z)|intros t; eexists; reflexivity].
  - apply (G p_isothermal (fun _ => 300)); [exact iso_pos|apply filter_forall; intros; lra|exact (iso_derive z)|intros t; eexists; reflexivity].
  - assert (HT : 0 < T_lapse z) by (specialize (L eq_refl); unfold T_lapse, lapse; lra).
    apply (G p_lapse T_lapse); [exact lapse_pos|apply locally_pos; [unfold T_lapse; auto_derive; exact Logic.I|exact HT]|exact (lapse_derive z HT)|intros t; eexists; reflexivity].
  - apply (G (fun t => schar_p false lat t) (fun _ => schar_T false lat)); [intros; apply schar_p_pos|apply filter_forall; intros; apply schar_T_pos|apply schar_derive|intros t; eexists; reflexivity].
  - apply (G (fun t => schar_p true lat t) (fun _ => schar_T true lat)); [intros; apply schar_p_pos|apply filter_forall; intros; apply schar_T_pos|apply schar_derive|intros t; eexists; reflexivity].
Qed.
Lemma start_wind : forall radius ztop case lon lat z, case = 21%nat \/ case = 22%nat -> 0 < radius -> 0 <= z -> cos lat <> 0 ->
  let q y := initial_euler radius 0 ztop case lon y z in others_zero (q lat) /\ gradient_wind radius 0 (rho_of (q lat)) (zonal_of (q lat)) (fun y => pressure_points (rho_theta_of (q y))) lat.
Proof.
  intros radius ztop case lon lat z Hc HR Hz N q.
  assert (G : forall shear, (forall y, q y = Some (thermo (schar_p shear y z) (schar_T shear y), (schar_u shear y z, 0, 0))) -> others_zero (q lat) /\ gradient_wind radius 0 (rho_of (q lat)) (zonal_of (q lat)) (fun y => pressure_points (rho_theta_of (q y))) lat).
  { intros shear E. split; [rewrite E; split; reflexivity|]. destruct (schar_wind shear radius lat z HR Hz N) as (d & D & B). exists d. split.
    - apply is_derive_ext with (fun y : R => schar_p shear y z); [|exact D]. intros y. rewrite E. symmetry. apply state_pressure; [apply schar_p_pos|apply schar_T_pos].
    - rewrite E. exact B. }
  destruct Hc as [-> | ->]; [apply (G false)|apply (G true)]; reflexivity.
Qed.
Lemma start_wave : forall radius Omega ztop lon lat (z : R), 0 < radius -> cos lat <> 0 -> 0 < gw_TS radius Omega lat -> 0 < gw_T radius Omega lat z ->
  let q y t := initial_euler radius Omega ztop 31 lon y t in
  let P y t := pressure_points (rho_theta_of (q y t) - rho_of (q y t) * gw_pert radius lon y t) in
  0 < rho_of (q lat z) /\ hydrostatic gravity (fun t => rho_of (q lat t)) (fun t => P lat t) z /\ others_zero (q lat z) /\ gradient_wind radius Omega (rho_of (q lat z)) (zonal_of (q lat z)) (fun y => P y z) lat /\
  Rabs (gw_pert radius lon lat z) <= 1 /\ gw_pert radius lon lat 0 = 0.
Proof.
  intros radius Omega ztop lon lat z HR N HTS HT q P. consts.
  assert (EP : forall y t, 0 < gw_T radius Omega y t -> P y t = gw_p radius Omega y t).
  { intros y t H. unfold P, q, initial_euler. pose proof (state_pressure (gw_p radius Omega y t) (gw_T radius Omega y t) (gw_p_pos radius Omega y t) H) as S. destruct (thermo _ _) as [r rt]. cbn [rho_of rho_theta_of]. rewrite <- S. cbn [snd]. f_equal. ring. }
  assert (ER : forall y t, rho_of (q y t) = gw_p radius Omega y t / (Rd * gw_T radius Omega y t)) by reflexivity.
  pose proof (gw_p_pos radius Omega lat z) as PP. split; [|split; [|split; [|split; [|split]]]].
  - rewrite ER. apply Rdiv_lt_0_compat; [assumption|now apply Rmult_lt_0_compat].
  - unfold hydrostatic. rewrite ER. apply is_derive_ext_loc with (fun t : R => gw_p radius Omega lat t); [|exact (gw_hydro radius Omega lat HTS z HT)].
    apply (filter_imp (fun t => 0 < gw_T radius Omega lat t)); [intros t Ht; symmetry; now apply EP|]. apply (locally_pos (fun t => gw_T radius Omega lat t)); [|exact HT]. unfold gw_T. auto_derive. exact I.
  - split; reflexivity.
  - destruct (gw_wind radius Omega lat z HR HTS HT N) as (d & D & B). exists d. split.
    + apply is_derive_ext_loc with (fun y : R => gw_p radius Omega y z); [|exact D]. apply (filter_imp (fun y => 0 < gw_T radius Omega y z)); [intros t Ht; symmetry; now apply EP|].
      apply (locally_pos (fun y => gw_T radius Omega y z)); [|exact HT]. eexists. unfold gw_T. apply (is_derive_plus (fun _ : R => bigG * _) (fun y : R => gw_TS radius Omega y * _)); [apply is_derive_const|apply is_derive_mult with (f := fun y : R => gw_TS radius Omega y); [apply gw_TS_derive|apply is_derive_const|intros; apply Rmult_comm]].
    + rewrite ER. exact B.
  - unfold gw_pert. cbv zeta. set (r := radius * _). pose proof (pow2_ge_0 r). assert (S : 0 <= 5000 ^ 2 / (5000 ^ 2 + r ^ 2) <= 1). { split; [apply Rdiv_le_0_compat; lra|]. apply Rmult_le_reg_r with (5000 ^ 2 + r ^ 2); [lra|]. unfold Rdiv. rewrite Rmult_assoc, Rinv_l; lra. }
    set (s := 5000 ^ 2 / (5000 ^ 2 + r ^ 2)) in *. pose proof (SIN_bound (2 * PI * z / 20000)). apply Rabs_le. nra.
  - unfold gw_pert. cbv zeta. replace (2 * PI * 0 / 20000) with 0 by field. rewrite sin_0. ring.
Qed.
Lemma start_advection : forall radius ztop time lon lat z, radius <> 0 -> ztop <> 0 -> cos lat <> 0 -> let rho t := rho_of (initial_euler radius 0 ztop 11 lon lat t) in
  (forall t, rho t = rho_of (initial_euler radius 0 ztop 12 lon lat t)) /\
  mass_conserving radius rho (fun l p z => fst (fst (winds_11 radius time l p z))) (fun l p z => snd (fst (winds_11 radius time l p z))) (fun l p z => snd (winds_11 radius time l p z)) lon lat z /\
  mass_conserving radius rho (fun l p z => fst (fst (winds_12 radius ztop time l p z))) (fun l p z => snd (fst (winds_12 radius ztop time l p z))) (fun l p z => snd (winds_12 radius ztop time l p z)) lon lat z /\
  snd (winds_11 radius time lon lat 0) = 0 /\ snd (winds_11 radius time lon lat 12000) = 0 /\ snd (winds_12 radius ztop time lon lat 0) = 0 /\ snd (winds_12 radius ztop time lon lat ztop) = 0.
Proof.
  intros radius ztop time lon lat z HR HZ N rho. split; [reflexivity|]. split; [exact (winds_11_mass radius time lon lat z HR N)|]. split; [exact (winds_12_mass radius ztop time lon lat z HR HZ N)|]. exact (winds_bottom radius ztop time lon lat HZ).
Qed.
Lemma sponge : forall rho ztop z u uref, 0 < rho -> 20000 < ztop ->
  (z <= 20000 -> schar_damping rho ztop z u uref = 0) /\ (u = uref -> schar_damping rho ztop z u uref = 0) /\ 0 <= schar_damping rho ztop z u uref * (u - uref) /\
  Rabs (schar_damping rho ztop z u uref) <= rho / 25 * Rabs (u - uref) /\ schar_damping rho ztop ztop u uref = rho / 25 * (u - uref).
Proof.
  intros rho ztop z u uref Hr Hz. unfold schar_damping. cbv zeta. set (s := sin (PI / 2 * (z - 20000) / (ztop - 20000))). pose proof (SIN_bound (PI / 2 * (z - 20000) / (ztop - 20000))) as B. fold s in B. assert (S : 0 <= s ^ 2 <= 1) by nra. set (s2 := s ^ 2) in *.
  split; [|split; [|split; [|split]]].
  - intros L. destruct (Rle_dec z 20000); [ring|contradiction].
  - intros ->. ring.
  - destruct (Rle_dec z 20000); [nra|]. assert (0 <= rho / 25 * s2) by (apply Rmult_le_pos; lra). pose proof (pow2_ge_0 (u - uref)). nra.
  - pose proof (Rabs_pos (u - uref)). destruct (Rle_dec z 20000); [rewrite Rmult_0_l, Rabs_R0; apply Rmult_le_pos; lra|]. assert (0 <= rho / 25 * s2 <= rho / 25) by (split; [apply Rmult_le_pos; lra|nra]). rewrite Rabs_mult, (Rabs_pos_eq (rho / 25 * s2)) by lra. nra.
  - destruct (Rle_dec ztop 20000); [lra|]. replace (PI / 2 * (ztop - 20000) / (ztop - 20000)) with (PI / 2) by (field; lra). rewrite sin_PI2. ring.
Qed.
(** the plane *)
Lemma exner_range z : 0 <= z < 29000 -> 0 < mountain_exner z.
Proof.
  intros Z. unfold mountain_exner. cbv zeta. pose proof (exp_ineq1_le (- ((1 / 100) ^ 2 / gravity) * z)) as E. set (x := exp _) in *. unfold gravity, cpd in *.
  set (c := (980616 / 100000) ^ 2 / ((1 / 100) ^ 2 * (100546 / 100) * 288)) in *. assert (0 < c) by (unfold c; lra). assert (c * (1 - x) <= c * ((1 / 100) ^ 2 / (980616 / 100000) * z)) by (apply Rmult_le_compat_l; lra). unfold c in *. lra.
Qed.
Lemma mountain_hydrostatic : forall th0 x (z : R), 0 <= z < 29000 ->
  let q t := initial_cartesian th0 0 x t in 0 < rho_of (q z) /\ hydrostatic gravity (fun t => rho_of (q t)) (fun t => pressure_points (rho_theta_of (q t))) z.
Proof.
  intros th0 x z Z q. consts. pose proof (exner_range z Z) as E. assert (T : forall t, 0 < mountain_theta t) by (intros; unfold mountain_theta; apply Rmult_lt_0_compat; [lra|apply exp_pos]). split.
  - unfold q, initial_cartesian, cartesian_state, rho_of. apply Rmult_lt_0_compat; [apply Rdiv_lt_0_compat; [assumption|apply Rmult_lt_0_compat; [assumption|apply T]]|unfold Rpower; apply exp_pos].
  - assert (D : is_derive mountain_exner z (- gravity / (cpd * mountain_theta z))).
    { unfold mountain_exner, mountain_theta. auto_derive; [exact I|]. replace (exp (- (1 / 100 * (1 / 100 * 1) / gravity) * z)) with (/ exp ((1 / 100) ^ 2 / gravity * z)) by (rewrite <- exp_Ropp; f_equal; simpl pow; unfold Rdiv; ring). set (e := exp _). assert (0 < e) by apply exp_pos. field. lra. }
    unfold hydrostatic. evar_last; [apply (plane_derive mountain_exner mountain_theta 10 z _ D)|].
    + apply (filter_imp (fun t => 0 < mountain_exner t)); [intros t Ht; split; [exact Ht|apply T]|]. apply locally_pos; [eexists; exact D|exact E].
    + pose proof (T z). change (rho_of (q z)) with (fst (fst (cartesian_state (mountain_exner z) (mountain_theta z) 10))). field. lra.
Qed.
(** the bubble *)
Lemma isentropic_derive (th : R -> R) (z th' : R) : is_derive th z th' -> th z <> 0 -> is_derive (fun t : R => isentropic_exner (th t) t) z (- gravity / (cpd * th z) + gravity * z * th' / (cpd * th z ^ 2)).
Proof.
  intros D N. consts. pose proof (is_derive_unique _ _ _ D) as U. unfold isentropic_exner. auto_derive; [repeat split; try (eexists; exact D); try (apply Rmult_integral_contrapositive_currified; [lra|exact N])|]. change (fun x : R => th x) with th in *. rewrite U. field. lra.
Qed.
Lemma bubble_pressure : forall th0 x (z th' : R), is_derive (fun t : R => bubble_theta th0 x t) z th' -> 0 < bubble_theta th0 x z -> gravity * z < cpd * bubble_theta th0 x z ->
  let q t := initial_cartesian th0 2 x t in 0 < rho_of (q z) /\
  is_derive (fun t : R => pressure_points (rho_theta_of (q t))) z (- rho_of (q z) * gravity * (1 - z * th' / bubble_theta th0 x z)).
Proof.
  intros th0 x z th' D T L q. consts. set (th := fun t : R => bubble_theta th0 x t) in *. assert (E : 0 < isentropic_exner (th z) z).
  { unfold isentropic_exner, th. assert (gravity / (cpd * bubble_theta th0 x z) * z < 1); [|lra]. apply Rmult_lt_reg_r with (cpd * bubble_theta th0 x z); [now apply Rmult_lt_0_compat|]. replace (gravity / (cpd * bubble_theta th0 x z) * z * (cpd * bubble_theta th0 x z)) with (gravity * z) by (field; split; apply Rgt_not_eq; assumption). rewrite Rmult_1_l; exact L. }
  assert (T' : 0 < th z) by exact T. split.
  - unfold q, initial_cartesian, cartesian_state, rho_of. fold (th z). apply Rmult_lt_0_compat; [apply Rdiv_lt_0_compat; [assumption|apply Rmult_lt_0_compat; assumption]|unfold Rpower; apply exp_pos].
  - assert (N : th z <> 0) by lra. pose proof (isentropic_derive th z th' D N) as D'. evar_last; [apply (plane_derive (fun t => isentropic_exner (th t) t) th 0 z _ D')|].
    + apply (filter_and (F := locally z)); [apply (locally_pos (fun t => isentropic_exner (th t) t)); [eexists; exact D'|exact E]|apply (locally_pos th); [eexists; exact D|exact T']].
    + change (bubble_theta th0 x z) with (th z). change (rho_of (q z)) with (fst (fst (cartesian_state (isentropic_exner (th z) z) (th z) 0))). field. lra.
Qed.
Lemma bubble_core : forall th0 x (z : R), (x - 500) ^ 2 + (z - 260) ^ 2 < 50 ^ 2 -> 0 < th0 + 1 / 2 -> gravity * z < cpd * (th0 + 1 / 2) ->
  let q t := initial_cartesian th0 2 x t in hydrostatic gravity (fun t => rho_of (q t)) (fun t => pressure_points (rho_theta_of (q t))) z.
Proof.
  intros th0 x z C T L q. assert (V : forall t, (x - 500) ^ 2 + (t - 260) ^ 2 < 50 ^ 2 -> bubble_theta th0 x t = th0 + 1 / 2).
  { intros t Ht. unfold bubble_theta. cbv zeta. destruct (Rle_dec _ _) as [_|N]; [reflexivity|]. exfalso. apply N. rewrite <- (sqrt_pow2 50) by lra. apply sqrt_le_1_alt. lra. }
  assert (D : is_derive (fun t : R => bubble_theta th0 x t) z 0).
  { apply is_derive_ext_loc with (fun _ : R => th0 + 1 / 2); [|apply (@is_derive_const R_AbsRing R_NormedModule)]. assert (P : 0 < 50 ^ 2 - ((x - 500) ^ 2 + (z - 260) ^ 2)) by lra.
    apply (filter_imp (fun t => 0 < 50 ^ 2 - ((x - 500) ^ 2 + (t - 260) ^ 2))); [intros t Ht; symmetry; apply V; lra|]. apply (locally_pos (fun t => 50 ^ 2 - ((x - 500) ^ 2 + (t - 260) ^ 2))); [auto_derive; exact I|exact P]. }
  rewrite <- (V z C) in T, L. destruct (bubble_pressure th0 x z 0 D T L) as [_ B]. unfold hydrostatic. evar_last; [exact B|]. unfold q. field. lra.
Qed.
Lemma bubble_slope th0 : is_derive (fun t : R => bubble_theta th0 500 t) 360 (- (1 / 200) * exp (- (1 / 4))).
Proof.
  apply is_derive_ext_loc with (fun t : R => th0 + 1 / 2 * exp (- ((t - 260 - 50) / 100) ^ 2)).
  - apply (filter_imp (fun t => 0 < t - 310)); [|apply (locally_pos (fun t => t - 310)); [auto_derive; exact I|lra]]. intros t Ht. unfold bubble_theta. cbv zeta. replace ((500 - 500) ^ 2 + (t - 260) ^ 2) with ((t - 260) ^ 2) by ring. rewrite sqrt_pow2 by lra. destruct (Rle_dec _ _) as [N|_]; [lra|reflexivity].
  - auto_derive; [exact I|]. match goal with |- context [exp ?a] => replace (exp a) with (exp (- (1 / 4))) by (f_equal; field) end. field.
Qed.
Lemma bubble_not : let q t := initial_cartesian 300 2 500 t in ~ hydrostatic gravity (fun t => rho_of (q t)) (fun t => pressure_points (rho_theta_of (q t))) 360.
Proof.
  intros q H. consts. pose proof (bubble_slope 300) as D. assert (V : bubble_theta 300 500 360 = 300 + 1 / 2 * exp (- ((100 - 50) / 100) ^ 2)).
  { unfold bubble_theta. cbv zeta. replace ((500 - 500) ^ 2 + (360 - 260) ^ 2) with (100 ^ 2) by ring. rewrite sqrt_pow2 by lra. destruct (Rle_dec _ _) as [N|_]; [lra|reflexivity]. }
  assert (T : 300 < bubble_theta 300 500 360) by (rewrite V; pose proof (exp_pos (- ((100 - 50) / 100) ^ 2)); lra). assert (L : gravity * 360 < cpd * bubble_theta 300 500 360) by (unfold gravity, cpd; lra).
  destruct (bubble_pressure 300 500 360 _ D ltac:(lra) L) as [P B]. unfold hydrostatic in H. pose proof (is_derive_unique _ _ _ H) as U1. pose proof (is_derive_unique _ _ _ B) as U2. fold q in P. cbv beta in U1. assert (U : - rho_of (q 360) * gravity = - rho_of (q 360) * gravity * (1 - 360 * (- (1 / 200) * exp (- (1 / 4))) / bubble_theta 300 500 360)) by (etransitivity; [symmetry; exact U1|exact U2]).
  assert (Z : 360 * (- (1 / 200) * exp (- (1 / 4))) / bubble_theta 300 500 360 = 0). { assert (K : rho_of (q 360) * gravity * (360 * (- (1 / 200) * exp (- (1 / 4))) / bubble_theta 300 500 360) = 0) by lra. apply Rmult_integral in K. destruct K as [K|K]; [|exact K]. exfalso. assert (0 < rho_of (q 360) * gravity) by (now apply Rmult_lt_0_compat). lra. }
  pose proof (exp_pos (- (1 / 4))) as EP. assert (360 * (- (1 / 200) * exp (- (1 / 4))) / bubble_theta 300 500 360 < 0); [|lra]. apply Rmult_lt_reg_r with (bubble_theta 300 500 360); [lra|]. unfold Rdiv. rewrite Rmult_assoc, Rinv_l by lra. lra.
Qed.

(** ** The tracers *)
Lemma cos_half : 875 / 1000 < cos (1 / 2).
Proof.
  replace (1 / 2) with (2 * (1 / 4)) by field. rewrite cos_2a_sin. pose proof (sin_lt_x (1 / 4) ltac:(lra)). pose proof PI_RGT_0 as Q. pose proof PI2_1. assert (0 < sin (1 / 4)) by (apply sin_gt_0; lra). nra.
Qed.
Lemma near_centre lon0 lon lat z : bell_distance lon0 lon lat z <> 1 -> 875 / 1000 < cos lat * cos (lon - lon0).
Proof.
  unfold bell_distance. cbv zeta. rewrite sin_0, cos_0. replace (sin lat * 0 + cos lat * 1 * cos (lon - lon0)) with (cos lat * cos (lon - lon0)) by ring. set (x := cos lat * cos (lon - lon0)).
  assert (B : -1 <= x <= 1). { pose proof (COS_bound lat) as B1. pose proof (COS_bound (lon - lon0)) as B2. unfold x. set (a := cos lat) in *. set (b := cos (lon - lon0)) in *. nra. }
  intros N. pose proof (acos_bound x) as [A0 A1]. assert (L : acos x < 1 / 2).
  { destruct (Rlt_le_dec (acos x) (1 / 2)) as [K|K]; [exact K|]. exfalso. apply N. apply Rmin_left. assert (1 <= acos x / (1 / 2)) by lra. pose proof (pow2_ge_0 ((z - 5000) / 1000)). nra. }
  apply Rlt_le_trans with (cos (1 / 2)); [exact cos_half|]. rewrite <- (cos_acos x B). left. pose proof PI2_1. apply cos_decreasing_1; lra.
Qed.
Lemma bell_apart lon lat z : bell_distance (5 * PI / 6) lon lat z = 1 \/ bell_distance (7 * PI / 6) lon lat z = 1.
Proof.
  destruct (Req_dec (bell_distance (5 * PI / 6) lon lat z) 1) as [E|N1]; [now left|]. destruct (Req_dec (bell_distance (7 * PI / 6) lon lat z) 1) as [E|N2]; [now right|]. exfalso.
  apply near_centre in N1. apply near_centre in N2. pose proof (form1 (lon - 5 * PI / 6) (lon - 7 * PI / 6)) as F. replace ((lon - 5 * PI / 6 - (lon - 7 * PI / 6)) / 2) with (PI / 6) in F by field. rewrite cos_PI6 in F.
  pose proof (COS_bound lat) as B1. pose proof (COS_bound ((lon - 5 * PI / 6 + (lon - 7 * PI / 6)) / 2)) as B2. set (c := cos lat) in *. set (m := cos ((lon - 5 * PI / 6 + (lon - 7 * PI / 6)) / 2)) in *. set (s := sqrt 3) in *.
  assert (S : 0 <= s /\ s < 1750 / 1000). { split; [apply sqrt_pos|]. unfold s. rewrite <- (sqrt_pow2 (1750 / 1000)) by lra. apply sqrt_lt_1_alt. lra. }
  assert (c * (cos (lon - 5 * PI / 6) + cos (lon - 7 * PI / 6)) = s * (c * m)) by (rewrite F; field). assert (c * m <= 1) by nra. nra.
Qed.
Lemma bell_range d : 0 <= 1 / 2 * (1 + cos (PI * d)) <= 1.
Proof. pose proof (COS_bound (PI * d)). lra. Qed.
Lemma tracers_ok : forall lon lat z, let '(q1, q2, q3, q4) := tracers_11 lon lat z in
  (0 <= q1 <= 1) /\ (1 / 10 <= q2 <= 9 / 10) /\ (q3 = 1 / 10 \/ q3 = 1) /\ (0 <= q4 <= 1) /\ q2 = 9 / 10 - 8 / 10 * q1 ^ 2 /\ 3 / 10 * (q1 + q2 + q3) + q4 = 1 /\ 0 <= tracer_12 z <= 1.
Proof.
  intros lon lat z. unfold tracers_11. cbv zeta. set (d1 := bell_distance (5 * PI / 6) lon lat z). set (d2 := bell_distance (7 * PI / 6) lon lat z).
  set (q1 := 1 / 2 * (1 + cos (PI * d1)) + 1 / 2 * (1 + cos (PI * d2))). match goal with |- context [3 / 10 * (_ + _ + ?q)] => set (q3 := q) end.
  assert (Q3 : q3 = 1 / 10 \/ q3 = 1) by (unfold q3; repeat match goal with |- context [if ?b then _ else _] => destruct b end; auto).
  assert (Z : forall d, d = 1 -> 1 / 2 * (1 + cos (PI * d)) = 0) by (intros d ->; rewrite Rmult_1_r, cos_PI; ring).
  assert (Q1 : 0 <= q1 <= 1). { unfold q1. pose proof (bell_range d1). pose proof (bell_range d2). destruct (bell_apart lon lat z) as [E|E]; fold d1 in E || fold d2 in E; rewrite (Z _ E); lra. }
  assert (0 <= q1 ^ 2 <= 1) by nra. assert (0 <= (q1 - 625 / 1000) ^ 2) by apply pow2_ge_0. split; [exact Q1|]. split; [lra|]. split; [exact Q3|]. split; [split; destruct Q3 as [-> | ->]; nra|]. split; [reflexivity|]. split; [ring|].
  unfold tracer_12. cbv zeta. set (c := 2 * PI * _ / _). pose proof (COS_bound c). destruct (Rlt_dec z 5000); [destruct (Rlt_dec 2000 z)|]; lra.
Qed.
Lemma layer_positive z : 0 < tracer_12 z <-> 2000 < z < 5000.
Proof.
  unfold tracer_12. cbv zeta. destruct (Rlt_dec z 5000); [destruct (Rlt_dec 2000 z)|]; [|lra|lra]. split; [lra|]. intros _.
  set (y := PI * (z - 3500) / 3000). replace (2 * PI * (z - 1 / 2 * (2000 + 5000)) / (5000 - 2000)) with (2 * y) by (unfold y; field).
  rewrite cos_2a_cos. assert (0 < cos y); [|nra]. pose proof PI_RGT_0. apply cos_gt_0; unfold y; apply Rmult_lt_reg_r with 3000; try lra; unfold Rdiv; rewrite Rmult_assoc, Rinv_l by lra; nra.
Qed.
Lemma tracers_shape lon lat z : let '(_, _, q3, _) := tracers_11 lon lat z in
  let near lon0 := (2 * acos (cos lat * cos (lon - lon0))) ^ 2 + ((z - 5000) / 1000) ^ 2 <= 1 / 2 in
  q3 = 1 <-> (near (5 * PI / 6) \/ near (7 * PI / 6)) /\ ~ (5000 < z /\ Rabs lat < 1 / 8).
Proof.
  unfold tracers_11. cbv zeta.
  assert (B : forall lon0, bell_distance lon0 lon lat z <= 1 / 2 <-> (2 * acos (cos lat * cos (lon - lon0))) ^ 2 + ((z - 5000) / 1000) ^ 2 <= 1 / 2).
  { intro lon0. unfold bell_distance. cbv zeta. rewrite sin_0, cos_0. replace (sin lat * 0 + cos lat * 1 * cos (lon - lon0)) with (cos lat * cos (lon - lon0)) by ring.
    replace (acos (cos lat * cos (lon - lon0)) / (1 / 2)) with (2 * acos (cos lat * cos (lon - lon0))) by field. unfold Rmin. destruct (Rle_dec 1 _); lra. }
  rewrite <- !B. destruct (Rlt_dec 5000 z); [destruct (Rlt_dec (Rabs lat) (125 / 1000))|]; repeat match goal with |- context [if ?b then _ else _] => destruct b end; split; intro H; try lra; try tauto; try (split; [tauto|lra]); destruct H as [[?|?] Sl]; try lra; try (exfalso; apply Sl; lra).
Qed.
(** the acoustic wave *)
Lemma exp_mono x y : x <= y -> exp x <= exp y.
Proof. intros [L| ->]; [left; now apply exp_increasing|right; reflexivity]. Qed.
Lemma acoustic_ok : forall radius Omega ztop lon lat (z : R), 0 <= z <= 40000 -> let q := initial_euler radius Omega ztop 77 lon lat z in
  others_zero q /\ zonal_of q = 0 /\ 0 < rho_of q /\ Rabs (pressure_points (rho_theta_of q) - p_isothermal z) <= 100 /\ (6371000 * acos (cos lat * cos lon) > 6371000 / 3 -> pressure_points (rho_theta_of q) = p_isothermal z).
Proof.
  intros radius Omega ztop lon lat z Hz q. consts. split; [split; reflexivity|]. split; [reflexivity|].
  assert (B : Rabs (acoustic_pert lon lat) <= 100).
  { unfold acoustic_pert. cbv zeta. set (r := 6371000 * acos (cos lat * cos lon)). pose proof (SIN_bound (1 * PI * r / 10000)). pose proof (COS_bound (PI * r / (6371000 / 3))). rewrite Rabs_mult.
    assert (Rabs (sin (1 * PI * r / 10000)) <= 1) by (apply Rabs_le; lra). pose proof (Rabs_pos (sin (1 * PI * r / 10000))). destruct (Rlt_dec _ _); [rewrite Rabs_R0; lra|]. rewrite Rabs_pos_eq by lra. nra. }
  assert (L : 101 < p_isothermal z).
  { unfold p_isothermal. assert (E : exp (-6) <= exp (- z / scale_height)). { apply exp_mono. assert (z <= 6 * scale_height) by (unfold scale_height, Rd, gravity; lra). apply Rmult_le_reg_r with scale_height; [lra|]. unfold Rdiv. rewrite Rmult_assoc, Rinv_l by lra. lra. }
    assert (F : 1 / 729 <= exp (-6)). { replace (-6) with (- (6)) by ring. rewrite exp_Ropp. replace 6 with (1 + 1 + 1 + 1 + 1 + 1) by ring. rewrite !exp_plus. pose proof exp_le_3. pose proof (exp_pos 1). set (e := exp 1) in *. apply Rmult_le_reg_r with (e * e * e * e * e * e); [repeat apply Rmult_lt_0_compat; assumption|]. rewrite Rinv_l by (repeat apply Rmult_integral_contrapositive_currified; lra).
      assert (e * e <= 9) by nra. assert (e * e * e <= 27) by nra. assert (0 < e * e * e) by (repeat apply Rmult_lt_0_compat; assumption). assert ((e * e * e) * (e * e * e) <= 27 * 27) by nra. lra. }
    unfold p0. lra. }
  assert (P : 0 < p_isothermal z + acoustic_pert lon lat) by (apply Rabs_le_between in B; lra).
  assert (E : pressure_points (rho_theta_of q) = p_isothermal z + acoustic_pert lon lat) by (change (rho_theta_of q) with (snd (thermo (p_isothermal z + acoustic_pert lon lat) 300)); apply state_pressure; [exact P|lra]).
  split; [|split].
  - change (rho_of q) with ((p_isothermal z + acoustic_pert lon lat) / (Rd * 300)). apply Rdiv_lt_0_compat; [exact P|lra].
  - rewrite E. replace (p_isothermal z + acoustic_pert lon lat - p_isothermal z) with (acoustic_pert lon lat) by ring. exact B.
  - intros K. rewrite E. unfold acoustic_pert. cbv zeta. destruct (Rlt_dec _ _) as [_|N]; [ring|]. exfalso. apply N. exact K.
Qed.
