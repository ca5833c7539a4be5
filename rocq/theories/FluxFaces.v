(** Fluxes on a plane, finite volumes, Euler on the cubed sphere and its forcing: proofs. *)
From Coq Require Import Reals Arith List Bool Lia Lra Psatz.
From Verif Require Import FluxModel FluxSpec FluxProofs.
Import ListNotations.
Open Scope R_scope.

(** ** constants *)
Lemma p0_pos : 0 < p0.
Proof. unfold p0. lra. Qed.
Lemma ratio_pos : 0 < heat_capacity_ratio.
Proof. unfold heat_capacity_ratio, cvd, cpd, Rd. lra. Qed.
Lemma faces_dry x : pressure_faces x = dry_pressure p0 Rd cpd cvd x.
Proof. reflexivity. Qed.
Lemma points_dry x : pressure_points x = dry_pressure p0 Rd cpd cvd x.
Proof. unfold pressure_points, dry_pressure, Rpower. do 4 f_equal. unfold Rdiv. ring. Qed.
Lemma dry_pos x : 0 < dry_pressure p0 Rd cpd cvd x.
Proof. unfold dry_pressure. apply Rmult_lt_0_compat; [apply p0_pos|apply exp_pos]. Qed.
Lemma pressure_3d_dry q : pressure_3d q = dry_pressure p0 Rd cpd cvd (q 4%nat).
Proof. unfold pressure_3d, dry_pressure, Rpower. do 4 f_equal. unfold Rdiv. ring. Qed.

(** ** plane *)
Lemma sound_speed rho p : 0 < rho -> 0 < p -> 0 < sqrt (heat_capacity_ratio * p / rho).
Proof. intros. apply sqrt_lt_R0. apply Rmult_lt_0_compat; [apply Rmult_lt_0_compat; [apply ratio_pos|assumption]|apply Rinv_0_lt_compat; assumption]. Qed.
Lemma plane_consistent d q v : 0 < q 0%nat -> plane_ausm d q q v = if (v =? d)%nat then pressure_faces (q 3%nat) else q v * (q d / q 0%nat).
Proof.
  intros Hr. unfold plane_ausm. cbv zeta. pose proof (sound_speed (q 0%nat) (pressure_faces (q 3%nat)) Hr (dry_pos (q 3%nat))) as S.
  set (a := sqrt _) in *. clearbody a. set (p := pressure_faces _). clearbody p.
  destruct (v =? d)%nat; [field; lra|].
  transitivity (Rmax 0 (1 / 4 * ((q d / (q 0%nat * a) + 1) ^ 2 - (q d / (q 0%nat * a) - 1) ^ 2)) * a * q v + Rmin 0 (1 / 4 * ((q d / (q 0%nat * a) + 1) ^ 2 - (q d / (q 0%nat * a) - 1) ^ 2)) * a * q v); [ring|].
  rewrite max_min_sum. field. lra.
Qed.
Lemma plane_points rho rho_u rho_w rho_theta v : (v < 4)%nat -> rho <> 0 ->
  let q := fun c => match c with 0%nat => rho | 1%nat => rho_u | 2%nat => rho_w | _ => rho_theta end in
  bubble_flux_x1 rho rho_u rho_w rho_theta v = euler_plane_flux (dry_pressure p0 Rd cpd cvd rho_theta) 0 q v /\
  bubble_flux_x3 rho rho_u rho_w rho_theta v = euler_plane_flux (dry_pressure p0 Rd cpd cvd rho_theta) 1 q v.
Proof.
  intros Hv Hr. cbv zeta. rewrite <- points_dry. unfold bubble_flux_x1, bubble_flux_x3, euler_plane_flux.
  destruct v as [|[|[|[|v]]]]; [| | | |lia]; cbn [Nat.eqb]; split; field; assumption.
Qed.

(** ** finite volumes *)
Section FV.
Variables n d : nat.
Lemma put_right v f e : (S e < n)%nat -> put (right_of n) v f (S e) 0%nat = v e 0%nat.
Proof. intros. unfold right_of. rewrite put_in_range by lia. f_equal; lia. Qed.
Lemma put_right_out v f e : put (right_of n) v f e 1%nat = f e 1%nat.
Proof. unfold right_of. apply put_out_range. right. lia. Qed.
Lemma put_left v f e : (S e < n)%nat -> put (left_of n) v f e 1%nat = v e 0%nat.
Proof. intros. unfold left_of. rewrite put_in_range by lia. f_equal; lia. Qed.
Lemma put_left_out v f e : put (left_of n) v f e 0%nat = f e 0%nat.
Proof. unfold left_of. apply put_out_range. right. lia. Qed.
Lemma get_right f e : get (right_of n) f e 0%nat = f (S e) 0%nat.
Proof. unfold right_of. rewrite get_range. reflexivity. Qed.
Lemma get_left f e : get (left_of n) f e 0%nat = f e 1%nat.
Proof. unfold left_of. rewrite get_range. reflexivity. Qed.
Lemma copied_left f : single_valued n 1 (put (left_of n) (get (right_of n) f) f).
Proof. intros e p He Hp. replace p with 0%nat by lia. change (1 + 0)%nat with 1%nat. rewrite put_left, put_left_out, get_right by assumption. reflexivity. Qed.
Lemma ausm_fv_single var pres flux v : single_valued n 1 (ausm_2d_fv n d var pres flux v).
Proof. apply copied_left. Qed.
Lemma upwind_fv_single var flux v : single_valued n 1 (upwind_2d_fv n d var flux v).
Proof. apply copied_left. Qed.
Lemma rusanov_fv_single var pres flux v : single_valued n 1 (rusanov_2d_fv n d var pres flux v).
Proof. apply copied_left. Qed.
Lemma ausm_fv_consistent var pres flux v e : (S e < n)%nat -> (forall c, (c < 4)%nat -> var c e 1%nat = var c (S e) 0%nat) -> pres e 1%nat = pres (S e) 0%nat ->
  0 < var 0%nat (S e) 0%nat -> 0 < pres (S e) 0%nat -> (v < 4)%nat -> (d < 4)%nat ->
  ausm_2d_fv n d var pres flux v (S e) 0%nat = var v (S e) 0%nat * (var d (S e) 0%nat / var 0%nat (S e) 0%nat) + (if (v =? d)%nat then pres (S e) 0%nat else 0).
Proof.
  intros He Hq Hpr Hr Hpp Hv Hd. unfold ausm_2d_fv. cbv zeta. rewrite !all_vars_at, put_left_out, one_var_eq, !all_vars_at.
  pose proof (sound_speed _ _ Hr Hpp) as Snd.
  destruct (v =? d)%nat; cbv beta; rewrite !put_right, ?get_right, ?get_left by assumption; rewrite ?put_right by assumption; rewrite ?get_right, ?get_left;
    rewrite (Hq v), (Hq d), (Hq 0%nat), Hpr by lia; set (a := sqrt _) in *; clearbody a; set (M := 1 / 4 * _).
  - transitivity (Rmax 0 M * a * var v (S e) 0%nat + Rmin 0 M * a * var v (S e) 0%nat + pres (S e) 0%nat); [field; lra|]. rewrite max_min_sum. unfold M. field. lra.
  - transitivity (Rmax 0 M * a * var v (S e) 0%nat + Rmin 0 M * a * var v (S e) 0%nat); [ring|]. rewrite max_min_sum. unfold M. field. lra.
Qed.
Lemma upwind_fv_consistent var flux v e : (S e < n)%nat -> flux v e 1%nat = flux v (S e) 0%nat -> upwind_2d_fv n d var flux v (S e) 0%nat = flux v (S e) 0%nat.
Proof.
  intros He Hf. unfold upwind_2d_fv. cbv zeta. rewrite !all_vars_at, put_left_out, put_right by assumption. rewrite ?get_right, ?get_left, Hf. destruct Rlt_dec; reflexivity.
Qed.
Lemma rusanov_fv_consistent var pres flux v e : (S e < n)%nat -> flux v e 1%nat = flux v (S e) 0%nat -> var v e 1%nat = var v (S e) 0%nat -> rusanov_2d_fv n d var pres flux v (S e) 0%nat = flux v (S e) 0%nat.
Proof.
  intros He Hf Hq. unfold rusanov_2d_fv. cbv zeta. rewrite !all_vars_at, put_left_out, put_right by assumption. rewrite ?get_right, ?get_left, Hf, Hq. field.
Qed.
(** the dissipation of Rusanov's flux is at least the speed of every wave of either side *)
Lemma upwind_fv_side var flux v e : (S e < n)%nat ->
  (0 < var d e 1%nat + var d (S e) 0%nat -> upwind_2d_fv n d var flux v (S e) 0%nat = flux v e 1%nat) /\
  (var d e 1%nat + var d (S e) 0%nat <= 0 -> upwind_2d_fv n d var flux v (S e) 0%nat = flux v (S e) 0%nat).
Proof.
  intros He. unfold upwind_2d_fv. cbv zeta. rewrite !all_vars_at, put_left_out, put_right by assumption. rewrite ?get_right, ?get_left.
  split; intros H; destruct Rlt_dec; try reflexivity; lra.
Qed.
End FV.

(** ** Rusanov's flux on the cubed sphere *)
Section Sphere.
Variables (n m d : nat) (advection_only : bool).
Variables (vel : face) (q : nat -> face) (pres sqrtG : face) (h_contra : nat -> nat -> face).
Variables (flux : nat -> face) (wa wp : face).
Notation result := (rusanov_3d_new n m d advection_only vel q pres sqrtG h_contra flux wa wp).
Lemma sphere_single v : single_valued n m (fst (fst result) v).
Proof. apply copied_single. Qed.
Lemma sphere_adv_single : single_valued n m (snd (fst result)).
Proof. apply copied_single. Qed.
Lemma get_low f i j : get (hi n m) f i j = f i (m + j)%nat.
Proof. apply get_hi. Qed.
Lemma get_high f i j : get (lo n m) f i j = f (S i) j.
Proof. apply get_lo. Qed.
Lemma sphere_pres_single : (forall e p, (S e < n)%nat -> (p < m)%nat -> pres e (m + p)%nat <> 0 /\ pres (S e) p <> 0) -> single_valued n m (fun e p => snd result e p * pres e p).
Proof.
  intros H e p He Hp. destruct (H e p He Hp) as [H1 H2]. unfold rusanov_3d_new. cbv zeta. cbn [snd fst].
  rewrite put_lo_hi, put_lo_lo, put_hi by assumption. rewrite get_low, get_high. field. split; assumption.
Qed.
(** the two parts of the flux of vertical momentum make up the flux, on both sides of an interface *)
Lemma sphere_split : (forall e p, (S e < n)%nat -> (p < m)%nat -> pres e (m + p)%nat <> 0 /\ pres (S e) p <> 0) -> forall e p, (S e < n)%nat -> (p < m)%nat ->
  snd (fst result) e (m + p)%nat + snd result e (m + p)%nat * pres e (m + p)%nat = fst (fst result) 3%nat e (m + p)%nat /\
  snd (fst result) (S e) p + snd result (S e) p * pres (S e) p = fst (fst result) 3%nat (S e) p.
Proof.
  intros H e p He Hp. destruct (H e p He Hp) as [H1 H2].
  rewrite <- (sphere_adv_single e p He Hp), <- (sphere_single 3 e p He Hp), <- (sphere_pres_single H e p He Hp).
  split; unfold rusanov_3d_new; cbv zeta; cbn [snd fst]; rewrite !all_vars_at; rewrite !put_lo_hi, !put_hi by assumption; rewrite !get_low; unfold side_flux; field; assumption.
Qed.
Lemma sphere_value v e p : (S e < n)%nat -> (p < m)%nat ->
  fst (fst result) v e (m + p)%nat = 1 / 2 * (side_flux d vel q pres sqrtG h_contra (hi n m) v e p + side_flux d vel q pres sqrtG h_contra (lo n m) v e p
    - Rmax (eig_3d d advection_only vel q pres h_contra (hi n m) e p) (eig_3d d advection_only vel q pres h_contra (lo n m) e p) * sqrtG e (m + p)%nat * (q v (S e) p - q v e (m + p)%nat)).
Proof. intros He Hp. unfold rusanov_3d_new. cbv zeta. cbn [fst]. rewrite !all_vars_at, put_lo_hi, put_hi by assumption. rewrite !get_low, get_high. reflexivity. Qed.
Lemma sphere_consistent v e p : (S e < n)%nat -> (p < m)%nat ->
  same_at m e p (q v) -> same_at m e p vel -> same_at m e p pres -> same_at m e p sqrtG -> (forall c, (c < 3)%nat -> same_at m e p (h_contra d c)) ->
  vel (S e) p = q (S d) (S e) p / q 0%nat (S e) p ->
  fst (fst result) v (S e) p = euler_sphere_flux (pres (S e) p) (sqrtG (S e) p) (fun a b => h_contra a b (S e) p) d (fun c => q c (S e) p) v.
Proof.
  intros He Hp Eq Ev Ep Eg Eh Ed. unfold same_at in *. rewrite <- (sphere_single v e p He Hp), sphere_value by assumption.
  unfold side_flux, side_adv, side_pres, euler_sphere_flux. rewrite !get_low, !get_high, Eq, Ev, Eg, Ed. rewrite (Rminus_diag_eq (q v (S e) p) _ eq_refl), Rmult_0_r.
  pose proof (Eh 0%nat ltac:(lia)) as E0. pose proof (Eh 1%nat ltac:(lia)) as E1. pose proof (Eh 2%nat ltac:(lia)) as E2.
  destruct v as [|[|[|[|v]]]]; rewrite ?get_low, ?get_high, ?Eq, ?Ev, ?Eg, ?Ep, ?E0, ?E1, ?E2, ?Ed; unfold Rdiv; lra.
Qed.
End Sphere.
Lemma sphere_points d sqrtG h q v : pointwise_3d d sqrtG h q v = euler_sphere_flux (dry_pressure p0 Rd cpd cvd (q 4%nat)) sqrtG h d q v.
Proof.
  rewrite <- pressure_3d_dry. unfold pointwise_3d, euler_sphere_flux, velocity_3d. cbv zeta. destruct v as [|[|[|[|v]]]]; ring.
Qed.
Lemma sphere_points_split d sqrtG h q : wflux_adv_3d d sqrtG q + wflux_pres_3d d sqrtG h * pressure_3d q = pointwise_3d d sqrtG h q 3%nat.
Proof. reflexivity. Qed.

(** ** columns: no flow through the ground and the lid *)
Section Column.
Variables (n m : nat) (q old : nat -> face).
Hypothesis Hn : (3 <= n)%nat.
Let s := column_states n m q old.
Ltac here := first [rewrite put_out_range by lia | rewrite put_in_range by lia].
Lemma column_ground v p : (p < m)%nat -> s v 0%nat (m + p)%nat = q v 1%nat p /\ s v 1%nat p = q v 1%nat p.
Proof.
  intros Hp. unfold s, column_states. cbv zeta. split; repeat here; rewrite ?get_range; repeat here; f_equal; lia.
Qed.
Lemma column_lid v p : (p < m)%nat -> s v (n - 1)%nat p = q v (n - 2)%nat (m + p)%nat /\ s v (n - 2)%nat (m + p)%nat = q v (n - 2)%nat (m + p)%nat.
Proof.
  intros Hp. unfold s, column_states. cbv zeta. split; repeat here; rewrite ?get_range; repeat here; f_equal; lia.
Qed.
Lemma column_inner v e p : (1 <= e <= n - 2)%nat -> (p < 2 * m)%nat -> s v e p = q v e p.
Proof. intros He Hp. unfold s, column_states. cbv zeta. repeat here. f_equal; lia. Qed.
Lemma velocity_ground p : (p < m)%nat -> column_velocity n m s 0%nat (m + p)%nat = - (q 3%nat 1%nat p / q 0%nat 1%nat p) /\ column_velocity n m s 1%nat p = q 3%nat 1%nat p / q 0%nat 1%nat p.
Proof.
  intros Hp. destruct (column_ground 3 p Hp) as [_ A3]. destruct (column_ground 0 p Hp) as [_ A0].
  unfold column_velocity. cbv zeta. split; repeat here; rewrite ?get_range; repeat here.
  - replace (1 + (0 - 0))%nat with 1%nat by lia. replace (0 + (m + p - m))%nat with p by lia. rewrite A3, A0. reflexivity.
  - rewrite A3, A0. reflexivity.
Qed.
Lemma velocity_lid p : (p < m)%nat -> column_velocity n m s (n - 1)%nat p = - (q 3%nat (n - 2)%nat (m + p)%nat / q 0%nat (n - 2)%nat (m + p)%nat) /\ column_velocity n m s (n - 2)%nat (m + p)%nat = q 3%nat (n - 2)%nat (m + p)%nat / q 0%nat (n - 2)%nat (m + p)%nat.
Proof.
  intros Hp. destruct (column_lid 3 p Hp) as [_ A3]. destruct (column_lid 0 p Hp) as [_ A0].
  unfold column_velocity. cbv zeta. split; repeat here; rewrite ?get_range; repeat here.
  - replace (n - 2 + (n - 1 - (n - 1)))%nat with (n - 2)%nat by lia. replace (m + (p - 0))%nat with (m + p)%nat by lia. rewrite A3, A0. reflexivity.
  - rewrite A3, A0. reflexivity.
Qed.
Variables (advection_only : bool) (pres sqrtG : face) (h_contra : nat -> nat -> face) (flux : nat -> face) (wa wp : face).
Notation result := (rusanov_3d_new n m 2 advection_only (column_velocity n m s) s pres sqrtG h_contra flux wa wp).
(** nothing but pressure acts across the ground and the lid *)
Lemma ground_flux v p : (p < m)%nat -> same_at m 0 p sqrtG ->
  fst (fst result) v 1%nat p = match v with
    | 1%nat => 1 / 2 * (sqrtG 1%nat p * h_contra 2%nat 0%nat 0%nat (m + p)%nat * pres 0%nat (m + p)%nat + sqrtG 1%nat p * h_contra 2%nat 0%nat 1%nat p * pres 1%nat p)
    | 2%nat => 1 / 2 * (sqrtG 1%nat p * h_contra 2%nat 1%nat 0%nat (m + p)%nat * pres 0%nat (m + p)%nat + sqrtG 1%nat p * h_contra 2%nat 1%nat 1%nat p * pres 1%nat p)
    | 3%nat => 1 / 2 * (sqrtG 1%nat p * h_contra 2%nat 2%nat 0%nat (m + p)%nat * pres 0%nat (m + p)%nat + sqrtG 1%nat p * h_contra 2%nat 2%nat 1%nat p * pres 1%nat p)
    | _ => 0 end.
Proof.
  intros Hp Eg. unfold same_at in Eg. rewrite <- (sphere_single _ _ _ _ _ _ _ _ _ _ _ _ v 0%nat p) by lia. rewrite sphere_value by lia.
  destruct (velocity_ground p Hp) as [V0 V1]. destruct (column_ground v p Hp) as [A B].
  unfold side_flux, side_adv, side_pres. rewrite A, B. match goal with |- context [?x - ?x] => rewrite (Rminus_diag_eq x _ eq_refl), Rmult_0_r end.
  destruct v as [|[|[|[|v]]]]; rewrite ?get_low, ?get_high, V0, V1, Eg, A, B; ring.
Qed.
Lemma lid_flux v p : (p < m)%nat -> same_at m (n - 2) p sqrtG ->
  fst (fst result) v (n - 2)%nat (m + p)%nat = match v with
    | 1%nat => 1 / 2 * (sqrtG (n - 1)%nat p * h_contra 2%nat 0%nat (n - 2)%nat (m + p)%nat * pres (n - 2)%nat (m + p)%nat + sqrtG (n - 1)%nat p * h_contra 2%nat 0%nat (n - 1)%nat p * pres (n - 1)%nat p)
    | 2%nat => 1 / 2 * (sqrtG (n - 1)%nat p * h_contra 2%nat 1%nat (n - 2)%nat (m + p)%nat * pres (n - 2)%nat (m + p)%nat + sqrtG (n - 1)%nat p * h_contra 2%nat 1%nat (n - 1)%nat p * pres (n - 1)%nat p)
    | 3%nat => 1 / 2 * (sqrtG (n - 1)%nat p * h_contra 2%nat 2%nat (n - 2)%nat (m + p)%nat * pres (n - 2)%nat (m + p)%nat + sqrtG (n - 1)%nat p * h_contra 2%nat 2%nat (n - 1)%nat p * pres (n - 1)%nat p)
    | _ => 0 end.
Proof.
  intros Hp Eg. unfold same_at in Eg. rewrite sphere_value by lia.
  destruct (velocity_lid p Hp) as [V0 V1]. destruct (column_lid v p Hp) as [A B].
  assert (E : S (n - 2) = (n - 1)%nat) by lia. rewrite E in *.
  unfold side_flux, side_adv, side_pres. rewrite A, B. match goal with |- context [?x - ?x] => rewrite (Rminus_diag_eq x _ eq_refl), Rmult_0_r end.
  destruct v as [|[|[|[|v]]]]; rewrite ?get_low, ?get_high, ?E, V0, V1, Eg, A, B; ring.
Qed.
End Column.

(** ** forcing *)
Lemma forcing_formula q p h christoffel a (H : nat -> nat -> R) (G0 : nat -> R) (G : nat -> nat -> R) :
  (forall i j, H i j = H j i) -> (forall i j, G i j = G j i) ->
  (forall i j, (i <= j < 3)%nat -> h i j = H i j) ->
  (forall j, (j < 3)%nat -> christoffel a j = G0 j) ->
  christoffel a 3%nat = G 0%nat 0%nat -> christoffel a 4%nat = G 0%nat 1%nat -> christoffel a 5%nat = G 0%nat 2%nat ->
  christoffel a 6%nat = G 1%nat 1%nat -> christoffel a 7%nat = G 1%nat 2%nat -> christoffel a 8%nat = G 2%nat 2%nat ->
  forcing_py q p h christoffel a = christoffel_forcing (q 0%nat) p (fun j => q (S j) / q 0%nat) H G0 G.
Proof.
  intros SH SG Hh H0 ? ? ? ? ? ?. unfold forcing_py, compute_single_forcing, christoffel_forcing. cbn [sum_to]. cbv zeta.
  rewrite !Hh by lia. rewrite !H0 by lia.
  rewrite (SH 1 0)%nat, (SH 2 0)%nat, (SH 2 1)%nat, (SG 1 0)%nat, (SG 2 0)%nat, (SG 2 1)%nat.
  replace (christoffel a 3%nat) with (G 0%nat 0%nat) by congruence. replace (christoffel a 4%nat) with (G 0%nat 1%nat) by congruence. replace (christoffel a 5%nat) with (G 0%nat 2%nat) by congruence.
  replace (christoffel a 6%nat) with (G 1%nat 1%nat) by congruence. replace (christoffel a 7%nat) with (G 1%nat 2%nat) by congruence. replace (christoffel a 8%nat) with (G 2%nat 2%nat) by congruence.
  unfold Rdiv. ring.
Qed.
(** both versions give the same numbers when their arrays hold the same ones *)
Lemma forcing_same q pressure h christoffel index stride a : (a < 3)%nat ->
  forcing_cpp q pressure h christoffel index stride a =
  forcing_py (fun c => q (c * stride + index)%nat) (pressure index) (fun i j => h (index + (i * 3 + j) * stride)%nat) (fun i k => christoffel (index + (i * 9 + k) * stride)%nat) a.
Proof. intros Ha. unfold forcing_cpp, forcing_py, load. destruct a as [|[|[|a]]]; [| | |lia]; reflexivity. Qed.
