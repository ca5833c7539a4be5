(** Steady zonal flow in the coordinates of the cubed sphere *)
From Coq Require Import Reals Lra Lia Arith List.
From Coquelicot Require Import Coquelicot.
From Verif Require Import GeoModel GeoSpec GeoProofs GeoArea GeoAngles GeoWinds FluxModel SwModel InitModel InitSpec.
Local Open Scope R_scope.

(** the volume *)
Lemma sqrtG_sym R0 d X Y : sqrtG R0 d d X Y = sqrtG R0 d d Y X.
Proof. unfold sqrtG, delta, delta2. replace (1 + Y ^ 2 + X ^ 2) with (1 + X ^ 2 + Y ^ 2) by ring. unfold Rdiv. ring. Qed.
Lemma derive_volume (R0 d X Y : R) : is_derive (fun X : R => sqrtG R0 d d X Y) X (sqrtG R0 d d X Y * (2 * X / (1 + X ^ 2) - 3 * X / delta2 X Y)).
Proof.
  unfold sqrtG, delta, delta2. assert (0 < 1 + X ^ 2 + Y ^ 2) by nra. assert (S : 0 < sqrt (1 + X ^ 2 + Y ^ 2)) by (now apply sqrt_lt_R0).
  assert (Q : sqrt (1 + X ^ 2 + Y ^ 2) * sqrt (1 + X ^ 2 + Y ^ 2) = 1 + X ^ 2 + Y ^ 2) by (apply sqrt_sqrt; lra).
  auto_derive; change (X * (X * 1)) with (X ^ 2); change (Y * (Y * 1)) with (Y ^ 2).
  - split; [assumption|]. split; [|exact I]. apply Rgt_not_eq. now apply Rmult_lt_0_compat.
  - set (s := sqrt _) in *. assert (1 + X ^ 2 <> 0) by nra. rewrite <- Q. field. split; lra.
Qed.
Section Zonal.
Variables (n0 n1 n2 u0 R0 Omega d : R).
Hypotheses (HR : R0 <> 0) (Hd : d <> 0).
(** the contravariant wind, the sine of the latitude times delta, and the derivative of the sine of the latitude times delta *)
Definition zu1 X Y := (n2 * (1 + X ^ 2) - n1 * (X * Y) - n0 * Y) / (1 + X ^ 2) * (u0 / R0) * 2 / d.
Definition zu2 X Y := (n2 * (X * Y) + n0 * X - n1 * (1 + Y ^ 2)) / (1 + Y ^ 2) * (u0 / R0) * 2 / d.
Definition zg X Y := n0 + n1 * X + n2 * Y.
Variables (h hX hY zX zY : R) (X Y A B : R).
Hypotheses (EX : hX = A * (n1 * delta2 X Y - zg X Y * X) / delta2 X Y) (EY : hY = A * (n2 * delta2 X Y - zg X Y * Y) / delta2 X Y)
  (FX : zX = B * (n1 * delta2 X Y - zg X Y * X) / delta2 X Y) (FY : zY = B * (n2 * delta2 X Y - zg X Y * Y) / delta2 X Y)
  (AB : A + B = - 2 * (R0 * Omega * u0 + 1 / 2 * u0 ^ 2) / gravity * zg X Y / delta2 X Y).
Let P := 1 + X ^ 2.
Let Q := 1 + Y ^ 2.
Let D := delta2 X Y.
(** derivatives *)
Definition zu1X := (((2 * n2 * X - n1 * Y) * P - (n2 * P - n1 * (X * Y) - n0 * Y) * (2 * X)) / P ^ 2) * (u0 / R0) * 2 / d.
Definition zu1Y := ((- n1 * X - n0) / P) * (u0 / R0) * 2 / d.
Definition zu2X := ((n2 * Y + n0) / Q) * (u0 / R0) * 2 / d.
Definition zu2Y := (((n2 * X - 2 * n1 * Y) * Q - (n2 * (X * Y) + n0 * X - n1 * Q) * (2 * Y)) / Q ^ 2) * (u0 / R0) * 2 / d.
Lemma Ppos : P <> 0. Proof. unfold P. nra. Qed.
Lemma Qpos : Q <> 0. Proof. unfold Q. nra. Qed.
Lemma Dpos : D <> 0. Proof. unfold D, delta2. nra. Qed.
Lemma u1_X : is_derive (fun X : R => zu1 X Y) X zu1X.
Proof. unfold zu1, zu1X. pose proof Ppos as HP. unfold P in *. auto_derive; [exact HP|]. field. auto. Qed.
Lemma u1_Y : is_derive (fun Y : R => zu1 X Y) Y zu1Y.
Proof. unfold zu1, zu1Y. pose proof Ppos as HP. unfold P in *. auto_derive; [exact I|]. field. auto. Qed.
Lemma u2_X : is_derive (fun X : R => zu2 X Y) X zu2X.
Proof. unfold zu2, zu2X. pose proof Qpos as HP. unfold Q in *. auto_derive; [exact I|]. field. auto. Qed.
Lemma u2_Y : is_derive (fun Y : R => zu2 X Y) Y zu2Y.
Proof. unfold zu2, zu2Y. pose proof Qpos as HP. unfold Q in *. auto_derive; [exact HP|]. field. auto. Qed.
(** the derivatives along the coordinates of the element, divided by the volume *)
Let LX := 2 * X / P - 3 * X / D.
Let LY := 2 * Y / Q - 3 * Y / D.
Lemma mass : d / 2 * P * (LX * (h * zu1 X Y) + (hX * zu1 X Y + h * zu1X)) + d / 2 * Q * (LY * (h * zu2 X Y) + (hY * zu2 X Y + h * zu2Y)) = 0.
Proof.
  rewrite EX, EY. unfold LX, LY, zu1, zu2, zu1X, zu2Y. pose proof Ppos; pose proof Qpos; pose proof Dpos. unfold P, Q, D, delta2, zg in *. field. auto.
Qed.
Let H := H_contra R0 d d.
Definition h11X := (2 * X * P - D * (2 * X)) / P ^ 2 / R0 ^ 2 * (4 / d ^ 2).
Definition h12X := ((2 * X * X + D) * P - D * X * (2 * X)) / P ^ 2 * Y / Q / R0 ^ 2 * (4 / d ^ 2).
Definition h12Y := ((2 * Y * Y + D) * Q - D * Y * (2 * Y)) / Q ^ 2 * X / P / R0 ^ 2 * (4 / d ^ 2).
Definition h22Y := (2 * Y * Q - D * (2 * Y)) / Q ^ 2 / R0 ^ 2 * (4 / d ^ 2).
Lemma H11_X : is_derive (fun X : R => s11 (H X Y)) X h11X.
Proof. unfold H, h11X, H_contra, delta2. cbn [s11]. pose proof Ppos as HP. unfold P, D, delta2 in *. auto_derive; [apply Rmult_integral_contrapositive_currified; [apply Rmult_integral_contrapositive_currified; [|apply Rmult_integral_contrapositive_currified]; lra|exact HP]|]. field. auto. Qed.
Lemma H12_X : is_derive (fun X : R => s12 (H X Y)) X h12X.
Proof.
  unfold H, h12X, H_contra, delta2. cbn [s12]. pose proof Ppos as HP. pose proof Qpos as HQ. unfold P, Q, D, delta2 in *. auto_derive; [|field; auto].
  repeat (apply Rmult_integral_contrapositive_currified; [|]); first [exact HP|exact HQ|lra].
Qed.
Lemma H12_Y : is_derive (fun Y : R => s12 (H X Y)) Y h12Y.
Proof.
  unfold H, h12Y, H_contra, delta2. cbn [s12]. pose proof Ppos as HP. pose proof Qpos as HQ. unfold P, Q, D, delta2 in *. auto_derive; [|field; auto].
  repeat (apply Rmult_integral_contrapositive_currified; [|]); first [exact HP|exact HQ|lra].
Qed.
Lemma H22_Y : is_derive (fun Y : R => s22 (H X Y)) Y h22Y.
Proof.
  unfold H, h22Y, H_contra, delta2. cbn [s22]. pose proof Qpos as HQ. unfold P, Q, D, delta2 in *. auto_derive; [|field; auto].
  repeat (apply Rmult_integral_contrapositive_currified; [|]); first [exact HQ|lra].
Qed.
Variable o : rotation.
Hypotheses (G0 : sin (lat_p o) = n0) (G1 : - (cos (lat_p o) * sin (angle_p o)) = n1) (G2 : cos (lat_p o) * cos (angle_p o) = n2).
Lemma gridrot_zg : gridrot o X Y = zg X Y.
Proof. unfold gridrot, zg. rewrite <- G0, <- G1, <- G2. ring. Qed.
Lemma hu_u u : h * u * (h * u / h) = h * (u * u).
Proof. destruct (Req_dec h 0) as [->|N]; [unfold Rdiv; ring|field; exact N]. Qed.
Lemma hu_v u v : h * u * (h * v / h) = h * (u * v).
Proof. destruct (Req_dec h 0) as [->|N]; [unfold Rdiv; ring|field; exact N]. Qed.
Let u1 := zu1 X Y.
Let u2 := zu2 X Y.
Let f1 := forcing_at o R0 Omega d X Y h (h * u1) (h * u2) (d / 2 * P * zX) (d / 2 * Q * zY).
Lemma momentum1 : d / 2 * P * (LX * (h * (u1 * u1) + 1 / 2 * gravity * s11 (H X Y) * h ^ 2) + (hX * (u1 * u1) + h * (2 * u1 * zu1X) + 1 / 2 * gravity * (h11X * h ^ 2 + s11 (H X Y) * (2 * h * hX))))
  + d / 2 * Q * (LY * (h * (u1 * u2) + 1 / 2 * gravity * s12 (H X Y) * h ^ 2) + (hY * (u1 * u2) + h * (zu1Y * u2 + u1 * zu2Y) + 1 / 2 * gravity * (h12Y * h ^ 2 + s12 (H X Y) * (2 * h * hY)))) + f1 1%nat = 0.
Proof.
  assert (F : f1 1%nat = h * (2 * (christoffel_1_01 o Omega X Y * u1 + christoffel_1_02 o Omega X Y * u2) + s11 (christoffel_1 d d X Y) * (u1 * u1) + 2 * s12 (christoffel_1 d d X Y) * (u1 * u2)) + gravity * h * (s11 (H X Y) * (d / 2 * P * zX) + s12 (H X Y) * (d / 2 * Q * zY))).
  { unfold f1, forcing_at. cbv zeta. fold H. match goal with |- _ + ?a * (h * u1) * ?b + ?c * (h * u1) * ?e + _ = _ => replace (a * (h * u1) * b) with (a * (h * (u1 * u1))) by (rewrite <- hu_u; ring); replace (c * (h * u1) * e) with (c * (h * (u1 * u2))) by (rewrite <- hu_v; ring) end. ring. }
  rewrite F. assert (EB : B = - 2 * (R0 * Omega * u0 + 1 / 2 * u0 ^ 2) / gravity * zg X Y / delta2 X Y - A) by lra.
  rewrite EX, EY, FX, FY, EB. unfold christoffel_1_01, christoffel_1_02. rewrite gridrot_zg. unfold H, H_contra, christoffel_1, u1, u2, LX, LY, zu1, zu2, zu1X, zu1Y, zu2Y, h11X, h12Y. cbn [s11 s12 s22].
  pose proof Ppos; pose proof Qpos; pose proof Dpos. assert (gravity <> 0) by (unfold gravity; lra). unfold P, Q, D, delta2, zg in *. clear - H0 H1 H2 H3 HR Hd. generalize dependent gravity. intros g Hg. field. repeat split; assumption.
Qed.
Lemma momentum2 : d / 2 * P * (LX * (h * (u2 * u1) + 1 / 2 * gravity * s12 (H X Y) * h ^ 2) + (hX * (u2 * u1) + h * (zu2X * u1 + u2 * zu1X) + 1 / 2 * gravity * (h12X * h ^ 2 + s12 (H X Y) * (2 * h * hX))))
  + d / 2 * Q * (LY * (h * (u2 * u2) + 1 / 2 * gravity * s22 (H X Y) * h ^ 2) + (hY * (u2 * u2) + h * (2 * u2 * zu2Y) + 1 / 2 * gravity * (h22Y * h ^ 2 + s22 (H X Y) * (2 * h * hY)))) + f1 2%nat = 0.
Proof.
  assert (F : f1 2%nat = h * (2 * (christoffel_2_01 o Omega X Y * u1 + christoffel_2_02 o Omega X Y * u2) + 2 * s12 (christoffel_2 d d X Y) * (u1 * u2) + s22 (christoffel_2 d d X Y) * (u2 * u2)) + gravity * h * (s12 (H X Y) * (d / 2 * P * zX) + s22 (H X Y) * (d / 2 * Q * zY))).
  { unfold f1, forcing_at. cbv zeta. fold H. match goal with |- _ + ?a * (h * u1) * ?b + ?c * (h * u2) * ?e + _ = _ => replace (a * (h * u1) * b) with (a * (h * (u1 * u2))) by (rewrite <- hu_v; ring); replace (c * (h * u2) * e) with (c * (h * (u2 * u2))) by (rewrite <- hu_u; ring) end. ring. }
  rewrite F. assert (EB : B = - 2 * (R0 * Omega * u0 + 1 / 2 * u0 ^ 2) / gravity * zg X Y / delta2 X Y - A) by lra.
  rewrite EX, EY, FX, FY, EB. unfold christoffel_2_01, christoffel_2_02. rewrite gridrot_zg. unfold H, H_contra, christoffel_2, u1, u2, LX, LY, zu1, zu2, zu1X, zu2X, zu2Y, h22Y, h12X. cbn [s11 s12 s22].
  pose proof Ppos; pose proof Qpos; pose proof Dpos. assert (gravity <> 0) by (unfold gravity; lra). unfold P, Q, D, delta2, zg in *. clear - H0 H1 H2 H3 HR Hd. generalize dependent gravity. intros g Hg. field. repeat split; assumption.
Qed.
End Zonal.

(** products and chains *)
Lemma derive_flux (S f g : R -> R) x l f' : is_derive S x (S x * l) -> is_derive f x f' -> (forall t, g t = S t * f t) -> is_derive g x (S x * (l * f x + f')).
Proof.
  intros HS Hf E. apply is_derive_ext with (fun t => S t * f t); [intros; now rewrite E|]. evar_last; [exact (is_derive_mult S f x _ _ HS Hf Rmult_comm)|]. unfold plus, mult; cbn. ring.
Qed.
Lemma locally_ne (f : R -> R) x : ex_derive f x -> f x <> 0 -> locally x (fun t => f t <> 0).
Proof. intros E N. exact (ex_derive_continuous f x E (fun y => y <> 0) (open_neq 0 (f x) N)). Qed.
Lemma derive_sine (n0 n1 n2 X Y : R) : is_derive (fun X : R => zg n0 n1 n2 X Y / delta X Y) X ((n1 * delta2 X Y - zg n0 n1 n2 X Y * X) / (delta2 X Y * delta X Y)).
Proof.
  unfold zg, delta. pose proof (delta2_pos X Y) as DP. pose proof (sqrt_lt_R0 _ DP) as SP. pose proof (sqrt_sqrt _ (Rlt_le _ _ DP)) as SS. unfold delta2 in *.
  auto_derive; change (X * (X * 1)) with (X ^ 2); change (Y * (Y * 1)) with (Y ^ 2).
  - repeat split; lra.
  - set (s := sqrt _) in *. rewrite <- SS. replace (1 + X ^ 2 + Y ^ 2) with (s * s). field. lra.
Qed.
Lemma sine_sym n0 n1 n2 X Y : zg n0 n1 n2 X Y / delta X Y = zg n0 n2 n1 Y X / delta Y X.
Proof. unfold zg, delta, delta2. replace (1 + Y ^ 2 + X ^ 2) with (1 + X ^ 2 + Y ^ 2) by ring. f_equal. ring. Qed.
Lemma derive_sineY (n0 n1 n2 X Y : R) : is_derive (fun Y : R => zg n0 n1 n2 X Y / delta X Y) Y ((n2 * delta2 X Y - zg n0 n1 n2 X Y * Y) / (delta2 X Y * delta X Y)).
Proof.
  eapply is_derive_ext; [intros t; rewrite sine_sym; reflexivity|]. evar_last; [apply derive_sine|]. unfold delta, delta2, zg. replace (1 + Y ^ 2 + X ^ 2) with (1 + X ^ 2 + Y ^ 2) by ring. f_equal. ring.
Qed.
Lemma derive_volumeY (R0 d X Y : R) : is_derive (fun Y : R => sqrtG R0 d d X Y) Y (sqrtG R0 d d X Y * (2 * Y / (1 + Y ^ 2) - 3 * Y / delta2 X Y)).
Proof.
  eapply is_derive_ext; [intros t; rewrite sqrtG_sym; reflexivity|]. evar_last; [apply derive_volume|]. rewrite sqrtG_sym. unfold delta2. now replace (1 + Y ^ 2 + X ^ 2) with (1 + X ^ 2 + Y ^ 2) by ring.
Qed.

Lemma derive_mass (h a : R -> R) (x h' a' : R) : is_derive h x h' -> is_derive a x a' -> is_derive (fun t : R => h t * a t) x (h' * a x + h x * a').
Proof. intros E1 E2. evar_last; [exact (is_derive_mult h a x _ _ E1 E2 Rmult_comm)|]. unfold plus, mult; cbn. ring. Qed.
Lemma derive_momentum (h a b c : R -> R) (x h' a' b' c' : R) : is_derive h x h' -> is_derive a x a' -> is_derive b x b' -> is_derive c x c' ->
  is_derive (fun t : R => h t * (a t * b t) + 1 / 2 * gravity * c t * h t ^ 2) x (h' * (a x * b x) + h x * (a' * b x + a x * b') + 1 / 2 * gravity * (c' * h x ^ 2 + c x * (2 * h x * h'))).
Proof.
  intros E1 E2 E3 E4. pose proof (is_derive_unique _ _ _ E1) as U1. pose proof (is_derive_unique _ _ _ E2) as U2. pose proof (is_derive_unique _ _ _ E3) as U3. pose proof (is_derive_unique _ _ _ E4) as U4.
  auto_derive; [repeat split; [exists h'|exists a'|exists b'|exists c'|exists h']; assumption|]. change (fun x0 : R => h x0) with h in *. change (fun x0 : R => a x0) with a in *. change (fun x0 : R => b x0) with b in *. change (fun x0 : R => c x0) with c in *. rewrite U1, U2, U3, U4. unfold gravity. field.
Qed.
Lemma derive_tan_comp (f : R -> R) (a d xi l : R) : cos (a + d / 2 * xi) <> 0 -> is_derive f (tan (a + d / 2 * xi)) l ->
  is_derive (fun x : R => f (tan (a + d / 2 * x))) xi (d / 2 * (1 + tan (a + d / 2 * xi) ^ 2) * l).
Proof.
  intros N E. evar_last; [exact (is_derive_comp f (fun x : R => tan (a + d / 2 * x)) xi l _ E (derive_tan a d xi N))|]. unfold scal; cbn; unfold mult; cbn. ring.
Qed.

Section Steady.
Variables (o : rotation) (R0 Omega d u0 : R) (hd hs hd' hs' : R -> R).
Hypotheses (HR : 0 < R0) (Hd : d <> 0).
Hypotheses (Dh : forall s, is_derive hd s (hd' s)) (Ds : forall s, is_derive hs s (hs' s)).
Hypothesis balance : forall s, hd' s + hs' s = - 2 * (R0 * Omega * u0 + 1 / 2 * u0 ^ 2) / gravity * s.
Let n0 := sin (lat_p o).
Let n1 := - (cos (lat_p o) * sin (angle_p o)).
Let n2 := cos (lat_p o) * cos (angle_p o).
Let sl X Y := zg n0 n1 n2 X Y / delta X Y.
Let h X Y := hd (sl X Y).
Let z X Y := hs (sl X Y).
Let u1 X Y := zu1 n0 n1 n2 u0 R0 d X Y.
Let u2 X Y := zu2 n0 n1 n2 u0 R0 d X Y.
Let H := H_contra R0 d d.
Let J := sqrtG R0 d d.
Let F1 v X Y := sw_flux_x1 (J X Y) (s11 (H X Y)) (s12 (H X Y)) (h X Y) (h X Y * u1 X Y) (h X Y * u2 X Y) v.
Let F2 v X Y := sw_flux_x2 (J X Y) (s12 (H X Y)) (s22 (H X Y)) (h X Y) (h X Y * u1 X Y) (h X Y * u2 X Y) v.
Variables (X Y : R).
Let A := hd' (sl X Y) / delta X Y.
Let B := hs' (sl X Y) / delta X Y.
Let D := delta2 X Y.
Let hX := A * (n1 * D - zg n0 n1 n2 X Y * X) / D.
Let hY := A * (n2 * D - zg n0 n1 n2 X Y * Y) / D.
Let zX := B * (n1 * D - zg n0 n1 n2 X Y * X) / D.
Let zY := B * (n2 * D - zg n0 n1 n2 X Y * Y) / D.
Let f := forcing_at o R0 Omega d X Y (h X Y) (h X Y * u1 X Y) (h X Y * u2 X Y) (d / 2 * (1 + X ^ 2) * zX) (d / 2 * (1 + Y ^ 2) * zY).
Let P := 1 + X ^ 2.
Let Q := 1 + Y ^ 2.
Lemma comp_X (g g' : R -> R) : (forall s, is_derive g s (g' s)) -> is_derive (fun X : R => g (sl X Y)) X (g' (sl X Y) / delta X Y * (n1 * D - zg n0 n1 n2 X Y * X) / D).
Proof.
  intros E. evar_last; [exact (is_derive_comp g (fun X : R => sl X Y) X _ _ (E _) (derive_sine n0 n1 n2 X Y))|]. unfold scal; cbn; unfold mult; cbn. pose proof (delta_pos X Y). pose proof (delta2_pos X Y). unfold D. field. lra.
Qed.
Lemma comp_Y (g g' : R -> R) : (forall s, is_derive g s (g' s)) -> is_derive (fun Y : R => g (sl X Y)) Y (g' (sl X Y) / delta X Y * (n2 * D - zg n0 n1 n2 X Y * Y) / D).
Proof.
  intros E. evar_last; [exact (is_derive_comp g (fun Y : R => sl X Y) Y _ _ (E _) (derive_sineY n0 n1 n2 X Y))|]. unfold scal; cbn; unfold mult; cbn. pose proof (delta_pos X Y). pose proof (delta2_pos X Y). unfold D. field. lra.
Qed.
Lemma h_X : is_derive (fun X : R => h X Y) X hX. Proof. exact (comp_X hd hd' Dh). Qed.
Lemma h_Y : is_derive (fun Y : R => h X Y) Y hY. Proof. exact (comp_Y hd hd' Dh). Qed.
Lemma z_X : is_derive (fun X : R => z X Y) X zX. Proof. exact (comp_X hs hs' Ds). Qed.
Lemma z_Y : is_derive (fun Y : R => z X Y) Y zY. Proof. exact (comp_Y hs hs' Ds). Qed.
Lemma zonal_balance : A + B = - 2 * (R0 * Omega * u0 + 1 / 2 * u0 ^ 2) / gravity * zg n0 n1 n2 X Y / delta2 X Y.
Proof.
  unfold A, B. rewrite <- Rdiv_plus_distr, balance. unfold sl. pose proof (delta_pos X Y) as DP. rewrite <- (delta_sq X Y). unfold gravity. field. lra.
Qed.
Lemma fluxes v : (v < 3)%nat -> exists g1 g2, is_derive (fun X : R => F1 v X Y) X g1 /\ is_derive (fun Y : R => F2 v X Y) Y g2 /\ d / 2 * P * g1 + d / 2 * Q * g2 = - J X Y * f v.
Proof.
  intros Hv. assert (HR' : R0 <> 0) by lra. pose proof h_X as DhX. pose proof h_Y as DhY. pose proof zonal_balance as AB.
  pose proof (u1_X n0 n1 n2 u0 R0 d HR' Hd X Y) as U1X. pose proof (u1_Y n0 n1 n2 u0 R0 d HR' Hd X Y) as U1Y. pose proof (u2_X n0 n1 n2 u0 R0 d HR' Hd X Y) as U2X. pose proof (u2_Y n0 n1 n2 u0 R0 d HR' Hd X Y) as U2Y.
  pose proof (derive_volume R0 d X Y) as VX. pose proof (derive_volumeY R0 d X Y) as VY.
  destruct v as [|[|[|]]]; [| | |lia].
  - do 2 eexists. split; [|split].
    + refine (derive_flux (fun X : R => J X Y) (fun X : R => h X Y * u1 X Y) _ X _ _ VX (derive_mass _ _ _ _ _ DhX U1X) _). intros t. reflexivity.
    + refine (derive_flux (fun Y : R => J X Y) (fun Y : R => h X Y * u2 X Y) _ Y _ _ VY (derive_mass _ _ _ _ _ DhY U2Y) _). intros t. reflexivity.
    + pose proof (mass n0 n1 n2 u0 R0 d HR' Hd (h X Y) hX hY X Y A eq_refl eq_refl) as M. cbv zeta in M. unfold f, forcing_at. cbv zeta. rewrite Rmult_0_r.
      match type of M with ?l = 0 => transitivity (J X Y * l); [|rewrite M; ring] end. unfold u1, u2, P, Q. ring.
  - do 2 eexists. split; [|split].
    + refine (derive_flux (fun X : R => J X Y) (fun X : R => h X Y * (u1 X Y * u1 X Y) + 1 / 2 * gravity * s11 (H X Y) * h X Y ^ 2) _ X _ _ VX (derive_momentum _ _ _ _ _ _ _ _ _ DhX U1X U1X (H11_X R0 d HR' Hd X Y)) _).
      intros t. unfold F1, sw_flux_x1. cbv zeta. rewrite hu_u. reflexivity.
    + refine (derive_flux (fun Y : R => J X Y) (fun Y : R => h X Y * (u1 X Y * u2 X Y) + 1 / 2 * gravity * s12 (H X Y) * h X Y ^ 2) _ Y _ _ VY (derive_momentum _ _ _ _ _ _ _ _ _ DhY U1Y U2Y (H12_Y R0 d HR' Hd X Y)) _).
      intros t. unfold F2, sw_flux_x2. cbv zeta. rewrite hu_v. reflexivity.
    + pose proof (momentum1 n0 n1 n2 u0 R0 Omega d HR' Hd (h X Y) hX hY zX zY X Y A B eq_refl eq_refl eq_refl eq_refl AB o eq_refl eq_refl eq_refl) as M. cbv zeta in M.
      match type of M with ?l + ?k = 0 => transitivity (J X Y * l); [|replace l with (- k) by lra; unfold f, u1, u2; ring] end. unfold u1, u2, P, Q, H. ring.
  - do 2 eexists. split; [|split].
    + refine (derive_flux (fun X : R => J X Y) (fun X : R => h X Y * (u2 X Y * u1 X Y) + 1 / 2 * gravity * s12 (H X Y) * h X Y ^ 2) _ X _ _ VX (derive_momentum _ _ _ _ _ _ _ _ _ DhX U2X U1X (H12_X R0 d HR' Hd X Y)) _).
      intros t. unfold F1, sw_flux_x1. cbv zeta. rewrite hu_v. reflexivity.
    + refine (derive_flux (fun Y : R => J X Y) (fun Y : R => h X Y * (u2 X Y * u2 X Y) + 1 / 2 * gravity * s22 (H X Y) * h X Y ^ 2) _ Y _ _ VY (derive_momentum _ _ _ _ _ _ _ _ _ DhY U2Y U2Y (H22_Y R0 d HR' Hd X Y)) _).
      intros t. unfold F2, sw_flux_x2. cbv zeta. rewrite hu_u. reflexivity.
    + pose proof (momentum2 n0 n1 n2 u0 R0 Omega d HR' Hd (h X Y) hX hY zX zY X Y A B eq_refl eq_refl eq_refl eq_refl AB o eq_refl eq_refl eq_refl) as M. cbv zeta in M.
      match type of M with ?l + ?k = 0 => transitivity (J X Y * l); [|replace l with (- k) by lra; unfold f, u1, u2; ring] end. unfold u1, u2, P, Q, H. ring.
Qed.
End Steady.

Section Start.
Variables (o : rotation) (R0 Omega d : R) (case : nat).
Hypotheses (HR : 0 < R0) (Hd : d <> 0) (Hc : case = 2%nat \/ case = 10%nat).
Let u0 := 2 * PI * R0 / (12 * day_in_secs).
Let n0 := sin (lat_p o).
Let n1 := - (cos (lat_p o) * sin (angle_p o)).
Let n2 := cos (lat_p o) * cos (angle_p o).
Let sl X Y := zg n0 n1 n2 X Y / delta X Y.
Definition steady_h (s : R) : R := if Nat.eqb case 2 then (29400 - (R0 * Omega * u0 + 1 / 2 * u0 ^ 2) * s ^ 2) / gravity
  else (- (1 / 2) * (u0 * s + R0 * Omega * s) ^ 2 + 1 / 2 * (R0 * Omega * s) ^ 2 + 133681 - (1 / 2 * (R0 * Omega * s) ^ 2 + 10)) / gravity.
Definition steady_z (s : R) : R := if Nat.eqb case 2 then 0 else (1 / 2 * (R0 * Omega * s) ^ 2 + 10) / gravity.
Definition steady_h' (s : R) : R := if Nat.eqb case 2 then - (R0 * Omega * u0 + 1 / 2 * u0 ^ 2) * (2 * s) / gravity
  else (- (u0 + R0 * Omega) ^ 2 * s) / gravity.
Definition steady_z' (s : R) : R := if Nat.eqb case 2 then 0 else (R0 * Omega) ^ 2 * s / gravity.
Lemma steady_hd s : is_derive steady_h s (steady_h' s).
Proof. unfold steady_h, steady_h'. destruct (Nat.eqb case 2); unfold gravity; auto_derive; trivial; field. Qed.
Lemma steady_zd s : is_derive steady_z s (steady_z' s).
Proof. unfold steady_z, steady_z'. destruct (Nat.eqb case 2); unfold gravity; auto_derive; trivial; field. Qed.
Lemma steady_balance s : steady_h' s + steady_z' s = - 2 * (R0 * Omega * u0 + 1 / 2 * u0 ^ 2) / gravity * s.
Proof. unfold steady_h', steady_z'. destruct (Nat.eqb case 2); unfold gravity; field. Qed.
Lemma start_state X Y : wind_denom o X Y <> 0 ->
  initial_sw o R0 Omega d case X Y = Some (steady_h (sl X Y), steady_h (sl X Y) * zu1 n0 n1 n2 u0 R0 d X Y, steady_h (sl X Y) * zu2 n0 n1 n2 u0 R0 d X Y, steady_z (sl X Y)).
Proof.
  intros W. unfold initial_sw. destruct (to_cartesian o R0 X Y) as [[x y] z] eqn:C. destruct (cart2sph x y z) as [[lon lat] r] eqn:E.
  assert (E' : cart2sph (vx (to_cartesian o R0 X Y)) (vy (to_cartesian o R0 X Y)) (vz (to_cartesian o R0 X Y)) = (lon, lat, r)) by (rewrite C; exact E).
  pose proof (sin_lat _ _ _ _ _ _ _ HR E') as SL. pose proof (cos_lat _ _ _ _ _ _ _ HR E') as CL. pose proof (delta_pos X Y) as DP.
  assert (W' : 0 < wind_denom o X Y) by (rewrite denom_xy in *; match goal with |- 0 < ?a ^ 2 + ?b ^ 2 => pose proof (pow2_ge_0 a); pose proof (pow2_ge_0 b); lra end).
  assert (cos lat <> 0). { rewrite CL. apply Rgt_not_eq. apply Rdiv_lt_0_compat; [now apply sqrt_lt_R0|assumption]. }
  assert (S : sin lat = sl X Y). { rewrite SL. unfold sl. f_equal. unfold gridrot, zg, n0, n1, n2. ring. }
  assert (WW : forall c, (c = 2 \/ c = 10)%nat -> wind2contra_2d o R0 (cos lat) d d X Y (fst (solid_body_rotation R0 c lat)) (snd (solid_body_rotation R0 c lat)) = (zu1 n0 n1 n2 u0 R0 d X Y, zu2 n0 n1 n2 u0 R0 d X Y)).
  { intros c Hcc. unfold solid_body_rotation. cbn [fst snd]. unfold wind2contra_2d. assert (U : u0_case R0 c = u0) by (destruct Hcc; subst c; reflexivity). rewrite U. unfold zu1, zu2, n0, n1, n2.
    assert (P : 1 + X ^ 2 <> 0) by nra. assert (Q : 1 + Y ^ 2 <> 0) by nra. assert (sqrt (wind_denom o X Y) <> 0) by (apply Rgt_not_eq; now apply sqrt_lt_R0).
    f_equal; field; repeat split; first [assumption|lra]. }
  unfold steady_h, steady_z. destruct Hc as [e|e]; rewrite e; cbv zeta; rewrite WW by auto; cbn [Nat.eqb].
  - unfold height_case2. rewrite S. reflexivity.
  - unfold height_case10, hsurf_case10. rewrite S. reflexivity.
Qed.
Variables (c1 c2 xi1 xi2 : R).
Let XX x := tan (c1 + d / 2 * x).
Let YY y := tan (c2 + d / 2 * y).
Let X := XX xi1.
Let Y := YY xi2.
Hypotheses (H1 : regular (c1 + d / 2 * xi1)) (H2 : regular (c2 + d / 2 * xi2)) (W : wind_denom o X Y <> 0).
Lemma near_1 : locally xi1 (fun x : R => wind_denom o (XX x) Y <> 0).
Proof.
  apply (locally_ne (fun x : R => wind_denom o (XX x) Y)); [|exact W]. assert (ex_derive XX xi1) by (eexists; exact (derive_tan c1 d xi1 H1)).
  unfold wind_denom. auto_derive. repeat split; exact H.
Qed.
Lemma near_2 : locally xi2 (fun y : R => wind_denom o X (YY y) <> 0).
Proof.
  apply (locally_ne (fun y : R => wind_denom o X (YY y))); [|exact W]. assert (ex_derive YY xi2) by (eexists; exact (derive_tan c2 d xi2 H2)).
  unfold wind_denom. auto_derive. repeat split; exact H.
Qed.
Let q x y := initial_sw o R0 Omega d case (XX x) (YY y).
Lemma steady_start : exists dz1 dz2, is_derive (fun x : R => part (q x xi2) 3) xi1 dz1 /\ is_derive (fun y : R => part (q xi1 y) 3) xi2 dz2 /\
  forall v, (v < 3)%nat -> rate
    (fun x y => sw_flux_x1 (sqrtG R0 d d (XX x) (YY y)) (s11 (H_contra R0 d d (XX x) (YY y))) (s12 (H_contra R0 d d (XX x) (YY y))) (part (q x y) 0) (part (q x y) 1) (part (q x y) 2) v)
    (fun x y => sw_flux_x2 (sqrtG R0 d d (XX x) (YY y)) (s12 (H_contra R0 d d (XX x) (YY y))) (s22 (H_contra R0 d d (XX x) (YY y))) (part (q x y) 0) (part (q x y) 1) (part (q x y) 2) v)
    (sqrtG R0 d d X Y) (forcing_at o R0 Omega d X Y (part (q xi1 xi2) 0) (part (q xi1 xi2) 1) (part (q xi1 xi2) 2) dz1 dz2 v) xi1 xi2 0.
Proof.
  pose proof (z_X o steady_z steady_z' steady_zd X Y) as ZX. pose proof (z_Y o steady_z steady_z' steady_zd X Y) as ZY. cbv zeta in ZX, ZY.
  pose proof (derive_tan_comp _ c1 d xi1 _ H1 ZX) as ZX'. pose proof (derive_tan_comp _ c2 d xi2 _ H2 ZY) as ZY'. do 2 eexists. split; [|split].
  - eapply is_derive_ext_loc; [|exact ZX']. apply (filter_imp (fun x : R => wind_denom o (XX x) Y <> 0)); [|exact near_1]. intros x Hx. unfold q. change (YY xi2) with Y. rewrite (start_state (XX x) Y Hx). reflexivity.
  - eapply is_derive_ext_loc; [|exact ZY']. apply (filter_imp (fun y : R => wind_denom o X (YY y) <> 0)); [|exact near_2]. intros y Hy. unfold q. change (XX xi1) with X. rewrite (start_state X (YY y) Hy). reflexivity.
  - intros v Hv. destruct (fluxes o R0 Omega d u0 steady_h steady_h' steady_z' HR Hd steady_hd steady_balance X Y v Hv) as (g1 & g2 & G1 & G2 & E). cbv zeta in G1, G2, E.
    exists (d / 2 * (1 + X ^ 2) * g1), (d / 2 * (1 + Y ^ 2) * g2). split; [|split].
    + eapply is_derive_ext_loc; [|exact (derive_tan_comp _ c1 d xi1 _ H1 G1)]. apply (filter_imp (fun x : R => wind_denom o (XX x) Y <> 0)); [|exact near_1]. intros x Hx. unfold q. change (YY xi2) with Y. rewrite (start_state (XX x) Y Hx). reflexivity.
    + eapply is_derive_ext_loc; [|exact (derive_tan_comp _ c2 d xi2 _ H2 G2)]. apply (filter_imp (fun y : R => wind_denom o X (YY y) <> 0)); [|exact near_2]. intros y Hy. unfold q. change (XX xi1) with X. rewrite (start_state X (YY y) Hy). reflexivity.
    + rewrite E. unfold q. change (XX xi1) with X. change (YY xi2) with Y. rewrite (start_state X Y W). cbn [part]. fold X. fold Y.
      assert (JP : sqrtG R0 d d X Y <> 0). { unfold sqrtG. pose proof (delta_pos X Y) as DP. pose proof (delta2_pos X Y) as DP2. assert (0 < 1 + X ^ 2) by nra. assert (0 < 1 + Y ^ 2) by nra.
        assert (0 < R0 ^ 2) by nra. unfold Rdiv. repeat (apply Rmult_integral_contrapositive_currified); try assumption; try lra; try apply Rinv_neq_0_compat; repeat (apply Rmult_integral_contrapositive_currified); first [assumption|lra]. }
      unfold steady_h', steady_z' in *. match goal with |- 0 = - (- ?j * ?f1) / ?j - ?f2 => change f2 with f1; field; exact JP end.
Qed.
End Start.

(** away from the axis of rotation *)
Lemma off_axis o R0 X Y : vx (to_cartesian o R0 X Y) <> 0 \/ vy (to_cartesian o R0 X Y) <> 0 -> wind_denom o X Y <> 0.
Proof.
  rewrite cartesian_gn, denom_xy. unfold vscal, vx, vy; cbn [fst snd]. intros D E. set (a := fst (fst (gn o X Y))) in *. set (b := snd (fst (gn o X Y))) in *.
  pose proof (pow2_ge_0 a). pose proof (pow2_ge_0 b). assert (a = 0 /\ b = 0) as [A B] by (split; nra). rewrite A, B in D. destruct D as [D|D]; apply D; ring.
Qed.

(** the cosine bell is carried by the wind *)
Lemma bell_periodic t l p : height_case1 t l p = height_case1 0 (l - 2 * PI / (12 * day_in_secs) * t) p.
Proof.
  unfold height_case1. cbv zeta. rewrite Rmult_0_r, Rplus_0_r. pose proof PI_RGT_0. set (w := 2 * PI / (12 * day_in_secs) * t).
  destruct (Rlt_dec (2 * PI) (3 * PI / 2)) as [C|_]; [lra|]. replace (l - w - 3 * PI / 2) with (l - (3 * PI / 2 + w)) by ring.
  destruct (Rlt_dec (2 * PI) (3 * PI / 2 + w)) as [_|_]; [|reflexivity]. replace (l - (3 * PI / 2 + w - 2 * PI)) with (l - (3 * PI / 2 + w) + 2 * PI) by ring. rewrite cos_plus, cos_2PI, sin_2PI.
  replace (cos (l - (3 * PI / 2 + w)) * 1 - sin (l - (3 * PI / 2 + w)) * 0) with (cos (l - (3 * PI / 2 + w))) by ring. reflexivity.
Qed.
Lemma bell_carried R0 t l p : R0 <> 0 -> cos p <> 0 -> height_case1 t (l + fst (solid_body_rotation R0 1 p) / (R0 * cos p) * t) p = height_case1 0 l p.
Proof.
  intros HR N. rewrite bell_periodic. f_equal. unfold solid_body_rotation, u0_case, day_in_secs; cbn [fst Nat.eqb]. field. auto.
Qed.

(** the mountain *)
Lemma mountain_range l p : 0 <= hsurf_case5 l p <= 2000.
Proof.
  unfold hsurf_case5. cbv zeta. pose proof PI_RGT_0. set (rr := PI / 9). assert (0 < rr) by (unfold rr; lra). set (r2 := (l - 3 * PI / 2) ^ 2 + (p - PI / 6) ^ 2). set (m := Rmin (rr ^ 2) r2).
  assert (S : 0 <= sqrt m <= rr). { split; [apply sqrt_pos|]. rewrite <- (sqrt_pow2 rr) by lra. apply sqrt_le_1_alt. apply Rmin_l. }
  assert (0 <= sqrt m / rr <= 1). { split; [apply Rdiv_le_0_compat; lra|]. apply Rmult_le_reg_r with rr; [assumption|]. unfold Rdiv. rewrite Rmult_assoc, Rinv_l; lra. }
  lra.
Qed.
Lemma mountain_foot l p : (PI / 9) ^ 2 <= (l - 3 * PI / 2) ^ 2 + (p - PI / 6) ^ 2 -> hsurf_case5 l p = 0.
Proof.
  intros L. unfold hsurf_case5. cbv zeta. rewrite Rmin_left by assumption. pose proof PI_RGT_0. rewrite sqrt_pow2 by lra. field. lra.
Qed.
Lemma mountain_cone l p : (l - 3 * PI / 2) ^ 2 + (p - PI / 6) ^ 2 <= (PI / 9) ^ 2 -> hsurf_case5 l p = 2000 * (1 - sqrt ((l - 3 * PI / 2) ^ 2 + (p - PI / 6) ^ 2) / (PI / 9)).
Proof. intros L. unfold hsurf_case5. cbv zeta. now rewrite Rmin_right. Qed.
Lemma mountain_balance R0 Omega l p : R0 <> 0 -> cos p <> 0 -> exists d, is_derive (fun p : R => height_case5 R0 Omega l p + hsurf_case5 l p) p d /\
  let u := fst (solid_body_rotation R0 5 p) in gravity * (d / R0) = - (2 * Omega * sin p + u * tan p / R0) * u.
Proof.
  intros HR N. eexists. split.
  - apply is_derive_ext with (fun p : R => (gravity * 5960 - (R0 * Omega * 20 + 1 / 2 * 20 ^ 2) * sin p ^ 2) / gravity). { intros t. unfold height_case5. match goal with |- ?a = ?b => change (@eq R a b) end. ring. }
    auto_derive; [exact I|]. reflexivity.
  - cbv zeta. unfold solid_body_rotation, u0_case, tan; cbn [fst Nat.eqb]. unfold gravity. field. auto.
Qed.

(** on the earth the depth is positive *)
Section Depth.
Let R0 : R := 6371220.
Let Om : R := 729212 / 10000000000.
Lemma PI_4' : 3 < PI <= 4.
Proof. split; [|apply PI_4]. pose proof PI2_3_2. unfold PI2 in *. lra. Qed.
Lemma depth_case2 p : 0 < height_case2 R0 Om p.
Proof.
  unfold height_case2, u0_case; cbn [Nat.eqb]. unfold day_in_secs, gravity, R0, Om. pose proof PI_4'. pose proof (SIN_bound p) as B. set (u := 2 * PI * 6371220 / (12 * 86400)). assert (0 < u <= 50) by (unfold u; lra).
  assert (0 <= sin p ^ 2 <= 1) by nra. apply Rdiv_lt_0_compat; [|lra]. nra.
Qed.
Lemma depth_case5 l p : 0 < height_case5 R0 Om l p.
Proof.
  unfold height_case5. pose proof (mountain_range l p). unfold gravity, R0, Om. pose proof (SIN_bound p) as B. assert (0 <= sin p ^ 2 <= 1) by nra. nra.
Qed.
Lemma depth_case10 p : 0 < height_case10 R0 Om p.
Proof.
  unfold height_case10, u0_case; cbn [Nat.eqb]. unfold day_in_secs, gravity, R0, Om. pose proof PI_4'. pose proof (SIN_bound p) as B. set (u := 2 * PI * 6371220 / (12 * 86400)). assert (0 < u <= 4917 / 100) by (unfold u; lra).
  assert (0 <= sin p ^ 2 <= 1) by nra. apply Rdiv_lt_0_compat; [|lra]. set (s := sin p ^ 2) in *.
  match goal with |- 0 < ?e => replace e with (133671 - 1 / 2 * (u + 6371220 * (729212 / 10000000000)) ^ 2 * s) by (unfold s; field) end.
  assert ((u + 6371220 * (729212 / 10000000000)) ^ 2 <= 264500) by nra. nra.
Qed.
Lemma depth_case6 l p : 0 < height_case6 R0 Om l p.
Proof.
  unfold height_case6. cbv zeta. unfold gravity. pose proof (COS_bound p) as B. pose proof (COS_bound (4 * l)) as B1. pose proof (COS_bound (2 * 4 * l)) as B2. set (a := cos (4 * l)) in *. set (b := cos (2 * 4 * l)) in *.
  set (c := cos p) in *. set (x := c ^ 2). assert (X : 0 <= x <= 1) by (unfold x; nra).
  assert (E4 : c ^ 4 = x ^ 2) by (unfold x; ring). assert (E8 : c ^ (2 * 4) = x ^ 4) by (unfold x; change (2 * 4)%nat with 8%nat; ring). fold x. rewrite E4, E8.
  assert (E : x ^ 4 * (2 * 4 ^ 2 * / x) <= 32). { destruct (Req_dec x 0) as [-> | N]; [replace (0 ^ 4) with 0 by ring; lra|]. replace (x ^ 4 * (2 * 4 ^ 2 * / x)) with (32 * x ^ 3) by (field; exact N). assert (0 <= x ^ 2 <= 1) by nra. nra. }
  set (e := 2 * 4 ^ 2 * / x) in *. unfold omega6, R0, Om. 
  assert (0 <= x ^ 2 <= 1) by nra. assert (0 <= x ^ 4 <= 1) by (replace (x ^ 4) with (x ^ 2 * x ^ 2) by ring; nra).
  assert (P1 : - 26 <= x ^ 2 * (4 ^ 2 + 2 * 4 + 2 - (4 + 1) ^ 2 * x) * a). { assert (0 <= x ^ 2 * (4 ^ 2 + 2 * 4 + 2 - (4 + 1) ^ 2 * x) <= 26) by (split; nra). nra. }
  assert (P2 : - 6 <= x ^ 4 * ((4 + 1) * x - (4 + 2)) * b). { assert (- 6 <= x ^ 4 * ((4 + 1) * x - (4 + 2)) <= 0) by (split; nra). nra. }
  assert (P3 : - 32 <= x ^ 4 * ((4 + 1) * x + (2 * 4 ^ 2 - 4 - 2) - e)) by nra.
  match goal with |- 0 < 8000 + (?r * (?k1 * x + ?k2 * ?y1 * ?z1) + ?r * (?k3 * ?y2 * ?z2) * a + ?r * (?k4 * ?y1 * ?z3) * b) / ?g =>
    replace (r * (k1 * x + k2 * y1 * z1) + r * (k3 * y2 * z2) * a + r * (k4 * y1 * z3) * b) with (r * k1 * x + r * k2 * (y1 * z1) + r * k3 * (y2 * z2 * a) + r * k4 * (y1 * z3 * b)) by ring end.
  set (m1 := x ^ 4 * ((4 + 1) * x + (2 * 4 ^ 2 - 4 - 2) - e)) in *. set (m2 := x ^ 2 * (4 ^ 2 + 2 * 4 + 2 - (4 + 1) ^ 2 * x) * a) in *. set (m3 := x ^ 4 * ((4 + 1) * x - (4 + 2)) * b) in *. lra.
Qed.
End Depth.

Lemma depth_positive : forall o dx X Y case, List.In case (2 :: 5 :: 6 :: 10 :: nil)%nat ->
  exists h u1 u2 z, initial_sw o 6371220 (729212 / 10000000000) dx case X Y = Some (h, h * u1, h * u2, z) /\ 0 < h /\ 0 <= z.
Proof.
  intros o dx X Y case I. unfold initial_sw. destruct (to_cartesian o 6371220 X Y) as [[x y] z]. destruct (cart2sph x y z) as [[lon lat] r]. cbv zeta.
  destruct I as [<- |[<- |[<- |[<- |[]]]]].
  - destruct (wind2contra_2d _ _ _ _ _ _ _ _ _) as [u1 u2]. do 4 eexists. split; [reflexivity|]. split; [apply depth_case2|lra].
  - destruct (wind2contra_2d _ _ _ _ _ _ _ _ _) as [u1 u2]. do 4 eexists. split; [reflexivity|]. split; [apply depth_case5|apply mountain_range].
  - destruct (wind2contra_2d _ _ _ _ _ _ _ _ _) as [u1 u2]. do 4 eexists. split; [reflexivity|]. split; [apply depth_case6|lra].
  - destruct (wind2contra_2d _ _ _ _ _ _ _ _ _) as [u1 u2]. do 4 eexists. split; [reflexivity|]. split; [apply depth_case10|].
    unfold hsurf_case10. apply Rdiv_le_0_compat; [|unfold gravity; lra]. match goal with |- 0 <= 1 / 2 * ?a ^ 2 + 10 => pose proof (pow2_ge_0 a); lra end.
Qed.
Lemma bell_transport : forall R0 time lon lat, R0 <> 0 -> cos lat <> 0 -> let (u, v) := solid_body_rotation R0 1 lat in
  v = 0 /\ height_case1 time (lon + u / (R0 * cos lat) * time) lat = height_case1 0 lon lat /\ height_case1 (12 * 86400) lon lat = height_case1 0 lon lat.
Proof.
  intros R0 t l p HR N. pose proof (bell_carried R0 t l p HR N) as B. unfold solid_body_rotation in *; cbn [fst] in B. split; [reflexivity|]. split; [exact B|].
  rewrite bell_periodic. unfold day_in_secs. replace (l - 2 * PI / (12 * 86400) * (12 * 86400)) with (l - 2 * PI) by field.
  unfold height_case1. cbv zeta. set (lc := if Rlt_dec _ _ then _ else _). replace (l - 2 * PI - lc) with (l - lc - 2 * PI) by ring.
  replace (cos (l - lc - 2 * PI)) with (cos (l - lc)) by (rewrite (cos_minus (l - lc)), cos_2PI, sin_2PI; ring). reflexivity.
Qed.
Lemma bell_values : height_case1 0 (3 * PI / 2) 0 = 1000 /\ height_case1 0 (PI / 2) 0 = 0.
Proof.
  unfold height_case1. cbv zeta. rewrite Rmult_0_r, Rplus_0_r. pose proof PI_4' as B. destruct (Rlt_dec (2 * PI) (3 * PI / 2)) as [C|_]; [lra|]. rewrite sin_0, cos_0. split.
  - replace (3 * PI / 2 - 3 * PI / 2) with 0 by ring. rewrite cos_0. replace (0 * 0 + 1 * 1 * 1) with 1 by ring. rewrite acos_1. destruct (Rle_dec 0 (1 / 3)) as [_|N]; [|lra]. replace (PI * 0 / (1 / 3)) with 0 by field. rewrite cos_0. field.
  - replace (PI / 2 - 3 * PI / 2) with (- PI) by field. rewrite cos_neg, cos_PI. replace (0 * 0 + 1 * 1 * -1) with (- (1)) by ring. rewrite acos_opp, acos_1. destruct (Rle_dec (PI - 0) (1 / 3)) as [N|_]; [lra|]. ring.
Qed.
Lemma mountain_start : forall R0 Omega lon lat, R0 <> 0 -> cos lat <> 0 ->
  let r2 := (lon - 3 * PI / 2) ^ 2 + (lat - PI / 6) ^ 2 in
  (0 <= hsurf_case5 lon lat <= 2000 /\ ((PI / 9) ^ 2 <= r2 -> hsurf_case5 lon lat = 0) /\ (r2 <= (PI / 9) ^ 2 -> hsurf_case5 lon lat = 2000 * (1 - sqrt r2 / (PI / 9)))) /\
  let (u, v) := solid_body_rotation R0 5 lat in v = 0 /\ u = 20 * cos lat /\
  exists d, is_derive (fun p : R => height_case5 R0 Omega lon p + hsurf_case5 lon p) lat d /\ gravity * (d / R0) = - (2 * Omega * sin lat + u * tan lat / R0) * u.
Proof.
  intros R0 Omega l p HR N. cbv zeta. split; [exact (conj (mountain_range l p) (conj (mountain_foot l p) (mountain_cone l p)))|]. pose proof (mountain_balance R0 Omega l p HR N) as M. unfold solid_body_rotation in *; cbn [fst] in M.
  split; [reflexivity|]. split; [reflexivity|exact M].
Qed.
Lemma mountain_values : hsurf_case5 (3 * PI / 2) (PI / 6) = 2000 /\ hsurf_case5 0 0 = 0.
Proof.
  pose proof PI_RGT_0. split; [|apply mountain_foot; nra]. rewrite mountain_cone; [|nra]. replace ((3 * PI / 2 - 3 * PI / 2) ^ 2 + (PI / 6 - PI / 6) ^ 2) with 0 by ring. rewrite sqrt_0. field. lra.
Qed.
Lemma forcing_same : forall k N ns pts R0 (q : BinNums.Z -> nat -> nat -> nat -> nat -> R) Omega rot dz1 dz2 r v row col p,
  forcing k N ns pts R0 q Omega rot dz1 dz2 r v row col p =
  forcing_at (rot r) R0 Omega (dx k N) (X_pt k N ns pts r row col p) (Y_pt k N ns pts r row col p) (q r 0%nat row col p) (q r 1%nat row col p) (q r 2%nat row col p) (dz1 r row col p) (dz2 r row col p) v.
Proof. reflexivity. Qed.
Lemma steady_case : let o := {| lon_p := 0; lat_p := 0; angle_p := 0 |} in let R0 : R := 6371220 in let dx := PI / 8 in
  regular (PI / 16 + dx / 2 * 0) /\ regular (PI / 16 + dx / 2 * 0) /\ vx (place o R0 (PI / 16) (PI / 16) dx dx 0 0) <> 0 /\
  exists h u1 u2 z, initial_sw o R0 (1 / 10000) dx 2 (tan (PI / 16 + dx / 2 * 0)) (tan (PI / 16 + dx / 2 * 0)) = Some (h, h * u1, h * u2, z) /\ u1 <> 0.
Proof.
  cbv zeta. pose proof PI_RGT_0. replace (PI / 16 + PI / 8 / 2 * 0) with (PI / 16) by field. assert (C : cos (PI / 16) <> 0) by (apply Rgt_not_eq, cos_gt_0; lra). split; [exact C|]. split; [exact C|].
  set (o := {| lon_p := 0; lat_p := 0; angle_p := 0 |}). assert (V : vx (place o 6371220 (PI / 16) (PI / 16) (PI / 8) (PI / 8) 0 0) <> 0).
  { unfold place. replace (PI / 16 + PI / 8 / 2 * 0) with (PI / 16) by field. unfold to_cartesian, o, vx; cbn [fst lon_p lat_p angle_p]. rewrite sin_0, cos_0. set (t := tan (PI / 16)).
    assert (S : 0 < sqrt (1 + t ^ 2 + t ^ 2)) by (apply sqrt_lt_R0; nra). apply Rgt_not_eq. replace (6371220 / sqrt (1 + t ^ 2 + t ^ 2) * (1 * 1 + t * (1 * 0 * 0 - 0 * 1) - t * (1 * 0 * 1 + 0 * 0))) with (6371220 / sqrt (1 + t ^ 2 + t ^ 2)) by ring. apply Rdiv_lt_0_compat; lra. }
  split; [exact V|]. assert (W : wind_denom o (tan (PI / 16)) (tan (PI / 16)) <> 0). { apply (off_axis o 6371220). left. unfold place in V. replace (PI / 16 + PI / 8 / 2 * 0) with (PI / 16) in V by field. exact V. }
  rewrite (start_state o 6371220 (1 / 10000) (PI / 8) 2 ltac:(lra) ltac:(lra) (or_introl eq_refl) _ _ W). cbv zeta. do 4 eexists. split; [reflexivity|].
  unfold zu1, o; cbn [lat_p angle_p]. rewrite sin_0, cos_0. unfold day_in_secs. set (t := tan (PI / 16)). assert (0 < 1 + t ^ 2) by nra. apply Rgt_not_eq.
  match goal with |- ?a > 0 => replace a with (16 / (12 * 86400) * 2) by (field; split; lra) end. lra.
Qed.
