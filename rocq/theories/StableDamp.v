From Coq Require Import Reals Lra Psatz.
From Coquelicot Require Import Coquelicot.
From Verif Require Import StepModel StableModel StableSpec StableOrder.
Local Open Scope R_scope.

Lemma plane_scal (a : R) (u : C) : scal (V := plane) a u = Cmult (RtoC a) u.
Proof. destruct u as [x y]. unfold scal, Cmult. cbn. unfold mult. cbn. apply injective_projections; cbn; ring. Qed.
Lemma plane_plus (u v : C) : plus (G := ModuleSpace.AbelianGroup R_Ring plane) u v = Cplus u v. Proof. reflexivity. Qed.
Lemma plane_minus (u v : C) : minus (G := ModuleSpace.AbelianGroup R_Ring plane) u v = Cminus u v. Proof. reflexivity. Qed.
Lemma plane_inner : inner_product (V := plane) plane_ip.
Proof.
  unfold plane_ip. repeat split.
  - intros [a b] [c d] [e g]. cbn. unfold plus. cbn. ring.
  - intros a [b c] [d e]. cbn. unfold scal. cbn. unfold mult. cbn. ring.
  - intros [a b] [c d]. cbn. ring.
  - intros [a b]. cbn. nra.
Qed.
Lemma test_dissipative lam : Re lam <= 0 -> dissipative (V := plane) plane_ip (test_rhs lam).
Proof.
  intros H [a b] [c d]. destruct lam as [x y]. unfold plane_ip, test_rhs. cbn in *. unfold minus, plus, opp. cbn. unfold plus, opp. cbn.
  assert (K : forall a b c d x y : R, x <= 0 -> (x * a - y * b + - (x * c - y * d)) * (a + - c) + (x * b + y * a + - (x * d + y * c)) * (b + - d) <= 0).
  { clear. intros a b c d x y H. replace ((x * a - y * b + - (x * c - y * d)) * (a + - c) + (x * b + y * a + - (x * d + y * c)) * (b + - d)) with (x * ((a - c) * (a - c) + (b - d) * (b - d))) by ring. pose proof (Rle_0_sqr (a - c)). pose proof (Rle_0_sqr (b - d)). unfold Rsqr in *. nra. }
  now apply K.
Qed.
Lemma test_linear lam : affine_map (V := plane) (test_rhs lam).
Proof.
  exists (test_rhs lam), zero. split; [split|].
  - intros x y. exact (Cmult_plus_distr_l lam x y).
  - intros a x. unfold test_rhs. rewrite !plane_scal. match goal with |- @eq _ ?l ?r => change (@eq C l r) end. ring.
  - intro x. symmetry. apply (plus_zero_r (G := ModuleSpace.AbelianGroup R_Ring plane)).
Qed.

Lemma cmod_le (u v : C) : Re u * Re u + Im u * Im u <= Re v * Re v + Im v * Im v -> Cmod u <= Cmod v.
Proof. intro H. unfold Cmod. apply sqrt_le_1_alt. unfold Re, Im in H. cbn. lra. Qed.
(** 1 - g z for z in the left half plane *)
Lemma far (g : R) (z : C) : 0 <= g -> Re z <= 0 -> g * Cmod z <= Cmod (1 - RtoC g * z)%C.
Proof.
  intros Hg Hz. rewrite <- (Rabs_pos_eq g) at 1 by trivial. rewrite <- Cmod_R, <- Cmod_mult. apply cmod_le. destruct z as [x y]. cbn in *. nra.
Qed.
Lemma be_zero lam Q dt (u : C) : dt <> 0 -> be_fun (V := plane) (test_rhs lam) Q dt u = zero -> ((1 - RtoC dt * lam) * u = Q)%C.
Proof.
  intros Hn E. unfold be_fun, test_rhs in E. rewrite plane_scal in E. change (RtoC (/ dt) * (u - Q) - lam * u = RtoC 0)%C in E.
  assert (N : RtoC dt <> 0%C) by (intro K; apply Hn; now injection K).
  transitivity (Q + RtoC dt * (RtoC (/ dt) * (u - Q) - lam * u))%C; [rewrite RtoC_inv by trivial; field; trivial|]. rewrite E. ring.
Qed.
Lemma be_damps newton lam (Q : plane) dt : Re lam <= 0 -> 0 < dt -> solved newton (be_fun (V := plane) (test_rhs lam) Q dt) Q ->
  dt * Cmod lam * Cmod (backward_euler (V := plane) newton (test_rhs lam) Q dt) <= Cmod Q.
Proof.
  intros Hl Hdt H. apply be_zero in H; [|lra]. unfold backward_euler. set (u := newton _ Q) in *. rewrite <- H, Cmod_mult. apply Rmult_le_compat_r; [apply Cmod_ge_0|].
  assert (Hz : Re (RtoC dt * lam)%C <= 0) by (destruct lam; cbn in *; nra). pose proof (far 1 (RtoC dt * lam)%C ltac:(lra) Hz) as F.
  replace (RtoC 1 * (RtoC dt * lam))%C with (RtoC dt * lam)%C in F by ring. rewrite Rmult_1_l, Cmod_mult, Cmod_R, Rabs_pos_eq in F by lra. trivial.
Qed.
Lemma cn_zero lam Q dt (u : C) : dt <> 0 -> cn_fun (V := plane) (test_rhs lam) Q dt u = zero -> ((1 - RtoC (dt / 2) * lam) * u = (1 + RtoC (dt / 2) * lam) * Q)%C.
Proof.
  intros Hn E. unfold cn_fun, test_rhs in E. rewrite !plane_scal in E. change (RtoC (/ dt) * (u - Q) - RtoC (1 / 2) * (lam * u + lam * Q) = RtoC 0)%C in E.
  assert (N : RtoC dt <> 0%C) by (intro K; apply Hn; now injection K).
  transitivity ((1 + RtoC (dt / 2) * lam) * Q + RtoC dt * (RtoC (/ dt) * (u - Q) - RtoC (1 / 2) * (lam * u + lam * Q)))%C; [|rewrite E; ring].
  replace (RtoC (dt / 2)) with (RtoC dt * RtoC (1 / 2))%C by (rewrite <- RtoC_mult; f_equal; field). rewrite RtoC_inv by trivial. field. trivial.
Qed.
(** the trapezoidal rule only changes the sign of a fast decaying mode *)
Lemma cn_rings newton lam (Q : plane) dt : Re lam <= 0 -> 0 < dt -> solved newton (cn_fun (V := plane) (test_rhs lam) Q dt) Q ->
  dt * Cmod lam * Cmod (Cplus (crank_nicolson (V := plane) newton (test_rhs lam) Q dt) Q) <= 4 * Cmod Q.
Proof.
  intros Hl Hdt H. apply cn_zero in H; [|lra]. unfold crank_nicolson. set (u := newton _ Q) in *.
  assert (E : ((1 - RtoC (dt / 2) * lam) * (u + Q) = RtoC 2 * Q)%C) by (transitivity ((1 - RtoC (dt / 2) * lam) * u + (1 - RtoC (dt / 2) * lam) * Q)%C; [ring|rewrite H; change (RtoC 2) with (RtoC (1 + 1)); rewrite RtoC_plus; ring]).
  assert (F := far (dt / 2) lam ltac:(lra) Hl). apply (f_equal Cmod) in E. rewrite !Cmod_mult, Cmod_R, Rabs_pos_eq in E by lra.
  pose proof (Cmod_ge_0 (u + Q)%C) as P. assert (dt / 2 * Cmod lam * Cmod (u + Q)%C <= 2 * Cmod Q) by (rewrite <- E; now apply Rmult_le_compat_r). change (@Cplus u Q) with (u + Q)%C. lra.
Qed.
Lemma sdirk_zero lam Q dt (u v : C) : dt <> 0 -> sdirk_fun1 (V := plane) (test_rhs lam) Q dt u = zero -> sdirk_fun2 (V := plane) (test_rhs lam) Q u dt v = zero ->
  let z := (RtoC dt * lam)%C in let g := RtoC sdirk_param in ((1 - g * z) * u = Q /\ (1 - g * z) * v = Q + (1 - RtoC 2 * g) * z * u)%C.
Proof.
  intros Hn E1 E2 z g. unfold sdirk_fun1, sdirk_fun2, test_rhs in *. rewrite !plane_scal in E1. rewrite !(plane_scal (/ dt)), (plane_scal (1 - 2 * sdirk_param)), (plane_scal sdirk_param) in E2. change (RtoC (/ dt) * (u - Q) - g * (lam * u) = RtoC 0)%C in E1. change (RtoC (/ dt) * (v - Q) - RtoC (1 - 2 * sdirk_param) * (lam * u) - g * (lam * v) = RtoC 0)%C in E2.
  assert (N : RtoC dt <> 0%C) by (intro K; apply Hn; now injection K).
  assert (G : RtoC (1 - 2 * sdirk_param) = (1 - RtoC 2 * g)%C) by (rewrite RtoC_minus, RtoC_mult; reflexivity). rewrite G in E2. rewrite RtoC_inv in E1, E2 by trivial. split.
  - transitivity (Q + RtoC dt * (/ RtoC dt * (u - Q) - g * (lam * u)))%C; [unfold z; field; trivial|]. rewrite E1. ring.
  - transitivity (Q + (1 - RtoC 2 * g) * z * u + RtoC dt * (/ RtoC dt * (v - Q) - (1 - RtoC 2 * g) * (lam * u) - g * (lam * v)))%C; [unfold z; field; trivial|]. rewrite E2. ring.
Qed.
Lemma sdirk_damps newton lam (Q : plane) dt : Re lam <= 0 -> 0 < dt -> solved newton (sdirk_fun1 (V := plane) (test_rhs lam) Q dt) Q ->
  solved newton (sdirk_fun2 (V := plane) (test_rhs lam) Q (newton (sdirk_fun1 (V := plane) (test_rhs lam) Q dt) Q) dt) Q ->
  dt * Cmod lam * Cmod (sdirk (V := plane) newton (test_rhs lam) Q dt) <= Cmod Q.
Proof.
  intros Hl Hdt H1 H2. unfold sdirk, solved in *. set (u := newton (sdirk_fun1 (V := plane) (test_rhs lam) Q dt) Q) in *. set (v := newton (sdirk_fun2 (V := plane) (test_rhs lam) Q u dt) Q) in *.
  destruct (sdirk_zero lam Q dt u v ltac:(lra) H1 H2) as [E1 E2]. cbv zeta in E1, E2. clear H1 H2. destruct sdirk_bounds as [[G1 G2] G3].
  set (z := (RtoC dt * lam)%C) in *. set (g := RtoC sdirk_param) in *.
  set (w := plus Q _). assert (Ew : w = (Q + RtoC (1 / 2) * z * (u + v))%C).
  { unfold w. rewrite !plane_scal. unfold test_rhs, z. match goal with |- @eq _ ?l ?r => change (@eq C (Q + RtoC dt * (RtoC (1 / 2) * (lam * u) + RtoC (1 / 2) * (lam * v)))%C r) end. ring. }
  assert (Gc : (RtoC 2 * (g * g) = RtoC 4 * g - 1)%C) by (unfold g; rewrite <- !RtoC_mult, <- RtoC_minus; f_equal; exact G3).
  assert (Hh : (RtoC 2 * RtoC (1 / 2) = 1)%C) by (rewrite <- RtoC_mult; f_equal; field).
  assert (H4 : RtoC 4 = (RtoC 2 * RtoC 2)%C) by (rewrite <- RtoC_mult; f_equal; ring). assert (H2 : RtoC 2 = (1 + 1)%C) by (rewrite <- RtoC_plus; reflexivity).
  assert (K : ((1 - g * z) * ((1 - g * z) * w) = (1 + (1 - RtoC 2 * g) * z) * Q)%C).
  { transitivity ((1 - g * z) * ((1 - g * z) * Q) + RtoC (1 / 2) * z * ((1 - g * z) * ((1 - g * z) * u) + (1 - g * z) * ((1 - g * z) * v)))%C; [rewrite Ew; ring|].
    rewrite E2. replace ((1 - g * z) * (Q + (1 - RtoC 2 * g) * z * u))%C with ((1 - g * z) * Q + (1 - RtoC 2 * g) * z * ((1 - g * z) * u))%C by ring. rewrite E1.
    transitivity (Q * (1 - RtoC 2 * g * z + g * g * (z * z) + RtoC (1 / 2) * z * (RtoC 2 - RtoC 2 * g * z + (1 - RtoC 2 * g) * z)))%C; [rewrite H2; ring|].
    transitivity (Q * (1 + (1 - RtoC 2 * g) * z + (RtoC 2 * RtoC (1 / 2) - 1) * z + RtoC (1 / 2) * (z * z) * (RtoC 2 * (g * g) - RtoC 4 * g + 1) + (1 - RtoC 2 * RtoC (1 / 2)) * (g * g) * (z * z)))%C; [rewrite H4, H2; ring|].
    rewrite Gc, Hh. ring. }
  assert (Hz : Re z <= 0) by (unfold z; destruct lam; cbn in *; nra). pose proof (far sdirk_param z ltac:(lra) Hz) as F. fold g in F.
  apply (f_equal Cmod) in K. rewrite !Cmod_mult in K.
  assert (B : Cmod (1 + (1 - RtoC 2 * g) * z)%C <= sdirk_param * Cmod (1 - g * z)%C).
  { rewrite <- (Rabs_pos_eq sdirk_param), <- Cmod_R, <- Cmod_mult by lra. apply cmod_le. unfold g. destruct z as [x y]. cbn in *. set (c := sdirk_param) in *.
    assert (Y : (2 * c - 1) * (2 * c - 1) <= (c * c) * (c * c)) by nra. assert (X : 0 <= 1 - (2 * c - 1) * x <= c * (1 - c * x)) by (split; nra).
    assert (0 <= y * y) by nra. assert (((2 * c - 1) * (2 * c - 1)) * (y * y) <= ((c * c) * (c * c)) * (y * y)) by (apply Rmult_le_compat_r; trivial). nra. }
  set (a := Cmod (1 - g * z)%C) in *. change (Cmod w) with (Cmod (w : C)). pose proof (Cmod_ge_0 w) as Pw. pose proof (Cmod_ge_0 Q) as PQ. pose proof (Cmod_ge_0 z) as Pz.
  assert (Ez : Cmod z = dt * Cmod lam) by (unfold z; rewrite Cmod_mult, Cmod_R, Rabs_pos_eq; lra). rewrite <- Ez. clearbody a w z. clear E1 E2 Ew Ez.
  assert (Pa : 0 <= a) by (eapply Rle_trans; [|exact F]; apply Rmult_le_pos; lra).
  assert (I : a * (a * Cmod w) <= sdirk_param * a * Cmod Q) by (rewrite K; apply Rmult_le_compat_r; trivial).
  destruct (Req_dec a 0) as [Ea|Ea].
  - assert (Cmod z = 0) by nra. rewrite H. lra.
  - assert (a * Cmod w <= sdirk_param * Cmod Q) by (apply (Rmult_le_reg_l a); lra). assert (sdirk_param * (Cmod z * Cmod w) <= sdirk_param * Cmod Q).
    { eapply Rle_trans; [|exact H]. rewrite <- Rmult_assoc. now apply Rmult_le_compat_r. }
    apply (Rmult_le_reg_l sdirk_param); lra.
Qed.
Lemma damping newton lam (Q : plane) dt : Re lam <= 0 -> 0 < dt ->
  (solved newton (be_fun (V := plane) (test_rhs lam) Q dt) Q -> dt * Cmod lam * Cmod (backward_euler (V := plane) newton (test_rhs lam) Q dt) <= Cmod Q)
  /\ (solved newton (sdirk_fun1 (V := plane) (test_rhs lam) Q dt) Q -> solved newton (sdirk_fun2 (V := plane) (test_rhs lam) Q (newton (sdirk_fun1 (V := plane) (test_rhs lam) Q dt) Q) dt) Q ->
      dt * Cmod lam * Cmod (sdirk (V := plane) newton (test_rhs lam) Q dt) <= Cmod Q)
  /\ (solved newton (cn_fun (V := plane) (test_rhs lam) Q dt) Q -> dt * Cmod lam * Cmod (Cplus (crank_nicolson (V := plane) newton (test_rhs lam) Q dt) Q) <= 4 * Cmod Q).
Proof. intros H1 H2. split; [|split]; intros; [now apply be_damps|now apply sdirk_damps|now apply cn_rings]. Qed.
Lemma tvd_case : convex (V := R_ModuleSpace) Rabs /\ forall h Q, 0 <= h <= 2 -> Rabs (euler1 (V := R_ModuleSpace) Ropp Q h) <= Rabs Q.
Proof.
  split.
  - intros a x y Ha. change (Rabs (a * x + (1 - a) * y) <= a * Rabs x + (1 - a) * Rabs y). eapply Rle_trans; [apply Rabs_triang|]. rewrite !Rabs_mult, (Rabs_pos_eq a), (Rabs_pos_eq (1 - a)) by lra. lra.
  - intros h Q Hh. change (Rabs (Q + h * - Q) <= Rabs Q). replace (Q + h * - Q) with ((1 - h) * Q) by ring. rewrite Rabs_mult. pose proof (Rabs_pos Q). assert (Rabs (1 - h) <= 1) by (apply Rabs_le; lra). nra.
Qed.
