From Coq Require Import Reals Lra Lia List.
From Coquelicot Require Import Coquelicot.
From Verif Require Import ModSolve StepModel StableModel StableSpec.
Local Open Scope R_scope.

Section Inner.
Context {V : ModuleSpace R_Ring}.
Variable ip : V -> V -> R.
Hypothesis Hip : inner_product ip.
Lemma ip_pl x y z : ip (plus x y) z = ip x z + ip y z. Proof. apply Hip. Qed.
Lemma ip_sl a x z : ip (scal (V := V) a x) z = a * ip x z. Proof. apply (proj1 (proj2 Hip)). Qed.
Lemma ip_sym x y : ip x y = ip y x. Proof. apply Hip. Qed.
Lemma ip_pos x : 0 <= ip x x. Proof. apply Hip. Qed.
Lemma ip_pr x y z : ip z (plus x y) = ip z x + ip z y. Proof. rewrite ip_sym, ip_pl, (ip_sym x), (ip_sym y). reflexivity. Qed.
Lemma ip_sr a x z : ip z (scal (V := V) a x) = a * ip z x. Proof. rewrite ip_sym, ip_sl, (ip_sym x). reflexivity. Qed.
Lemma opp_scal (x : V) : opp x = scal (V := V) (-1) x. Proof. modsolve V. Qed.
Lemma ip_ml x y z : ip (minus x y) z = ip x z - ip y z. Proof. unfold minus. rewrite opp_scal, ip_pl, ip_sl. ring. Qed.
Lemma ip_mr x y z : ip z (minus x y) = ip z x - ip z y. Proof. rewrite ip_sym, ip_ml, (ip_sym x), (ip_sym y). reflexivity. Qed.
Lemma ip_0l z : ip zero z = 0. Proof. replace (zero : V) with (scal (V := V) 0 (zero : V)) by modsolve V. rewrite ip_sl. ring. Qed.
Lemma size_pos x : 0 <= size ip x. Proof. apply sqrt_pos. Qed.
Lemma size_sq x : size ip x * size ip x = ip x x. Proof. apply sqrt_sqrt, ip_pos. Qed.
Lemma cauchy x y : ip x y <= size ip x * size ip y.
Proof.
  pose proof (size_pos x) as Px. pose proof (size_pos y) as Py. pose proof (size_sq x) as Sx. pose proof (size_sq y) as Sy.
  destruct (Rle_lt_dec (ip x y) 0) as [H|H]; [pose proof (Rmult_le_pos _ _ Px Py); lra|].
  pose proof (ip_pos (minus (scal (V := V) (ip y y) x) (scal (V := V) (ip x y) y))) as P1. rewrite ip_ml, !ip_mr, !ip_sl, !ip_sr, (ip_sym y x) in P1.
  assert (Q : 0 <= ip y y * (ip x x * ip y y - ip x y * ip x y)) by (eapply Rle_trans; [exact P1|right; ring]). clear P1.
  destruct (Req_dec (ip y y) 0) as [E|E].
  - exfalso. pose proof (ip_pos (minus x (scal (V := V) ((ip x x + 1) / (2 * ip x y)) y))) as P2. rewrite ip_ml, !ip_mr, !ip_sl, !ip_sr, (ip_sym y x), E in P2.
    assert (Z : (ip x x + 1) / (2 * ip x y) * ip x y = (ip x x + 1) / 2) by (field; lra). rewrite Z in P2. pose proof (ip_pos x). lra.
  - pose proof (ip_pos y) as Pyy. assert (G : 0 <= ip x x * ip y y - ip x y * ip x y).
    { destruct (Rle_lt_dec 0 (ip x x * ip y y - ip x y * ip x y)) as [|N]; trivial. exfalso. assert (0 < ip y y) by lra. nra. }
    rewrite <- Sx, <- Sy in G. set (a := size ip x) in *. set (b := size ip y) in *. assert (ip x y * ip x y <= (a * b) * (a * b)) by nra. pose proof (Rmult_le_pos _ _ Px Py). nra.
Qed.
Lemma size_le x y : ip x x <= ip y y -> size ip x <= size ip y. Proof. apply sqrt_le_1_alt. Qed.
Lemma size_tri x y : size ip (plus x y) <= size ip x + size ip y.
Proof.
  pose proof (size_pos x). pose proof (size_pos y). pose proof (size_pos (plus x y)). pose proof (size_sq x). pose proof (size_sq y). pose proof (size_sq (plus x y)) as S.
  rewrite ip_pl, !ip_pr, (ip_sym y x) in S. pose proof (cauchy x y). nra.
Qed.
Lemma size_minus x y : size ip (minus x y) <= size ip x + size ip y.
Proof.
  eapply Rle_trans; [apply (size_tri x (opp y))|]. apply Rplus_le_compat_l. apply size_le. rewrite opp_scal, ip_sl, ip_sr. lra.
Qed.
Lemma zero_diff (a b : V) : minus a b = zero -> a = b.
Proof. intro H. rewrite <- (plus_zero_l b), <- H. modsolve V. Qed.

Variable (f : V -> V).
(** backward Euler *)
Lemma be_form Q Qp dt : dt <> 0 -> Qp = plus Q (scal (V := V) dt (plus (f Qp) (be_fun f Q dt Qp))).
Proof. intro H. unfold be_fun. modsolve V; field; trivial. Qed.
Lemma be_stable newton Q Q' dt mu e e' : 0 <= mu -> damped ip mu f -> 0 < dt -> nearly_solved ip e newton (be_fun f Q dt) Q -> nearly_solved ip e' newton (be_fun f Q' dt) Q' ->
  (1 + mu * dt) * size ip (minus (backward_euler newton f Q dt) (backward_euler newton f Q' dt)) <= size ip (minus Q Q') + dt * (e + e').
Proof.
  intros Hmu D Hdt H H'. unfold backward_euler, nearly_solved in *. set (u := newton _ Q) in *. set (u' := newton _ Q') in *.
  pose proof (be_form Q u dt ltac:(lra)) as E. pose proof (be_form Q' u' dt ltac:(lra)) as E'. set (r := be_fun f Q dt u) in *. set (r' := be_fun f Q' dt u') in *.
  specialize (D u u'). set (d := minus u u') in *. set (k := minus (f u) (f u')) in *.
  assert (Ed : d = plus (minus Q Q') (scal (V := V) dt (plus k (minus r r')))) by (unfold d, k; rewrite E at 1; rewrite E' at 1; modsolve V).
  assert (Edd : ip d d = ip (minus Q Q') d + dt * (ip k d + ip (minus r r') d)) by (rewrite Ed at 1; rewrite ip_pl, ip_sl, ip_pl; reflexivity).
  pose proof (cauchy (minus Q Q') d) as C1. pose proof (cauchy (minus r r') d) as C2. pose proof (size_minus r r') as C3. pose proof (size_sq d) as S. pose proof (size_pos d) as Pd. pose proof (size_pos (minus Q Q')) as Pq. pose proof (size_pos (minus r r')) as Pr.
  set (a := size ip d) in *. set (b := size ip (minus Q Q')) in *. set (c := size ip (minus r r')) in *.
  rewrite <- S in D. assert (K1 : dt * ip k d <= dt * (- mu * (a * a))) by (apply Rmult_le_compat_l; lra). assert (K2 : dt * ip (minus r r') d <= dt * (c * a)) by (apply Rmult_le_compat_l; lra).
  assert (K3 : a * ((1 + mu * dt) * a) <= a * (b + dt * c)) by (rewrite <- S in Edd; lra).
  assert (K4 : dt * c <= dt * (e + e')) by (apply Rmult_le_compat_l; lra).
  assert (0 <= dt * c) by (apply Rmult_le_pos; lra).
  destruct (Req_dec a 0) as [->|Na]; [lra|]. apply Rmult_le_reg_l in K3; lra.
Qed.
(** Crank-Nicolson *)
Lemma cn_form Q Qp dt : dt <> 0 -> cn_fun f Q dt Qp = zero -> minus Qp (scal (V := V) (dt / 2) (f Qp)) = plus Q (scal (V := V) (dt / 2) (f Q)).
Proof.
  intros H E. apply zero_diff. transitivity (scal (V := V) dt (cn_fun f Q dt Qp)); [unfold cn_fun; modsolve V; field; trivial|]. rewrite E. modsolve V.
Qed.
Lemma cn_ahead dt u v : dissipative ip f -> 0 <= dt ->
  let m x := minus x (scal (V := V) (dt / 2) (f x)) in let p x := plus x (scal (V := V) (dt / 2) (f x)) in
  size ip (minus (p u) (p v)) <= size ip (minus (m u) (m v)) /\ size ip (minus u v) <= size ip (minus (m u) (m v)).
Proof.
  intros D Hdt m p. specialize (D u v). set (d := minus u v) in *. set (k := minus (f u) (f v)) in *.
  assert (Ep : minus (p u) (p v) = plus d (scal (V := V) (dt / 2) k)) by (unfold p, d, k; modsolve V). assert (Em : minus (m u) (m v) = minus d (scal (V := V) (dt / 2) k)) by (unfold m, d, k; modsolve V).
  rewrite Ep, Em. pose proof (ip_pos k) as Pk. assert (K : dt * ip k d <= 0) by (rewrite <- (Rmult_0_r dt); apply Rmult_le_compat_l; lra).
  assert (0 <= dt * dt * ip k k) by (apply Rmult_le_pos; nra).
  split; apply size_le; rewrite ?ip_ml, ?ip_pl, ?ip_mr, ?ip_pr, ?ip_sl, ?ip_sr, (ip_sym d k); lra.
Qed.
Lemma cn_stable newton Q Q' dt : dissipative ip f -> 0 < dt -> solved newton (cn_fun f Q dt) Q -> solved newton (cn_fun f Q' dt) Q' ->
  let m x := minus x (scal (V := V) (dt / 2) (f x)) in let u := crank_nicolson newton f Q dt in let u' := crank_nicolson newton f Q' dt in
  size ip (minus (m u) (m u')) <= size ip (minus (m Q) (m Q')) /\ size ip (minus u u') <= size ip (minus (m u) (m u')).
Proof.
  intros D Hdt H H' m u u'. assert (Hn : dt <> 0) by lra. split; [|apply (cn_ahead dt u u' D); lra].
  unfold m, u, u', crank_nicolson. rewrite (cn_form Q _ dt Hn H), (cn_form Q' _ dt Hn H'). apply (cn_ahead dt Q Q' D). lra.
Qed.
Lemma affine_diff : affine_map f -> exists L : V -> V, linear_map L /\ forall u v, minus (f u) (f v) = L (minus u v).
Proof.
  intros (L & c & [HL1 HL2] & Hf). exists L. split; [now split|]. intros u v. rewrite !Hf. unfold minus at 2. rewrite HL1, opp_scal, HL2. modsolve V.
Qed.
Lemma trapezoid_stable Q Q' u u' dt : affine_map f -> dissipative ip f -> 0 < dt -> cn_fun f Q dt u = zero -> cn_fun f Q' dt u' = zero -> size ip (minus u u') <= size ip (minus Q Q').
Proof.
  intros HA D Hdt E E'. assert (Hn : dt <> 0) by lra. pose proof (cn_form Q u dt Hn E) as F. pose proof (cn_form Q' u' dt Hn E') as F'.
  destruct (affine_diff HA) as (L & [HL1 HL2] & HL). set (d := minus u u'). set (b := minus Q Q').
  assert (G : minus d b = scal (V := V) (dt / 2) (L (plus d b))).
  { rewrite HL1. unfold d, b. rewrite <- !HL. apply zero_diff.
    transitivity (minus (minus (minus u (scal (V := V) (dt / 2) (f u))) (minus u' (scal (V := V) (dt / 2) (f u')))) (minus (plus Q (scal (V := V) (dt / 2) (f Q))) (plus Q' (scal (V := V) (dt / 2) (f Q'))))); [modsolve V|].
    rewrite F, F'. modsolve V. }
  assert (S : ip (L (plus d b)) (plus d b) <= 0).
  { pose proof (D (plus d b) zero) as Z. rewrite HL in Z. replace (minus (plus d b) zero) with (plus d b) in Z by modsolve V. trivial. }
  assert (T : ip (minus d b) (plus d b) <= 0). { rewrite G, ip_sl. assert (0 < dt / 2) by lra. nra. }
  apply size_le. rewrite ip_ml, !ip_pr, (ip_sym b d) in T. lra.
Qed.
Lemma cn_linear newton Q Q' dt : affine_map f -> dissipative ip f -> 0 < dt -> solved newton (cn_fun f Q dt) Q -> solved newton (cn_fun f Q' dt) Q' ->
  size ip (minus (crank_nicolson newton f Q dt) (crank_nicolson newton f Q' dt)) <= size ip (minus Q Q').
Proof. intros HA D Hdt H H'. now apply (trapezoid_stable Q Q' _ _ dt). Qed.
(** ros2 *)
Lemma eps_nz : eps_fd <> 0. Proof. unfold eps_fd. apply Rgt_not_eq, sqrt_lt_R0, Rinv_0_lt_compat. lra. Qed.
Lemma ros2_form Q u dt : affine_map f -> dt <> 0 -> ros2_A f Q dt u = ros2_b f Q dt -> cn_fun f Q dt u = zero.
Proof.
  intros HA Hn E. destruct (affine_diff HA) as (L & [HL1 HL2] & HL). pose proof eps_nz as He.
  assert (M : forall v, ros2_A f Q dt v = minus v (scal (V := V) (dt / 2) (L v))).
  { intro v. unfold ros2_A, matvec_rat. rewrite HL. replace (minus (plus Q (scal (V := V) eps_fd v)) Q) with (scal (V := V) eps_fd v) by modsolve V. rewrite HL2. modsolve V. field. trivial. }
  unfold ros2_b in E. rewrite !M in E. unfold cn_fun. pose proof (HL u Q) as HuQ. unfold minus at 2 in HuQ. rewrite HL1, opp_scal, HL2 in HuQ.
  transitivity (scal (V := V) (/ dt) (minus (minus u (scal (V := V) (dt / 2) (L u))) (minus (plus Q (scal (V := V) dt (f Q))) (scal (V := V) (dt / 2) (L Q))))).
  - replace (f u) with (plus (f Q) (plus (L u) (scal (V := V) (-1) (L Q)))) by (rewrite <- HuQ; modsolve V). modsolve V; field; trivial.
  - rewrite E. modsolve V.
Qed.
Lemma ros2_stable solve Q Q' dt : affine_map f -> dissipative ip f -> 0 < dt -> linear_solved solve (ros2_A f Q dt) (ros2_b f Q dt) Q -> linear_solved solve (ros2_A f Q' dt) (ros2_b f Q' dt) Q' ->
  size ip (minus (ros2 solve f Q dt) (ros2 solve f Q' dt)) <= size ip (minus Q Q').
Proof. intros HA D Hdt H H'. apply (trapezoid_stable Q Q' _ _ dt); trivial; apply ros2_form; trivial; lra. Qed.
(** BDF2: the energy of two neighbouring states *)
Definition bdf2_energy (a b : V) : R := ip a a + ip (minus (scal (V := V) 2 a) b) (minus (scal (V := V) 2 a) b).
Lemma bdf2_form Q P dt u : dt <> 0 -> bdf2_fun f Q P dt u = zero -> plus (minus u (scal (V := V) (4 / 3) Q)) (scal (V := V) (1 / 3) P) = scal (V := V) (2 / 3 * dt) (f u).
Proof.
  intros Hn E. apply zero_diff. transitivity (scal (V := V) dt (bdf2_fun f Q P dt u)); [unfold bdf2_fun; modsolve V; field; trivial|]. rewrite E. modsolve V.
Qed.
Lemma bdf2_stable newton n Q P Q' P' dt : dissipative ip f -> 0 < dt -> solved newton (bdf2_fun f Q P dt) Q -> solved newton (bdf2_fun f Q' P' dt) Q' ->
  bdf2_energy (minus (snd (bdf2 newton f n (Some P) Q dt)) (snd (bdf2 newton f n (Some P') Q' dt))) (minus Q Q') <= bdf2_energy (minus Q Q') (minus P P').
Proof.
  intros D Hdt H H'. cbn [bdf2 snd]. assert (Hn : dt <> 0) by lra. pose proof (bdf2_form Q P dt _ Hn H) as E. pose proof (bdf2_form Q' P' dt _ Hn H') as E'. set (u := newton _ Q) in *. set (u' := newton _ Q') in *.
  specialize (D u u'). set (a := minus u u') in *. set (b := minus Q Q'). set (c := minus P P').
  assert (G : plus (minus a (scal (V := V) (4 / 3) b)) (scal (V := V) (1 / 3) c) = scal (V := V) (2 / 3 * dt) (minus (f u) (f u'))).
  { transitivity (minus (plus (minus u (scal (V := V) (4 / 3) Q)) (scal (V := V) (1 / 3) P)) (plus (minus u' (scal (V := V) (4 / 3) Q')) (scal (V := V) (1 / 3) P'))); [unfold a, b, c; modsolve V|]. rewrite E, E'. modsolve V. }
  assert (T : ip (plus (minus a (scal (V := V) (4 / 3) b)) (scal (V := V) (1 / 3) c)) a <= 0) by (rewrite G, ip_sl; nra).
  pose proof (ip_pos (plus (minus a (scal (V := V) 2 b)) c)) as P0. unfold bdf2_energy.
  rewrite ?ip_ml, ?ip_pl, ?ip_mr, ?ip_pr, ?ip_ml, ?ip_pl, ?ip_sl, ?ip_sr, ?ip_ml, ?ip_pl, ?ip_mr, ?ip_pr, ?ip_sl, ?ip_sr in *. rewrite (ip_sym b a), (ip_sym c a), (ip_sym c b) in *. lra.
Qed.
(** imex2 without an explicit part *)
Lemma imex_stable newton g Q Q' dt : (forall x, g x = zero) -> dissipative ip f -> 0 < dt -> solved newton (imex_fun g f Q dt) Q -> solved newton (imex_fun g f Q' dt) Q' ->
  size ip (minus (imex2 newton g f Q dt) (imex2 newton g f Q' dt)) <= size ip (minus Q Q').
Proof.
  intros Hg D Hdt H H'. unfold imex2, solved in *. set (y := newton _ Q) in *. set (y' := newton _ Q') in *. specialize (D y y'). rewrite !Hg. unfold imex_fun in H, H'. rewrite Hg in H, H'.
  set (d := minus Q Q'). set (k := minus (f y) (f y')) in *.
  assert (E : minus (plus Q (scal (V := V) dt (plus (f y) zero))) (plus Q' (scal (V := V) dt (plus (f y') zero))) = plus d (scal (V := V) dt k)) by (unfold d, k; modsolve V). rewrite E.
  assert (Ey : minus y y' = plus d (scal (V := V) (dt / 2) k)).
  { apply zero_diff. transitivity (minus (minus (minus y (scal (V := V) (dt / 2) (f y))) (plus Q (scal (V := V) (dt / 2) zero))) (minus (minus y' (scal (V := V) (dt / 2) (f y'))) (plus Q' (scal (V := V) (dt / 2) zero)))); [unfold d, k; modsolve V|]. rewrite H, H'. modsolve V. }
  rewrite Ey, ip_pr, ip_sr in D. apply size_le. rewrite ip_pl, !ip_pr, !ip_sl, !ip_sr, (ip_sym d k). nra.
Qed.
(** sdirk *)
Lemma sdirk_param_ge : 1 <= sdirk_param.
Proof. unfold sdirk_param. assert (0 < 1 / sqrt 2) by (apply Rdiv_lt_0_compat; [lra|apply sqrt_lt_R0; lra]). lra. Qed.
Lemma sdirk_form1 Q dt u : dt <> 0 -> sdirk_fun1 f Q dt u = zero -> u = plus Q (scal (V := V) (dt * sdirk_param) (f u)).
Proof. intros Hn E. apply zero_diff. transitivity (scal (V := V) dt (sdirk_fun1 f Q dt u)); [unfold sdirk_fun1; modsolve V; field; trivial|]. rewrite E. modsolve V. Qed.
Lemma sdirk_form2 Q u dt v : dt <> 0 -> sdirk_fun2 f Q u dt v = zero -> v = plus Q (plus (scal (V := V) (dt * (1 - 2 * sdirk_param)) (f u)) (scal (V := V) (dt * sdirk_param) (f v))).
Proof. intros Hn E. apply zero_diff. transitivity (scal (V := V) dt (sdirk_fun2 f Q u dt v)); [unfold sdirk_fun2; modsolve V; field; trivial|]. rewrite E. modsolve V. Qed.
Lemma sdirk_stable newton Q Q' dt : dissipative ip f -> 0 < dt ->
  (forall q, q = Q \/ q = Q' -> solved newton (sdirk_fun1 f q dt) q /\ solved newton (sdirk_fun2 f q (newton (sdirk_fun1 f q dt) q) dt) q) ->
  size ip (minus (sdirk newton f Q dt) (sdirk newton f Q' dt)) <= size ip (minus Q Q').
Proof.
  intros D Hdt H. assert (Hn : dt <> 0) by lra. destruct (H Q (or_introl eq_refl)) as [H1 H2]. destruct (H Q' (or_intror eq_refl)) as [H1' H2']. clear H.
  apply (sdirk_form1 Q dt) in H1; trivial. apply (sdirk_form1 Q' dt) in H1'; trivial. apply sdirk_form2 in H2; trivial. apply sdirk_form2 in H2'; trivial. unfold sdirk.
  set (u := newton (sdirk_fun1 f Q dt) Q) in *. set (u' := newton (sdirk_fun1 f Q' dt) Q') in *. set (v := newton (sdirk_fun2 f Q u dt) Q) in *. set (v' := newton (sdirk_fun2 f Q' u' dt) Q') in *.
  pose proof (D u u') as D1. pose proof (D v v') as D2. set (k := minus (f u) (f u')) in *. set (l := minus (f v) (f v')) in *. set (d := minus Q Q').
  assert (E1 : minus u u' = plus d (scal (V := V) (dt * sdirk_param) k)) by (unfold d, k; rewrite H1 at 1; rewrite H1' at 1; modsolve V).
  assert (E2 : minus v v' = plus d (plus (scal (V := V) (dt * (1 - 2 * sdirk_param)) k) (scal (V := V) (dt * sdirk_param) l))) by (unfold d, k, l; rewrite H2 at 1; rewrite H2' at 1; modsolve V).
  assert (E : minus (plus Q (scal (V := V) dt (plus (scal (V := V) (1 / 2) (f u)) (scal (V := V) (1 / 2) (f v))))) (plus Q' (scal (V := V) dt (plus (scal (V := V) (1 / 2) (f u')) (scal (V := V) (1 / 2) (f v')))))
    = plus d (scal (V := V) (dt / 2) (plus k l))) by (unfold d, k, l; modsolve V; field). rewrite E.
  rewrite E1, ip_pr, ip_sr in D1. rewrite E2, !ip_pr, !ip_sr in D2. pose proof (ip_pos (minus k l)) as P. rewrite ip_ml, !ip_mr, (ip_sym l k) in P.
  apply size_le. rewrite ip_pl, !ip_pr, !ip_sl, !ip_sr, !ip_pr, !ip_pl, (ip_sym d k), (ip_sym d l). rewrite (ip_sym l k) in *. pose proof sdirk_param_ge as G. set (g := sdirk_param) in *.
  assert (W : ip k d + ip l d + dt * (1 / 4) * (ip k k + 2 * ip k l + ip l l) <= 0).
  { assert (0 <= dt * (g - 1 / 4) * (ip k k - 2 * ip k l + ip l l)) by (apply Rmult_le_pos; [apply Rmult_le_pos; lra|lra]). lra. }
  assert (dt * (ip k d + ip l d + dt * (1 / 4) * (ip k k + 2 * ip k l + ip l l)) <= 0) by (rewrite <- (Rmult_0_r dt); apply Rmult_le_compat_l; lra). lra.
Qed.
End Inner.

(** the TVD method keeps what Euler steps keep *)
Lemma tvd_stable (V : ModuleSpace R_Ring) (p : V -> R) (f : V -> V) h0 : convex p -> (forall h Q, 0 <= h <= h0 -> p (euler1 f Q h) <= p Q) -> forall dt Q, 0 <= dt <= h0 -> p (tvdrk3 f Q dt) <= p Q.
Proof.
  intros Hc He dt Q Hdt. unfold tvdrk3. cbv zeta. set (Q1 := plus Q (scal (V := V) dt (f Q))). assert (P1 : p Q1 <= p Q) by now apply He.
  set (Q2 := plus _ (scal (V := V) dt (scal (V := V) (1 / 4) (f Q1)))). assert (E2 : Q2 = plus (scal (V := V) (3 / 4) Q) (scal (V := V) (1 - 3 / 4) (euler1 f Q1 dt))) by (unfold Q2, Q1, euler1; modsolve V; field).
  assert (P2 : p Q2 <= p Q). { rewrite E2. eapply Rle_trans; [apply Hc; lra|]. pose proof (He dt Q1 Hdt). lra. }
  set (Q3 := plus _ _). clearbody Q2. assert (E3 : Q3 = plus (scal (V := V) (1 / 3) Q) (scal (V := V) (1 - 1 / 3) (euler1 f Q2 dt))) by (unfold Q3, euler1; modsolve V; field).
  rewrite E3. eapply Rle_trans; [apply Hc; lra|]. pose proof (He dt Q2 Hdt). lra.
Qed.

(** * examples: Q' = - Q with steps of size 1, solved by one Newton step with the right slope *)
Section Decay.
Context {V : ModuleSpace R_Ring}.
Definition decay (u : V) : V := scal (V := V) (-1) u.
Definition slope (m : R) (g : V -> V) (q : V) : V := minus q (scal (V := V) (/ m) (g q)).
Definition slope_solve (m : R) (A : V -> V) (b q : V) : V := slope m (fun x => minus (A x) b) q.
Lemma slope_be Q : solved (slope 2) (be_fun decay Q 1) Q.
Proof. unfold solved, slope, be_fun, decay. modsolve V; field. Qed.
Lemma slope_cn Q : solved (slope (3 / 2)) (cn_fun decay Q 1) Q.
Proof. unfold solved, slope, cn_fun, decay. modsolve V; field. Qed.
Lemma slope_bdf2 Q P : solved (slope (5 / 3)) (bdf2_fun decay Q P 1) Q.
Proof. unfold solved, slope, bdf2_fun, decay. modsolve V; field. Qed.
Lemma slope_imex Q : solved (slope (3 / 2)) (imex_fun (fun _ => zero) decay Q 1) Q.
Proof. unfold solved, slope, imex_fun, decay. modsolve V; field. Qed.
Lemma slope_ros2 Q : linear_solved (slope_solve (3 / 2)) (ros2_A decay Q 1) (ros2_b decay Q 1) Q.
Proof.
  assert (M : forall q v : V, ros2_A decay q 1 v = scal (V := V) (3 / 2) v). { intros q v. unfold ros2_A, matvec_rat, decay. pose proof eps_nz. modsolve V; field; trivial. }
  unfold linear_solved, slope_solve, slope, ros2_b. rewrite !M. unfold decay. modsolve V; field.
Qed.
Lemma slope_sdirk (Q : V) : solved (slope (1 + sdirk_param)) (sdirk_fun1 decay Q 1) Q /\ solved (slope (1 + sdirk_param)) (sdirk_fun2 decay Q (slope (1 + sdirk_param) (sdirk_fun1 decay Q 1) Q) 1) Q.
Proof.
  pose proof sdirk_param_ge as G. set (q1 := slope _ (sdirk_fun1 decay Q 1) Q). split.
  - unfold solved, slope, sdirk_fun1, decay. modsolve V; field; lra.
  - unfold solved, slope, sdirk_fun2, decay. modsolve V; field; lra.
Qed.
Lemma decay_affine : affine_map decay.
Proof. exists decay, zero. unfold decay. split; [split; intros; modsolve V|intro x; modsolve V]. Qed.
Lemma decay_damped ip : inner_product ip -> damped ip 1 decay.
Proof. intros H u v. replace (minus (decay u) (decay v)) with (scal (V := V) (-1) (minus u v)) by (unfold decay; modsolve V). rewrite (ip_sl ip H). lra. Qed.
Lemma decay_dissipative ip : inner_product ip -> dissipative ip decay.
Proof. intros H u v. pose proof (decay_damped ip H u v) as D. pose proof (ip_pos ip H (minus u v)). lra. Qed.
End Decay.
Lemma be_stable_all (V : ModuleSpace R_Ring) (ip : V -> V -> R) f newton Q Q' dt mu e e' : inner_product ip -> 0 <= mu -> damped ip mu f -> 0 < dt ->
  nearly_solved ip e newton (be_fun f Q dt) Q -> nearly_solved ip e' newton (be_fun f Q' dt) Q' ->
  (1 + mu * dt) * size ip (minus (backward_euler newton f Q dt) (backward_euler newton f Q' dt)) <= size ip (minus Q Q') + dt * (e + e').
Proof. intro H. apply (be_stable ip H). Qed.
Lemma be_example : forall (V : ModuleSpace R_Ring) (ip : V -> V -> R), inner_product ip -> damped ip 1 (decay (V := V)) /\ forall Q, nearly_solved ip 0 (slope 2) (be_fun decay Q 1) Q.
Proof.
  intros V ip H. split; [now apply decay_damped|]. intro Q. unfold nearly_solved. rewrite (slope_be Q). unfold size. rewrite (ip_0l ip H), sqrt_0. lra.
Qed.
