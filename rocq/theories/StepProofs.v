From Coq Require Import Reals List Lra Lia FunctionalExtensionality Psatz.
From Coquelicot Require Import Hierarchy Series Derive Complex Rcomplements AutoDerive.
From Verif Require Import StepModel StepSpec VecTac RkSpec.
Import ListNotations.
Local Open Scope R_scope.

(** * Jacobian-vector products *)
Lemma eps_complex_pos : 0 < eps_complex.
Proof. apply sqrt_lt_R0. apply Rinv_0_lt_compat, pow_lt. lra. Qed.
Lemma eps_fd_pos : 0 < eps_fd.
Proof. apply sqrt_lt_R0. apply Rinv_0_lt_compat, pow_lt. lra. Qed.
Lemma eps_complex_sq : eps_complex * eps_complex = / 2 ^ 52.
Proof. apply sqrt_sqrt. apply Rlt_le, Rinv_0_lt_compat, pow_lt. lra. Qed.
Lemma eps_fd_sq : eps_fd * eps_fd = / 2 ^ 23.
Proof. apply sqrt_sqrt. apply Rlt_le, Rinv_0_lt_compat, pow_lt. lra. Qed.
Lemma eps_complex_le : eps_complex <= 1.
Proof.
  rewrite <- sqrt_1. apply sqrt_le_1_alt. rewrite <- Rinv_1. apply Rinv_le_contravar; [lra|]. apply pow_R1_Rle. lra.
Qed.
Lemma eps_fd_le : eps_fd <= 1.
Proof.
  rewrite <- sqrt_1. apply sqrt_le_1_alt. rewrite <- Rinv_1. apply Rinv_le_contravar; [lra|]. apply pow_R1_Rle. lra.
Qed.

(** the directional derivative by recursion *)
Fixpoint dpoly (x v : nat -> R) (p : poly) : R :=
  match p with Const _ => 0 | Comp i => v i | Add a b => dpoly x v a + dpoly x v b | Mul a b => eval x a * dpoly x v b + dpoly x v a * eval x b end.
Lemma eval_ext : forall x y p, (forall i, x i = y i) -> eval x p = eval y p.
Proof. intros x y p H. induction p as [c|i|a IHa b IHb|a IHa b IHb]; cbn; auto; rewrite IHa, IHb; reflexivity. Qed.
Lemma directional_dpoly : forall p x v, directional p x v (dpoly x v p).
Proof.
  unfold directional. induction p as [c|i|a IHa b IHb|a IHa b IHb]; intros x v; cbn.
  - auto_derive; auto.
  - auto_derive; [exact I|ring].
  - apply (is_derive_plus (K := R_AbsRing) (V := R_NormedModule) _ _ 0 _ _ (IHa x v) (IHb x v)).
  - pose proof (is_derive_mult _ _ 0 _ _ (IHa x v) (IHb x v)) as G. cbn beta in G.
    assert (E : forall p, eval (fun i => x i + 0 * v i) p = eval x p) by (intros; apply eval_ext; intros; ring).
    rewrite !E in G. rewrite Rplus_comm in G. exact G.
Qed.
Lemma directional_unique : forall p x v d, directional p x v d -> d = dpoly x v p.
Proof.
  intros p x v d H. apply is_derive_unique in H. pose proof (directional_dpoly p x v) as G. apply is_derive_unique in G. congruence.
Qed.

Lemma complex_step_parts : forall e x v eps, 0 <= eps <= 1 ->
  exists X D R2 R3, 0 <= X /\ 0 <= D /\ 0 <= R2 /\ 0 <= R3 /\ X + D + R2 + R3 = magnitude (fun i => Rabs (x i) + Rabs (v i)) e /\
    Rabs (eval x e) <= X /\ Rabs (dpoly x v e) <= D /\
    Rabs (Re (evalC (fun j => (x j, eps * v j)) e) - eval x e) <= eps ^ 2 * R2 /\
    Rabs (Im (evalC (fun j => (x j, eps * v j)) e) - eps * dpoly x v e) <= eps ^ 3 * R3.
Proof.
  induction e as [c|i|a IHa b IHb|a IHa b IHb]; intros x v eps He; cbn [magnitude eval dpoly evalC].
  - exists (Rabs c), 0, 0, 0. cbn. replace (c - c) with 0 by ring. replace (0 - eps * 0) with 0 by ring. rewrite !Rabs_R0.
    pose proof (Rabs_pos c). repeat split; lra.
  - exists (Rabs (x i)), (Rabs (v i)), 0, 0. cbn. replace (x i - x i) with 0 by ring. replace (eps * v i - eps * v i) with 0 by ring. rewrite !Rabs_R0.
    pose proof (Rabs_pos (x i)). pose proof (Rabs_pos (v i)). repeat split; lra.
  - destruct (IHa x v eps He) as (X & D & R2 & R3 & P1 & P2 & P3 & P4 & S & HX & HD & H2 & H3).
    destruct (IHb x v eps He) as (X' & D' & R2' & R3' & P1' & P2' & P3' & P4' & S' & HX' & HD' & H2' & H3').
    exists (X + X'), (D + D'), (R2 + R2'), (R3 + R3'). cbn. 
    set (za := evalC _ a) in *. set (zb := evalC _ b) in *. change (fst za) with (Re za). change (fst zb) with (Re zb). change (snd za) with (Im za). change (snd zb) with (Im zb).
    repeat split; try lra.
    + eapply Rle_trans; [apply Rabs_triang|]. lra.
    + eapply Rle_trans; [apply Rabs_triang|]. lra.
    + replace (Re za + Re zb - (eval x a + eval x b)) with ((Re za - eval x a) + (Re zb - eval x b)) by ring.
      eapply Rle_trans; [apply Rabs_triang|]. cbn in H2, H2'. lra.
    + replace (Im za + Im zb - eps * (dpoly x v a + dpoly x v b)) with ((Im za - eps * dpoly x v a) + (Im zb - eps * dpoly x v b)) by ring.
      eapply Rle_trans; [apply Rabs_triang|]. cbn in H3, H3'. lra.
  - destruct (IHa x v eps He) as (X & D & R2 & R3 & P1 & P2 & P3 & P4 & S & HX & HD & H2 & H3).
    destruct (IHb x v eps He) as (X' & D' & R2' & R3' & P1' & P2' & P3' & P4' & S' & HX' & HD' & H2' & H3').
    exists (X * X'), (X * D' + D * X'), (R2 * (X' + R2') + X * R2' + (D + R3) * (D' + R3')), (R2 * (D' + R3') + X * R3' + (R2' * (D + R3) + X' * R3)).
    rewrite <- S, <- S'. cbn.
    set (za := evalC _ a) in *. set (zb := evalC _ b) in *. change (fst za) with (Re za). change (fst zb) with (Re zb). change (snd za) with (Im za). change (snd zb) with (Im zb).
    set (p := Re za) in *. set (q := Im za) in *. set (p' := Re zb) in *. set (q' := Im zb) in *. set (P := eval x a) in *. set (P' := eval x b) in *.
    set (d := dpoly x v a) in *. set (d' := dpoly x v b) in *.
    assert (E2 : 0 <= eps ^ 2 <= 1) by (split; [apply pow_le; lra|rewrite <- (pow1 2); apply pow_incr; lra]).
    assert (E3 : 0 <= eps ^ 3) by (apply pow_le; lra).
    assert (E32 : eps ^ 3 = eps * eps ^ 2) by ring.
    assert (Hp : Rabs p <= X + R2).
    { replace p with ((p - P) + P) by ring. eapply Rle_trans; [apply Rabs_triang|]. nra. }
    assert (Hp' : Rabs p' <= X' + R2').
    { replace p' with ((p' - P') + P') by ring. eapply Rle_trans; [apply Rabs_triang|]. nra. }
    assert (Hq : Rabs q <= eps * (D + R3)).
    { replace q with ((q - eps * d) + eps * d) by ring. eapply Rle_trans; [apply Rabs_triang|]. rewrite (Rabs_mult eps d), (Rabs_pos_eq eps) by lra.
      rewrite E32 in H3. assert (eps * eps ^ 2 * R3 <= eps * R3) by (apply Rmult_le_compat_r; nra). nra. }
    assert (Hq' : Rabs q' <= eps * (D' + R3')).
    { replace q' with ((q' - eps * d') + eps * d') by ring. eapply Rle_trans; [apply Rabs_triang|]. rewrite (Rabs_mult eps d'), (Rabs_pos_eq eps) by lra.
      rewrite E32 in H3'. assert (eps * eps ^ 2 * R3' <= eps * R3') by (apply Rmult_le_compat_r; nra). nra. }
    assert (M : forall s t u w, Rabs s <= u -> Rabs t <= w -> Rabs (s * t) <= u * w).
    { intros s t u w H1 H5. rewrite Rabs_mult. apply Rmult_le_compat; auto using Rabs_pos. }
    assert (Pm1 : 0 <= R2 * (X' + R2')) by (apply Rmult_le_pos; lra).
    assert (Pm2 : 0 <= X * R2') by (apply Rmult_le_pos; lra).
    assert (Pm3 : 0 <= (D + R3) * (D' + R3')) by (apply Rmult_le_pos; lra).
    assert (Pm4 : 0 <= R2 * (D' + R3')) by (apply Rmult_le_pos; lra).
    assert (Pm5 : 0 <= X * R3') by (apply Rmult_le_pos; lra).
    assert (Pm6 : 0 <= R2' * (D + R3)) by (apply Rmult_le_pos; lra).
    assert (Pm7 : 0 <= X' * R3) by (apply Rmult_le_pos; lra).
    assert (Pm8 : 0 <= X * X') by (apply Rmult_le_pos; lra).
    assert (Pm9 : 0 <= X * D') by (apply Rmult_le_pos; lra).
    assert (PmA : 0 <= D * X') by (apply Rmult_le_pos; lra).
    split; [lra|]. split; [lra|]. split; [lra|]. split; [lra|]. split; [ring|]. split; [apply M; auto|]. split; [|split].
    + eapply Rle_trans; [apply Rabs_triang|]. apply Rplus_le_compat; apply M; auto.
    + replace (p * p' - q * q' - P * P') with ((p - P) * p' + P * (p' - P') + (- (q * q'))) by ring.
      eapply Rle_trans; [apply Rabs_triang|]. rewrite Rabs_Ropp.
      pose proof (M _ _ _ _ H2 Hp') as G1. pose proof (M _ _ _ _ HX H2') as G2. pose proof (M _ _ _ _ Hq Hq') as G3.
      pose proof (Rabs_triang ((p - P) * p') (P * (p' - P'))) as G4.
      replace (eps * (eps * 1) * (R2 * (X' + R2') + X * R2' + (D + R3) * (D' + R3'))) with
        (eps ^ 2 * R2 * (X' + R2') + X * (eps ^ 2 * R2') + eps * (D + R3) * (eps * (D' + R3'))) by ring. lra.
    + replace (p * q' + q * p' - eps * (P * d' + d * P')) with (((p - P) * q' + P * (q' - eps * d')) + ((p' - P') * q + P' * (q - eps * d))) by ring.
      eapply Rle_trans; [apply Rabs_triang|].
      pose proof (M _ _ _ _ H2 Hq') as G1. pose proof (M _ _ _ _ HX H3') as G2. pose proof (M _ _ _ _ H2' Hq) as G3. pose proof (M _ _ _ _ HX' H3) as G4.
      pose proof (Rabs_triang ((p - P) * q') (P * (q' - eps * d'))) as G5. pose proof (Rabs_triang ((p' - P') * q) (P' * (q - eps * d))) as G6.
      replace (eps * (eps * (eps * 1)) * (R2 * (D' + R3') + X * R3' + (R2' * (D + R3) + X' * R3))) with
        ((eps ^ 2 * R2 * (eps * (D' + R3')) + X * (eps ^ 3 * R3')) + (eps ^ 2 * R2' * (eps * (D + R3)) + X' * (eps ^ 3 * R3))) by ring. lra.
Qed.

Lemma fd_parts : forall e x v eps, 0 <= eps <= 1 ->
  exists X D R, 0 <= X /\ 0 <= D /\ 0 <= R /\ X + D + R = magnitude (fun i => Rabs (x i) + Rabs (v i)) e /\
    Rabs (eval x e) <= X /\ Rabs (dpoly x v e) <= D /\
    Rabs (eval (fun i => x i + eps * v i) e - eval x e - eps * dpoly x v e) <= eps ^ 2 * R.
Proof.
  induction e as [c|i|a IHa b IHb|a IHa b IHb]; intros x v eps He; cbn [magnitude eval dpoly].
  - exists (Rabs c), 0, 0. replace (c - c - eps * 0) with 0 by ring. rewrite !Rabs_R0. pose proof (Rabs_pos c). repeat split; lra.
  - exists (Rabs (x i)), (Rabs (v i)), 0. replace (x i + eps * v i - x i - eps * v i) with 0 by ring. rewrite !Rabs_R0.
    pose proof (Rabs_pos (x i)). pose proof (Rabs_pos (v i)). repeat split; lra.
  - destruct (IHa x v eps He) as (X & D & R & P1 & P2 & P3 & S & HX & HD & H).
    destruct (IHb x v eps He) as (X' & D' & R' & P1' & P2' & P3' & S' & HX' & HD' & H').
    exists (X + X'), (D + D'), (R + R'). repeat split; try lra.
    + eapply Rle_trans; [apply Rabs_triang|]. lra.
    + eapply Rle_trans; [apply Rabs_triang|]. lra.
    + set (s := eval (fun i => x i + eps * v i) a) in *. set (s' := eval (fun i => x i + eps * v i) b) in *.
      replace (s + s' - (eval x a + eval x b) - eps * (dpoly x v a + dpoly x v b)) with
        ((s - eval x a - eps * dpoly x v a) + (s' - eval x b - eps * dpoly x v b)) by ring.
      eapply Rle_trans; [apply Rabs_triang|]. lra.
  - destruct (IHa x v eps He) as (X & D & R & P1 & P2 & P3 & S & HX & HD & H).
    destruct (IHb x v eps He) as (X' & D' & R' & P1' & P2' & P3' & S' & HX' & HD' & H').
    exists (X * X'), (X * D' + D * X'), (X * R' + R * X' + (D + R) * (D' + R')). rewrite <- S, <- S'.
    set (s := eval (fun i => x i + eps * v i) a) in *. set (s' := eval (fun i => x i + eps * v i) b) in *.
    set (P := eval x a) in *. set (P' := eval x b) in *. set (d := dpoly x v a) in *. set (d' := dpoly x v b) in *.
    assert (M : forall s t u w, Rabs s <= u -> Rabs t <= w -> Rabs (s * t) <= u * w).
    { intros s0 t u w H1 H5. rewrite Rabs_mult. apply Rmult_le_compat; auto using Rabs_pos. }
    assert (E2 : eps ^ 2 <= eps) by (cbn; nra).
    assert (Hs : Rabs (s - P) <= eps * (D + R)).
    { replace (s - P) with ((s - P - eps * d) + eps * d) by ring. eapply Rle_trans; [apply Rabs_triang|]. rewrite (Rabs_mult eps d), (Rabs_pos_eq eps) by lra. nra. }
    assert (Hs' : Rabs (s' - P') <= eps * (D' + R')).
    { replace (s' - P') with ((s' - P' - eps * d') + eps * d') by ring. eapply Rle_trans; [apply Rabs_triang|]. rewrite (Rabs_mult eps d'), (Rabs_pos_eq eps) by lra. nra. }
    assert (Pm1 : 0 <= X * R') by (apply Rmult_le_pos; lra). assert (Pm2 : 0 <= R * X') by (apply Rmult_le_pos; lra).
    assert (Pm3 : 0 <= (D + R) * (D' + R')) by (apply Rmult_le_pos; lra). assert (Pm4 : 0 <= X * X') by (apply Rmult_le_pos; lra).
    assert (Pm5 : 0 <= X * D') by (apply Rmult_le_pos; lra). assert (Pm6 : 0 <= D * X') by (apply Rmult_le_pos; lra).
    split; [lra|]. split; [lra|]. split; [lra|]. split; [ring|]. split; [apply M; auto|]. split.
    + eapply Rle_trans; [apply Rabs_triang|]. apply Rplus_le_compat; apply M; auto.
    + replace (s * s' - P * P' - eps * (P * d' + d * P')) with ((P * (s' - P' - eps * d') + (s - P - eps * d) * P') + (s - P) * (s' - P')) by ring.
      eapply Rle_trans; [apply Rabs_triang|]. pose proof (M _ _ _ _ HX H') as G1. pose proof (M _ _ _ _ H HX') as G2. pose proof (M _ _ _ _ Hs Hs') as G3.
      pose proof (Rabs_triang (P * (s' - P' - eps * d')) ((s - P - eps * d) * P')) as G4.
      replace (eps ^ 2 * (X * R' + R * X' + (D + R) * (D' + R'))) with (X * (eps ^ 2 * R') + eps ^ 2 * R * X' + eps * (D + R) * (eps * (D' + R'))) by ring. lra.
Qed.

Lemma complex_step_bound : forall F x v dt i d, directional (F i) x v d ->
  Rabs (matvec_complex (V := vectors) v dt x (fieldC F) i - dt * d) <= Rabs dt * / 2 ^ 52 * magnitude (fun j => Rabs (x j) + Rabs (v j)) (F i).
Proof.
  intros F x v dt i d H. apply directional_unique in H. subst d.
  pose proof eps_complex_pos as Ep. pose proof eps_complex_le as El.
  destruct (complex_step_parts (F i) x v eps_complex ltac:(lra)) as (X & D & R2 & R3 & P1 & P2 & P3 & P4 & S & _ & _ & _ & H3).
  unfold matvec_complex, fieldC, scal; cbn -[pow]. rewrite <- S.
  set (q := Im _) in *. set (d := dpoly x v (F i)) in *.
  replace (dt * (/ eps_complex * q) - dt * d) with (dt * (/ eps_complex * (q - eps_complex * d))) by (field; lra).
  rewrite Rabs_mult, Rmult_assoc. apply Rmult_le_compat_l; [apply Rabs_pos|].
  rewrite Rabs_mult, Rabs_inv, (Rabs_pos_eq eps_complex) by lra. rewrite <- eps_complex_sq.
  apply Rle_trans with (/ eps_complex * (eps_complex ^ 3 * R3)).
  - apply Rmult_le_compat_l; [apply Rlt_le, Rinv_0_lt_compat; lra|exact H3].
  - replace (/ eps_complex * (eps_complex ^ 3 * R3)) with (eps_complex * eps_complex * R3) by (field; lra).
    apply Rmult_le_compat_l; [nra|lra].
Qed.
Lemma fd_bound : forall F x v dt i d, directional (F i) x v d ->
  Rabs (matvec_fd (V := vectors) v dt x (field F x) (field F) i - dt * d) <= Rabs dt * sqrt (/ 2 ^ 23) * magnitude (fun j => Rabs (x j) + Rabs (v j)) (F i).
Proof.
  intros F x v dt i d H. apply directional_unique in H. subst d.
  pose proof eps_fd_pos as Ep. pose proof eps_fd_le as El.
  destruct (fd_parts (F i) x v eps_fd ltac:(lra)) as (X & D & R & P1 & P2 & P3 & S & _ & _ & H3).
  unfold matvec_fd, field, scal, minus, plus, opp; cbn -[pow]. rewrite <- S. change (sqrt (/ 2 ^ 23)) with eps_fd.
  set (q := eval (fun i0 => x i0 + eps_fd * v i0) (F i)) in *. set (d := dpoly x v (F i)) in *.
  replace (/ eps_fd * (dt * (q + - eval x (F i))) - dt * d) with (dt * (/ eps_fd * (q - eval x (F i) - eps_fd * d))) by (field; lra).
  rewrite Rabs_mult, Rmult_assoc. apply Rmult_le_compat_l; [apply Rabs_pos|].
  rewrite Rabs_mult, Rabs_inv, (Rabs_pos_eq eps_fd) by lra.
  apply Rle_trans with (/ eps_fd * (eps_fd ^ 2 * R)).
  - apply Rmult_le_compat_l; [apply Rlt_le, Rinv_0_lt_compat; lra|exact H3].
  - replace (/ eps_fd * (eps_fd ^ 2 * R)) with (eps_fd * R) by (field; lra). apply Rmult_le_compat_l; lra.
Qed.

Lemma complex_low_degree : forall e x v eps,
  let z := evalC (fun j => (x j, eps * v j)) e in
  (degree e = 0%nat -> Re z = eval x e /\ Im z = 0 /\ dpoly x v e = 0) /\
  ((degree e <= 1)%nat -> Re z = eval x e /\ Im z = eps * dpoly x v e) /\
  ((degree e <= 2)%nat -> Im z = eps * dpoly x v e).
Proof.
  induction e as [c|i|a IHa b IHb|a IHa b IHb]; intros x v eps; cbn [degree].
  - cbn. repeat split; intros; ring.
  - cbn. repeat split; intros; try lia; ring.
  - destruct (IHa x v eps) as (A0 & A1 & A2), (IHb x v eps) as (B0 & B1 & B2). cbn [evalC eval dpoly].
    set (za := evalC _ a) in *. set (zb := evalC _ b) in *.
    assert (ER : Re (Cplus za zb) = Re za + Re zb) by reflexivity. assert (EI : Im (Cplus za zb) = Im za + Im zb) by reflexivity.
    cbv zeta. rewrite ER, EI. (split; [|split]); intros Hd; [split; [|split]|split|].
    + destruct (A0 ltac:(lia)) as (-> & _), (B0 ltac:(lia)) as (-> & _). reflexivity.
    + destruct (A0 ltac:(lia)) as (_ & -> & _), (B0 ltac:(lia)) as (_ & -> & _). ring.
    + destruct (A0 ltac:(lia)) as (_ & _ & ->), (B0 ltac:(lia)) as (_ & _ & ->). ring.
    + destruct (A1 ltac:(lia)) as (-> & _), (B1 ltac:(lia)) as (-> & _). reflexivity.
    + destruct (A1 ltac:(lia)) as (_ & ->), (B1 ltac:(lia)) as (_ & ->). ring.
    + rewrite (A2 ltac:(lia)), (B2 ltac:(lia)). ring.
  - destruct (IHa x v eps) as (A0 & A1 & A2), (IHb x v eps) as (B0 & B1 & B2). cbn [evalC eval dpoly].
    set (za := evalC _ a) in *. set (zb := evalC _ b) in *.
    assert (ER : Re (Cmult za zb) = Re za * Re zb - Im za * Im zb) by reflexivity.
    assert (EI : Im (Cmult za zb) = Re za * Im zb + Im za * Re zb) by reflexivity.
    cbv zeta. rewrite ER, EI.
    assert (C : (degree a = 0 \/ degree b = 0 \/ (1 <= degree a /\ 1 <= degree b))%nat) by lia.
    (split; [|split]); intros Hd; [split; [|split]|split|].
    + destruct (A0 ltac:(lia)) as (-> & -> & _), (B0 ltac:(lia)) as (-> & -> & _). ring.
    + destruct (A0 ltac:(lia)) as (-> & -> & _), (B0 ltac:(lia)) as (-> & -> & _). ring.
    + destruct (A0 ltac:(lia)) as (_ & _ & ->), (B0 ltac:(lia)) as (_ & _ & ->). ring.
    + destruct C as [C|[C|C]]; [| |lia].
      * destruct (A0 C) as (-> & -> & _), (B1 ltac:(lia)) as (-> & _). ring.
      * destruct (B0 C) as (-> & -> & _), (A1 ltac:(lia)) as (-> & _). ring.
    + destruct C as [C|[C|C]]; [| |lia].
      * destruct (A0 C) as (-> & -> & ->), (B1 ltac:(lia)) as (_ & ->). ring.
      * destruct (B0 C) as (-> & -> & ->), (A1 ltac:(lia)) as (_ & ->). ring.
    + destruct C as [C|[C|C]].
      * destruct (A0 C) as (-> & -> & ->). rewrite (B2 ltac:(lia)). ring.
      * destruct (B0 C) as (-> & -> & ->). rewrite (A2 ltac:(lia)). ring.
      * destruct (A1 ltac:(lia)) as (-> & ->), (B1 ltac:(lia)) as (-> & ->). ring.
Qed.
Lemma complex_step_exact : forall F x v dt i d, (degree (F i) <= 2)%nat -> directional (F i) x v d ->
  matvec_complex (V := vectors) v dt x (fieldC F) i = dt * d.
Proof.
  intros F x v dt i d Hd H. apply directional_unique in H. subst d. pose proof eps_complex_pos as Ep.
  destruct (complex_low_degree (F i) x v eps_complex) as (_ & _ & G).
  unfold matvec_complex, fieldC, scal; cbn -[pow]. cbv zeta in G. rewrite (G Hd). field. lra.
Qed.

Section Affine.
Context {V : NormedModule R_AbsRing}.
Notation W := (NormedModule.ModuleSpace R_AbsRing V).
Lemma fd_affine : forall (f L : V -> V) (v Q : V) dt, affine f L -> matvec_fd (V := W) v dt Q (f Q) f = scal dt (L v).
Proof.
  intros f L v Q dt [[La Ls] [c Hc]]. pose proof eps_fd_pos as Ep. unfold matvec_fd. rewrite !Hc, La, Ls. set (e := eps_fd) in *.
  set (LQ := L Q). set (Lv := L v). vec.
Qed.
Lemma rat_affine : forall (f L : V -> V) (v Q : V) dt, affine f L -> matvec_rat (V := W) v dt Q (f Q) f = minus v (scal (dt / 2) (L v)).
Proof.
  intros f L v Q dt [[La Ls] [c Hc]]. pose proof eps_fd_pos as Ep. unfold matvec_rat. rewrite !Hc, La, Ls. set (e := eps_fd) in *.
  set (LQ := L Q). set (Lv := L v). vec.
Qed.
Lemma complex_affine : forall (f L : V -> V) fC (v Q : V) dt, linear L -> complexified f L fC -> matvec_complex (V := W) v dt Q fC = scal dt (L v).
Proof.
  intros f L fC v Q dt [La Ls] HC. pose proof eps_complex_pos as Ep. unfold matvec_complex. rewrite HC. cbn [snd]. rewrite Ls. set (e := eps_complex) in *.
  set (Lv := L v). vec.
Qed.
End Affine.
