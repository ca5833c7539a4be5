From Coq Require Import Reals List Lra Lia Psatz.
From Coquelicot Require Import Coquelicot.
From Verif Require Import QuadModel QuadSpec.
Import ListNotations.
Open Scope R_scope.

Lemma quad_ext xs ws f g : (forall x, f x = g x) -> quad xs ws f = quad xs ws g.
Proof. intros H. revert ws. induction xs as [|x xs IH]; intros [|w ws]; cbn; auto. rewrite H, IH. auto. Qed.
Lemma quad_lin xs ws f g c : quad xs ws (fun x => c * f x + g x) = c * quad xs ws f + quad xs ws g.
Proof. revert ws. induction xs as [|x xs IH]; intros [|w ws]; cbn; try ring. rewrite IH. ring. Qed.
Lemma quad_zero xs ws f : (forall x, f x = 0) -> quad xs ws f = 0.
Proof. intros H. revert ws. induction xs as [|x xs IH]; intros [|w ws]; cbn; auto. rewrite H, IH. ring. Qed.
Definition moment (k : nat) : R := (1 - (-1) ^ (S k)) / INR (S k).
Lemma moment_ok k : is_RInt (fun x => x ^ k) (-1) 1 (moment k).
Proof.
  unfold moment. replace ((1 - (-1) ^ S k) / INR (S k)) with (1 ^ S k / INR (S k) - (-1) ^ S k / INR (S k)) by (rewrite pow1; field; apply not_0_INR; lia).
  apply (is_RInt_derive (fun x => x ^ S k / INR (S k)) (fun x => x ^ k)).
  - intros x _. auto_derive; auto. change (match k with 0%nat => 1 | S _ => INR k + 1 end) with (INR (S k)). cbn [pred]. field. apply not_0_INR; lia.
  - intros x _. apply (ex_derive_continuous (fun x => x ^ k)). auto_derive; auto.
Qed.
Definition exact_to (xs ws : list R) (d : nat) := forall k, (k < d)%nat -> quad xs ws (fun x => x ^ k) = moment k.
Lemma exact_poly xs ws d : exact_to xs ws d -> forall cs m, (m + length cs <= d)%nat -> is_RInt (fun x => x ^ m * poly cs x) (-1) 1 (quad xs ws (fun x => x ^ m * poly cs x)).
Proof.
  intros H. induction cs as [|c cs IH]; intros m Hm; cbn [poly].
  - rewrite quad_zero by (intros; ring). apply is_RInt_ext with (f := fun _ => 0); [intros; symmetry; apply Rmult_0_r|].
    pose proof (is_RInt_const (-1) 1 0) as C. unfold scal in C; cbn in C; unfold mult in C; cbn in C. rewrite Rmult_0_r in C. exact C.
  - cbn [length] in Hm. specialize (IH (S m) ltac:(lia)).
    rewrite (quad_ext _ _ _ (fun x => c * x ^ m + x ^ S m * poly cs x)) by (intros; cbn; ring). rewrite quad_lin.
    apply is_RInt_ext with (f := fun x => plus (scal c (x ^ m)) (x ^ S m * poly cs x)).
    + intros. unfold plus, scal; cbn. unfold mult; cbn. ring.
    + apply (is_RInt_plus (fun x => scal c (x ^ m))); auto. apply (is_RInt_scal (fun x => x ^ m)). rewrite H by lia. apply moment_ok.
Qed.
Lemma exact1 : exact_to [0] [2] 2.
Proof. intros k H. unfold moment. destruct k as [|[|k]]; [cbn; field|cbn; field|lia]. Qed.
Lemma exact2 : exact_to [-1 / sqrt 3; 1 / sqrt 3] [1; 1] 4.
Proof.
  assert (S3 : sqrt 3 * sqrt 3 = 3) by (apply sqrt_sqrt; lra). assert (P : 0 < sqrt 3) by (apply sqrt_lt_R0; lra).
  set (t := 1 / sqrt 3). replace (-1 / sqrt 3) with (- t) by (unfold t; field; lra). assert (T : t * t = 1 / 3) by (unfold t; rewrite <- S3 at 3; field; lra). clearbody t.
  intros k H. unfold moment. destruct k as [|[|[|[|k]]]]; [| | | |lia]; cbn; nra.
Qed.
(** symmetric pairs *)
Lemma exact3 : exact_to [- sqrt (3 / 5); 0; sqrt (3 / 5)] [5 / 9; 8 / 9; 5 / 9] 6.
Proof.
  assert (T : sqrt (3/5) * sqrt (3/5) = 3 / 5) by (apply sqrt_sqrt; lra). set (t := sqrt (3/5)) in *. clearbody t.
  assert (E : forall k, quad [- t; 0; t] [5 / 9; 8 / 9; 5 / 9] (fun x => x ^ k) = 5 / 9 * (t ^ k + (- t) ^ k) + 8 / 9 * 0 ^ k) by (intros; cbn; ring).
  assert (t0 : t ^ 0 + (- t) ^ 0 = 2) by ring. assert (t1 : t ^ 1 + (- t) ^ 1 = 0) by ring. assert (t2 : t ^ 2 + (- t) ^ 2 = 2 * (t * t)) by ring.
  assert (t3 : t ^ 3 + (- t) ^ 3 = 0) by ring. assert (t4 : t ^ 4 + (- t) ^ 4 = 2 * (t * t) * (t * t)) by ring. assert (t5 : t ^ 5 + (- t) ^ 5 = 0) by ring. rewrite T in t2, t4.
  intros k H. rewrite E. unfold moment. destruct k as [|[|[|[|[|[|k]]]]]]; [rewrite t0|rewrite t1|rewrite t2|rewrite t3|rewrite t4|rewrite t5|lia]; cbn; lra.
Qed.
Lemma bounds30 : 5 < sqrt 30 < 6.
Proof. assert (S : sqrt 30 * sqrt 30 = 30) by (apply sqrt_sqrt; lra). assert (0 <= sqrt 30) by apply sqrt_pos. split; nra. Qed.
Lemma bounds70 : 8 < sqrt 70 < 9.
Proof. assert (S : sqrt 70 * sqrt 70 = 70) by (apply sqrt_sqrt; lra). assert (0 <= sqrt 70) by apply sqrt_pos. split; nra. Qed.
Lemma exact4 : exact_to [- sqrt (2 * sqrt 30 / 35 + 3 / 7); - sqrt (3 / 7 - 2 * sqrt 30 / 35); sqrt (3 / 7 - 2 * sqrt 30 / 35); sqrt (2 * sqrt 30 / 35 + 3 / 7)]
                   [(18 - sqrt 30) / 36; (18 + sqrt 30) / 36; (18 + sqrt 30) / 36; (18 - sqrt 30) / 36] 8.
Proof.
  pose proof bounds30 as B. assert (S : sqrt 30 * sqrt 30 = 30) by (apply sqrt_sqrt; lra).
  assert (T : sqrt (2 * sqrt 30 / 35 + 3 / 7) * sqrt (2 * sqrt 30 / 35 + 3 / 7) = 2 * sqrt 30 / 35 + 3 / 7) by (apply sqrt_sqrt; lra).
  assert (U : sqrt (3 / 7 - 2 * sqrt 30 / 35) * sqrt (3 / 7 - 2 * sqrt 30 / 35) = 3 / 7 - 2 * sqrt 30 / 35) by (apply sqrt_sqrt; lra).
  set (t := sqrt (2 * sqrt 30 / 35 + 3 / 7)) in *. set (u := sqrt (3 / 7 - 2 * sqrt 30 / 35)) in *. clearbody t u. set (s := sqrt 30) in *. clearbody s.
  assert (E : forall k, quad [- t; - u; u; t] [(18 - s) / 36; (18 + s) / 36; (18 + s) / 36; (18 - s) / 36] (fun x => x ^ k) = (18 - s) / 36 * (t ^ k + (- t) ^ k) + (18 + s) / 36 * (u ^ k + (- u) ^ k)) by (intros; cbn; ring).
  assert (Od : forall x, x ^ 1 + (- x) ^ 1 = 0 /\ x ^ 3 + (- x) ^ 3 = 0 /\ x ^ 5 + (- x) ^ 5 = 0 /\ x ^ 7 + (- x) ^ 7 = 0) by (intros; repeat split; ring).
  assert (Ev : forall x, x ^ 0 + (- x) ^ 0 = 2 /\ x ^ 2 + (- x) ^ 2 = 2 * (x * x) /\ x ^ 4 + (- x) ^ 4 = 2 * (x * x) * (x * x) /\ x ^ 6 + (- x) ^ 6 = 2 * (x * x) * (x * x) * (x * x)) by (intros; repeat split; ring).
  destruct (Od t) as (t1 & t3 & t5 & t7), (Od u) as (u1 & u3 & u5 & u7), (Ev t) as (t0 & t2 & t4 & t6), (Ev u) as (u0 & u2 & u4 & u6). rewrite T in t2, t4, t6. rewrite U in u2, u4, u6.
  assert (S2 : s * s * s = 30 * s) by (rewrite S; ring). assert (S4 : s * s * s * s = 900) by (rewrite S2; nra).
  intros k H. rewrite E. unfold moment. destruct k as [|[|[|[|[|[|[|[|k]]]]]]]]; [rewrite t0, u0|rewrite t1, u1|rewrite t2, u2|rewrite t3, u3|rewrite t4, u4|rewrite t5, u5|rewrite t6, u6|rewrite t7, u7|lia]; cbn; nra.
Qed.
Lemma exact5 : exact_to [- sqrt (2 * sqrt 70 / 63 + 5 / 9); - sqrt (5 / 9 - 2 * sqrt 70 / 63); 0; sqrt (5 / 9 - 2 * sqrt 70 / 63); sqrt (2 * sqrt 70 / 63 + 5 / 9)]
                   [(322 - 13 * sqrt 70) / 900; (322 + 13 * sqrt 70) / 900; 128 / 225; (322 + 13 * sqrt 70) / 900; (322 - 13 * sqrt 70) / 900] 10.
Proof.
  pose proof bounds70 as B. assert (S : sqrt 70 * sqrt 70 = 70) by (apply sqrt_sqrt; lra).
  assert (T : sqrt (2 * sqrt 70 / 63 + 5 / 9) * sqrt (2 * sqrt 70 / 63 + 5 / 9) = 2 * sqrt 70 / 63 + 5 / 9) by (apply sqrt_sqrt; lra).
  assert (U : sqrt (5 / 9 - 2 * sqrt 70 / 63) * sqrt (5 / 9 - 2 * sqrt 70 / 63) = 5 / 9 - 2 * sqrt 70 / 63) by (apply sqrt_sqrt; lra).
  set (t := sqrt (2 * sqrt 70 / 63 + 5 / 9)) in *. set (u := sqrt (5 / 9 - 2 * sqrt 70 / 63)) in *. clearbody t u. set (s := sqrt 70) in *. clearbody s.
  assert (E : forall k, quad [- t; - u; 0; u; t] [(322 - 13 * s) / 900; (322 + 13 * s) / 900; 128 / 225; (322 + 13 * s) / 900; (322 - 13 * s) / 900] (fun x => x ^ k) =
    (322 - 13 * s) / 900 * (t ^ k + (- t) ^ k) + (322 + 13 * s) / 900 * (u ^ k + (- u) ^ k) + 128 / 225 * 0 ^ k) by (intros; cbn; ring).
  assert (Od : forall x, x ^ 1 + (- x) ^ 1 = 0 /\ x ^ 3 + (- x) ^ 3 = 0 /\ x ^ 5 + (- x) ^ 5 = 0 /\ x ^ 7 + (- x) ^ 7 = 0 /\ x ^ 9 + (- x) ^ 9 = 0) by (intros; repeat split; ring).
  assert (Ev : forall x, x ^ 0 + (- x) ^ 0 = 2 /\ x ^ 2 + (- x) ^ 2 = 2 * (x * x) /\ x ^ 4 + (- x) ^ 4 = 2 * (x * x) * (x * x) /\ x ^ 6 + (- x) ^ 6 = 2 * (x * x) * (x * x) * (x * x) /\ x ^ 8 + (- x) ^ 8 = 2 * (x * x) * (x * x) * (x * x) * (x * x)) by (intros; repeat split; ring).
  destruct (Od t) as (t1 & t3 & t5 & t7 & t9), (Od u) as (u1 & u3 & u5 & u7 & u9), (Ev t) as (t0 & t2 & t4 & t6 & t8), (Ev u) as (u0 & u2 & u4 & u6 & u8). rewrite T in t2, t4, t6, t8. rewrite U in u2, u4, u6, u8.
  assert (S2 : s * s * s = 70 * s) by (rewrite S; ring). assert (S4 : s * s * s * s = 4900) by (rewrite S2; nra). assert (S5 : s * s * s * s * s = 4900 * s) by (rewrite S4; ring).
  intros k H. rewrite E. unfold moment. destruct k as [|[|[|[|[|[|[|[|[|[|k]]]]]]]]]]; [rewrite t0, u0|rewrite t1, u1|rewrite t2, u2|rewrite t3, u3|rewrite t4, u4|rewrite t5, u5|rewrite t6, u6|rewrite t7, u7|rewrite t8, u8|rewrite t9, u9|lia]; cbn; nra.
Qed.
Lemma gauss_exact roots n xs ws cs : (1 <= n <= 5)%nat -> gauss_legendre roots n = Some (xs, ws) -> (length cs <= 2 * n)%nat -> is_RInt (poly cs) (-1) 1 (quad xs ws (poly cs)).
Proof.
  intros Hn E L. assert (X : exact_to xs ws (2 * n)).
  { destruct n as [|[|[|[|[|[|n]]]]]]; try lia; injection E as <- <-; [apply exact1|apply exact2|apply exact3|apply exact4|apply exact5]. }
  pose proof (exact_poly xs ws (2 * n) X cs 0 ltac:(lia)) as G. rewrite (quad_ext _ _ _ (fun x => x ^ 0 * poly cs x)) by (intros; cbn; ring).
  apply is_RInt_ext with (2 := G). intros. cbn. ring.
Qed.
Lemma sqrt_between a : 0 < a < 1 -> 0 < sqrt a < 1.
Proof. intros [P Q]. split; [apply sqrt_lt_R0; auto|]. rewrite <- sqrt_1. apply sqrt_lt_1_alt. lra. Qed.
Lemma gauss_points roots n xs ws : (1 <= n <= 5)%nat -> gauss_legendre roots n = Some (xs, ws) ->
  length xs = n /\ length ws = n /\ increasing xs /\ List.Forall (fun x => -1 < x < 1) xs /\ rev xs = map Ropp xs /\ List.Forall (fun w => 0 < w) ws /\ rev ws = ws.
Proof.
  intros Hn E. pose proof bounds30 as B3. pose proof bounds70 as B7. destruct n as [|[|[|[|[|[|n]]]]]]; try lia; injection E as <- <-; cbn.
  - repeat split; auto; [constructor; [lra|constructor]|rewrite Ropp_0; auto|constructor; [lra|constructor]].
  - assert (S3 : sqrt 3 * sqrt 3 = 3) by (apply sqrt_sqrt; lra). assert (P : 0 < sqrt 3) by (apply sqrt_lt_R0; lra). assert (Q : 1 < sqrt 3) by nra.
    assert (I : 0 < 1 / sqrt 3 < 1). { split; [apply Rdiv_lt_0_compat; lra|]. apply Rlt_div_l; lra. }
    assert (N : -1 / sqrt 3 = - (1 / sqrt 3)) by (field; lra). rewrite N. repeat split; auto; try lra.
    + repeat constructor; lra.
    + rewrite Ropp_involutive. auto.
    + repeat constructor; lra.
  - assert (I := sqrt_between (3 / 5) ltac:(lra)). repeat split; auto; try lra; [repeat constructor; lra|rewrite Ropp_involutive, Ropp_0; auto|repeat constructor; lra].
  - assert (I := sqrt_between (2 * sqrt 30 / 35 + 3 / 7) ltac:(lra)). assert (J := sqrt_between (3 / 7 - 2 * sqrt 30 / 35) ltac:(lra)).
    assert (K : sqrt (3 / 7 - 2 * sqrt 30 / 35) < sqrt (2 * sqrt 30 / 35 + 3 / 7)) by (apply sqrt_lt_1_alt; lra).
    repeat split; auto; try lra; [repeat constructor; lra|rewrite !Ropp_involutive; auto|repeat constructor; lra].
  - assert (J := sqrt_between (5 / 9 - 2 * sqrt 70 / 63) ltac:(lra)).
    assert (B70 : sqrt 70 < 8.5). { assert (S : sqrt 70 * sqrt 70 = 70) by (apply sqrt_sqrt; lra). nra. }
    assert (I := sqrt_between (2 * sqrt 70 / 63 + 5 / 9) ltac:(lra)).
    assert (K : sqrt (5 / 9 - 2 * sqrt 70 / 63) < sqrt (2 * sqrt 70 / 63 + 5 / 9)) by (apply sqrt_lt_1_alt; lra).
    repeat split; auto; try lra; [repeat constructor; lra|rewrite !Ropp_involutive, Ropp_0; auto|repeat constructor; lra].
Qed.
Lemma legendre_even k x : legendre_R k (- x) = (-1) ^ k * legendre_R k x.
Proof.
  enough (legendre_R k (- x) = (-1) ^ k * legendre_R k x /\ legendre_R (S k) (- x) = (-1) ^ S k * legendre_R (S k) x) by tauto.
  induction k as [|k [IH1 IH2]]; [cbn; split; ring|]. split; auto.
  change (((2 * INR (S (S k)) - 1) * - x * legendre_R (S k) (- x) - (INR (S (S k)) - 1) * legendre_R k (- x)) / INR (S (S k)) = (-1) ^ S (S k) * (((2 * INR (S (S k)) - 1) * x * legendre_R (S k) x - (INR (S (S k)) - 1) * legendre_R k x) / INR (S (S k)))).
  rewrite IH1, IH2. assert (INR (S (S k)) <> 0) by (apply not_0_INR; lia). generalize dependent (INR (S (S k))). intros q Hq. cbn [pow]. field. auto.
Qed.
Lemma gauss_roots roots n xs ws : (1 <= n <= 5)%nat -> gauss_legendre roots n = Some (xs, ws) -> List.Forall (fun x => legendre_R n x = 0) xs.
Proof.
  intros Hn E. pose proof bounds30 as B3. pose proof bounds70 as B7.
  assert (Sy : forall x, legendre_R n x = 0 -> legendre_R n (- x) = 0) by (intros x Z; rewrite legendre_even, Z; ring).
  destruct n as [|[|[|[|[|[|n]]]]]]; try lia; injection E as <- <-.
  - repeat constructor.
  - assert (S3 : sqrt 3 * sqrt 3 = 3) by (apply sqrt_sqrt; lra). assert (P : 0 < sqrt 3) by (apply sqrt_lt_R0; lra).
    assert (N : -1 / sqrt 3 = - (1 / sqrt 3)) by (field; lra). rewrite N. assert (Z : legendre_R 2 (1 / sqrt 3) = 0).
    { assert (T : (1 / sqrt 3) * (1 / sqrt 3) = 1 / 3) by (rewrite <- S3 at 3; field; lra). set (t := 1 / sqrt 3) in *. clearbody t. cbn. lra. }
    repeat constructor; auto.
  - assert (T : sqrt (3/5) * sqrt (3/5) = 3 / 5) by (apply sqrt_sqrt; lra). set (t := sqrt (3/5)) in *. clearbody t.
    assert (Z : legendre_R 3 t = 0). { cbn. assert (t * t * t = 3 / 5 * t) by (rewrite T; ring). lra. }
    repeat constructor; auto. cbn. field.
  - assert (S : sqrt 30 * sqrt 30 = 30) by (apply sqrt_sqrt; lra).
    assert (T : sqrt (2 * sqrt 30 / 35 + 3 / 7) * sqrt (2 * sqrt 30 / 35 + 3 / 7) = 2 * sqrt 30 / 35 + 3 / 7) by (apply sqrt_sqrt; lra).
    assert (U : sqrt (3 / 7 - 2 * sqrt 30 / 35) * sqrt (3 / 7 - 2 * sqrt 30 / 35) = 3 / 7 - 2 * sqrt 30 / 35) by (apply sqrt_sqrt; lra).
    assert (G : forall t, legendre_R 4 t = (35 * ((t * t) * (t * t)) - 30 * (t * t) + 3) / 8) by (intros; cbn; field).
    assert (Z1 : legendre_R 4 (sqrt (2 * sqrt 30 / 35 + 3 / 7)) = 0) by (rewrite G, T; nra). assert (Z2 : legendre_R 4 (sqrt (3 / 7 - 2 * sqrt 30 / 35)) = 0) by (rewrite G, U; nra).
    repeat constructor; auto.
  - assert (S : sqrt 70 * sqrt 70 = 70) by (apply sqrt_sqrt; lra).
    assert (T : sqrt (2 * sqrt 70 / 63 + 5 / 9) * sqrt (2 * sqrt 70 / 63 + 5 / 9) = 2 * sqrt 70 / 63 + 5 / 9) by (apply sqrt_sqrt; lra).
    assert (U : sqrt (5 / 9 - 2 * sqrt 70 / 63) * sqrt (5 / 9 - 2 * sqrt 70 / 63) = 5 / 9 - 2 * sqrt 70 / 63) by (apply sqrt_sqrt; lra).
    assert (G : forall t, legendre_R 5 t = t * ((63 * ((t * t) * (t * t)) - 70 * (t * t) + 15) / 8)) by (intros; cbn; field).
    assert (Z1 : legendre_R 5 (sqrt (2 * sqrt 70 / 63 + 5 / 9)) = 0). { rewrite G, T. apply Rmult_eq_0_compat_l. nra. }
    assert (Z2 : legendre_R 5 (sqrt (5 / 9 - 2 * sqrt 70 / 63)) = 0). { rewrite G, U. apply Rmult_eq_0_compat_l. nra. }
    repeat constructor; auto. rewrite G. ring.
Qed.
Lemma gauss_others roots n : (gauss_legendre roots n = None <-> n = 0%nat) /\ ((6 <= n)%nat -> gauss_legendre roots n = Some (roots n)).
Proof.
  split; [split; [|intros ->; reflexivity]|]; destruct n as [|[|[|[|[|[|n]]]]]]; intros H; try discriminate; try lia; reflexivity.
Qed.
