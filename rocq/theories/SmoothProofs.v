(** Proofs on the smoothers *)
From Coq Require Import Reals List Bool Arith Lia Lra Psatz.
From Coquelicot Require Import Hierarchy.
From Verif Require Import InnerSpec InnerFacts VecTac GcrotCases FgmresModel SmoothModel MgSpec.
Import ListNotations.
Local Open Scope R_scope.

Section Exponential.
Context {V : ModuleSpace R_Ring}.
Variable dot : V -> V -> R.
Variable A : V -> V.
Variable norm1 : V -> R.
Variable radius : nat -> (nat -> nat -> R) -> R.
Variable expm : nat -> (nat -> nat -> R) -> nat -> nat -> R.
Lemma exponential_no_worse : forall niter rho gdt b x0 y, A zero = zero -> exponential dot A norm1 radius expm niter rho gdt b x0 = Some y ->
  norm dot (plus b (opp (A y))) <= norm dot (plus b (opp (A match x0 with None => zero | Some x => x end))).
Proof.
  intros niter rho gdt b x0 y A0. unfold exponential. cbv zeta beta. destruct (candidate _ _ _ _ _ _ _ _ _ _) as [c|]; [|discriminate].
  destruct x0 as [x|].
  - destruct (Rlt_dec _ _) as [L|L]; intros [= <-]; [apply Rle_refl|]. apply Rnot_lt_le. exact L.
  - replace (plus b (opp (A zero))) with b by (rewrite A0; vec). destruct (Rlt_dec _ _) as [L|L]; intros [= <-]; [|apply Rnot_lt_le; exact L]. replace (plus b (opp (A zero))) with b by (rewrite A0; vec). apply Rle_refl.
Qed.
Lemma exponential_shift : forall niter rho gdt b x, linear_map A ->
  exponential dot A norm1 radius expm niter rho gdt b (Some x) = match exponential dot A norm1 radius expm niter rho gdt (plus b (opp (A x))) None with Some d => Some (plus d x) | None => None end.
Proof.
  intros niter rho gdt b x [LP LS]. unfold exponential, candidate. cbv zeta beta. destruct (passes _ _ _ _ _ _ _) as [S j]. destruct (Req_EM_T _ 0) as [_|_]; [reflexivity|]. rewrite LP.
  replace (plus b (opp (plus (A (scal (V := V) (rho / radius (j + 1) (hm S)) (vsum j (fun i => scal (V := V) (sqrt (dot zero zero + mu_of (norm1 (scal (V := V) (/ gdt) (plus b (opp (A x))))) * mu_of (norm1 (scal (V := V) (/ gdt) (plus b (opp (A x)))))) * expm (j + 1) (fun i l => rho / radius (j + 1) (hm S) * (if Nat.eqb i j && Nat.eqb l (j - 1) then 0 else if Nat.eqb i 0 && Nat.eqb l j then 1 else hm S i l)) i 0%nat) (fst (vs S i)))))) (A x)))) with
    (plus (plus b (opp (A x))) (opp (A (scal (V := V) (rho / radius (j + 1) (hm S)) (vsum j (fun i => scal (V := V) (sqrt (dot zero zero + mu_of (norm1 (scal (V := V) (/ gdt) (plus b (opp (A x))))) * mu_of (norm1 (scal (V := V) (/ gdt) (plus b (opp (A x)))))) * expm (j + 1) (fun i l => rho / radius (j + 1) (hm S) * (if Nat.eqb i j && Nat.eqb l (j - 1) then 0 else if Nat.eqb i 0 && Nat.eqb l j then 1 else hm S i l)) i 0%nat) (fst (vs S i)))))))) by vec.
  destruct (Rlt_dec _ _); [|reflexivity]. f_equal. vec.
Qed.
Hypothesis D : scalar_product dot.
Hypothesis A0 : A zero = zero.
Hypothesis N0 : norm1 zero = 0.
Hypothesis R0 : forall n m, (forall i l, (i < n)%nat -> (l < n)%nat -> m i l = 0) -> radius n m = 0.
Lemma sc_zero : forall a, scal (V := V) a zero = (zero : V). Proof. intros. exact (scal_zero_r a). Qed.
Lemma first_pass_zero : forall gdt, exists S1, pass dot A gdt (zero : V) (Arnoldi (set1 (fun _ => (zero, 0)) 0 (ascale (/ 1) (zero, 1))) (fun _ _ => 0) (fun _ _ => 0) (fun i l => if Nat.eqb i l then 1 else 0)) 1 = (S1, true) /\ forall i l, hm S1 i l = 0.
Proof.
  intros gdt. unfold pass. cbn [vs Nat.sub]. unfold ascale. cbn [fst snd]. change (set1 (fun _ : nat => (zero : V, 0)) 0 (scal (V := V) (/ 1) zero, / 1 * 1) 0%nat) with (scal (V := V) (/ 1) (zero : V), / 1 * 1). cbn [fst snd]. rewrite sc_zero, A0.
  assert (W : plus (scal (V := V) (/ gdt) (opp zero)) (scal (V := V) (/ 1 * 1) zero) = (zero : V)) by (rewrite !sc_zero || idtac; vec). rewrite W.
  set (v1 := set1 _ _ _). assert (G0 : adot dot (v1 0%nat) (v1 1%nat) = 0) by (unfold v1, adot; cbn; rewrite (dot_zero_r dot D); ring). assert (G1 : adot dot (v1 1%nat) (v1 1%nat) = 0) by (unfold v1, adot; cbn; rewrite (dot_zero_r dot D); ring).
  cbn [Nat.add rsum]. rewrite G1, G0. replace (0 + 0 * 0) with 0 by ring.
  destruct (Rlt_dec 0 0) as [L|_]; [lra|]. rewrite Rminus_0_r, sqrt_0. assert (H : 0 < happy_tol) by (unfold happy_tol; apply Rinv_0_lt_compat, pow_lt; lra).
  destruct (Rlt_dec 0 happy_tol) as [_|L]; [|contradiction]. eexists. split; [reflexivity|]. cbn [hm]. intros i l. unfold set_col. destruct (Nat.eqb l 0 && Nat.ltb i 1) eqn:E; [|reflexivity].
  apply andb_prop in E. destruct E as [_ E]. apply Nat.ltb_lt in E. replace i with 0%nat by lia. exact G0.
Qed.
Lemma exponential_nan : forall niter rho gdt b x0, (1 <= niter)%nat -> b = A match x0 with None => zero | Some x => x end -> exponential dot A norm1 radius expm niter rho gdt b x0 = None.
Proof.
  intros niter rho gdt b x0 Hn Hb. unfold exponential. cbv zeta beta.
  assert (C : candidate dot A norm1 radius expm niter rho gdt zero x0 = None); [|destruct x0 as [x|]; [replace (plus b (opp (A x))) with (zero : V) by (rewrite Hb; symmetry; apply plus_opp_r)|replace b with (zero : V) by (rewrite Hb, A0; reflexivity)]; now rewrite C].
  unfold candidate. cbv zeta beta.
  rewrite sc_zero, N0. unfold mu_of, nu_of. destruct (Rlt_dec 0 0) as [L|_]; [lra|]. rewrite (dot_zero_l dot D), Rplus_0_l, Rmult_1_l, sqrt_1, sc_zero.
  destruct niter as [|n]; [lia|]. cbn [passes Nat.add]. destruct (first_pass_zero gdt) as (S1 & E & Hm). rewrite E. rewrite R0 by (intros; apply Hm). destruct (Req_EM_T 0 0) as [_|L]; [reflexivity|contradiction].
Qed.
End Exponential.

(** * ark3 *)
Section Ark.
Context {V : ModuleSpace R_Ring}.
Lemma ark3_keeps : forall (h Ac Av A : V -> V), linear_map h -> (forall x, plus (Ac x) (Av x) = A x) -> keeps_solutions A (fun b x => Some (ark3 h Ac Av b x)).
Proof.
  intros h Ac Av A Lh HA b x <-. f_equal. unfold ark3. cbv zeta. assert (h0 : h zero = zero) by exact (linear_zero h Lh).
  assert (Z : plus (plus (A x) (opp (Ac x))) (opp (Av x)) = zero) by (rewrite <- HA; vec). rewrite Z, h0. change (scal (V := V) (145 / 1000) (zero : V)) with (scal (V := V) (145 / 1000) (zero : V)).
  assert (P : forall a, plus x (scal (V := V) a zero) = x) by (intros; vec). rewrite P.
  assert (M : plus (scal (V := V) (/ 2) (opp (Av x))) (scal (V := V) (1 - / 2) (opp (Av x))) = opp (Av x)) by vec. rewrite M, Z, h0, P, M, Z, h0, P. reflexivity.
Qed.
Lemma ark3_unit_step : forall (J Jc : V -> V) x, plus (a_conv 1 Jc x) (a_visc 1 Jc J x) = matvec_rat 1 J x.
Proof. intros. unfold a_conv, a_visc, matvec_rat, matvec_fun. vec. Qed.
Lemma ark3_operator : forall dt (J Jc : V -> V) x, plus (a_conv dt Jc x) (a_visc dt Jc J x) = plus x (opp (scal (V := V) (dt * dt / 2) (J x))).
Proof. intros. unfold a_conv, a_visc, matvec_fun. vec. Qed.
End Ark.

Lemma ark3_wrong : forall dt, dt <> 0 -> dt <> 1 -> exists k, 0 < k /\ ark3 (V := R_ModuleSpace) (Rmult k) (a_conv (V := R_ModuleSpace) dt (fun _ => 0)) (a_visc (V := R_ModuleSpace) dt (fun _ => 0) id_line) (matvec_rat (V := R_ModuleSpace) dt id_line 1) (Some 1) <> 1.
Proof.
  intros dt H0 H1. set (v := 1 - dt * dt / 2). exists (/ (1 + v * v)). assert (P : 0 < 1 + v * v) by nra. split; [now apply Rinv_0_lt_compat|].
  set (k := / (1 + v * v)). assert (K : 0 < k) by now apply Rinv_0_lt_compat. assert (Hk : k * (1 + v * v) = 1) by (unfold k; field; lra).
  set (d := (dt * dt - dt) / 2). assert (Hd : d <> 0) by (unfold d; intro E; apply H1; apply (Rmult_eq_reg_l dt); [lra|assumption]).
  assert (M1 : v * k <= 1 / 2) by (pose proof (Rmult_le_pos k ((v - 1) * (v - 1)) (Rlt_le _ _ K) (Rle_0_sqr (v - 1))); lra). assert (M2 : - (1 / 2) <= v * k) by (pose proof (Rmult_le_pos k ((v + 1) * (v + 1)) (Rlt_le _ _ K) (Rle_0_sqr (v + 1))); lra).
  assert (E : ark3 (V := R_ModuleSpace) (Rmult k) (a_conv (V := R_ModuleSpace) dt (fun _ => 0)) (a_visc (V := R_ModuleSpace) dt (fun _ => 0) id_line) (matvec_rat (V := R_ModuleSpace) dt id_line 1) (Some 1)
    = 1 + k * d * (1 - v * k / 2 * (395 / 1000 * (1 - v * k * (145 / 1000) / 2) + 145 / 1000 / 2))).
  { unfold ark3, a_conv, a_visc, matvec_rat, matvec_fun, id_line, plus, opp, scal, mult. cbn. unfold mult. cbn. unfold d, v. field. }
  rewrite E. intros F. set (m := v * k) in *. assert (Q : 0 < 1 - m / 2 * (395 / 1000 * (1 - m * (145 / 1000) / 2) + 145 / 1000 / 2)) by nra.
  assert (G : k * d * (1 - m / 2 * (395 / 1000 * (1 - m * (145 / 1000) / 2) + 145 / 1000 / 2)) <> 0) by (apply Rmult_integral_contrapositive_currified; [apply Rmult_integral_contrapositive_currified; lra|lra]). apply G. lra.
Qed.
