From Coq Require Import Reals List Bool Arith Lra Lia.
From Verif Require Import NewtonModel NewtonSpec.
Import ListNotations.
Local Open Scope R_scope.

Lemma axpy_length x s v : length v = length x -> length (axpy x s v) = length x.
Proof. intro H. unfold axpy. rewrite map_length, combine_length, H. apply Nat.min_id. Qed.
Lemma axpy_zero x v : length v = length x -> axpy x 0 v = x.
Proof. revert v. induction x as [|a x IH]; intros [|b v] H; try discriminate; trivial. unfold axpy in *. cbn. rewrite IH by now injection H. f_equal. ring. Qed.
Lemma vneg_length v : length (vneg v) = length v. Proof. apply map_length. Qed.
Lemma inf_nonneg v : 0 <= inf_norm v.
Proof. unfold inf_norm. induction v; cbn; [lra|]. eapply Rle_trans; [exact IHv|apply Rmax_r]. Qed.
Lemma inf_within v e : inf_norm v <= e -> within e v.
Proof.
  unfold inf_norm, within. induction v as [|b v IH]; intros H a Ha; [contradiction|]. cbn in H. destruct Ha as [->|Ha].
  - eapply Rle_trans; [apply Rmax_l|exact H].
  - apply IH; trivial. eapply Rle_trans; [apply Rmax_r|exact H].
Qed.
Lemma within_inf v e : 0 <= e -> within e v -> inf_norm v <= e.
Proof. intros He. unfold inf_norm, within. induction v as [|b v IH]; intro H; cbn; trivial. apply Rmax_lub; [apply H; now left|]. apply IH. intros a Ha. apply H. now right. Qed.
Lemma norm2_nonneg v : 0 <= norm2 v. Proof. apply sqrt_pos. Qed.

(** * the line search *)
Section Search.
Variables (F : vec -> vec) (x dx : vec).
Hypothesis Hl : length dx = length x.
Definition phi_at (s : R) : R := norm2 (F (axpy x s dx)) * norm2 (F (axpy x s dx)).
Definition mem_ok (m : memory) : Prop := m_fx m = F (axpy x (m_s m) dx) /\ m_phi m = phi_at (m_s m).
Lemma phi_ok m s store : mem_ok m -> fst (phi F x dx m s store) = phi_at s /\ mem_ok (snd (phi F x dx m s store)).
Proof.
  intros [H1 H2]. unfold phi. destruct (Req_EM_T s (m_s m)) as [->|_]; cbn [fst snd]; [now repeat split|]. split; trivial. destruct store; now split.
Qed.
Lemma run_ok t : forall m, mem_ok m -> mem_ok (snd (run_search F x dx m t)).
Proof.
  induction t as [s store next IH|s]; intros m Hm; cbn [run_search]; trivial. destruct (phi_ok m s store Hm) as [_ H]. destruct (phi F x dx m s store) as [p m']. now apply IH.
Qed.
Lemma run_armijo phi0 t : forall seen m, mem_ok m -> (forall s p, In (s, p) seen -> p = phi_at s) -> armijo phi0 seen t ->
  forall s, fst (run_search F x dx m t) = Some s -> phi_at s <= phi0 - s * phi0 / 10000.
Proof.
  induction t as [a store next IH|so]; intros seen m Hm Hs HA s E; cbn [run_search armijo] in *.
  - destruct (phi_ok m a store Hm) as [H1 H2]. destruct (phi F x dx m a store) as [p m']. cbn [fst snd] in *. apply (IH p ((a, p) :: seen) m'); trivial.
    intros s' p' [Ei|Hi]; [injection Ei as <- <-; trivial|now apply Hs].
  - cbn [fst] in E. subst so. destruct HA as (p & Hp & Hle). rewrite <- (Hs s p Hp). trivial.
Qed.
Lemma start_ok : mem_ok (Mem 0 (norm2 (F x) * norm2 (F x)) (F x)).
Proof. split; cbn; unfold phi_at; now rewrite axpy_zero. Qed.
Lemma search_value strategy : let (x', fx') := line_search F x (F x) dx strategy in fx' = F x' /\ exists s, x' = axpy x s dx.
Proof.
  unfold line_search. pose proof (run_ok (strategy (norm2 (F x) * norm2 (F x))) _ start_ok) as H. destruct (run_search _ _ _ _ _) as [so m]. cbn [snd] in H.
  set (s := match so with Some s => s | None => 1 end). split; [|now exists s]. destruct (Req_EM_T s (m_s m)) as [->|_]; trivial. apply H.
Qed.
Lemma search_decreases strategy : armijo (norm2 (F x) * norm2 (F x)) [] (strategy (norm2 (F x) * norm2 (F x))) ->
  let (x', fx') := line_search F x (F x) dx strategy in fx' = F x' /\ exists s, x' = axpy x s dx
    /\ (norm2 (F x') * norm2 (F x') <= norm2 (F x) * norm2 (F x) - s * (norm2 (F x) * norm2 (F x)) / 10000
        \/ s = 1 /\ fst (run_search F x dx (Mem 0 (norm2 (F x) * norm2 (F x)) (F x)) (strategy (norm2 (F x) * norm2 (F x)))) = None).
Proof.
  intro HA. unfold line_search. pose proof (run_ok (strategy (norm2 (F x) * norm2 (F x))) _ start_ok) as H.
  pose proof (run_armijo _ _ [] _ start_ok ltac:(intros ? ? []) HA) as HD. destruct (run_search _ _ _ _ _) as [so m]. cbn [fst snd] in *.
  split; [destruct (Req_EM_T _ (m_s m)) as [->|_]; trivial; apply H|]. eexists. split; [reflexivity|]. destruct so as [s|]; [left; now apply HD|right; now split].
Qed.
Lemma search_full strategy : full_first (norm2 (F x) * norm2 (F x)) (strategy (norm2 (F x) * norm2 (F x))) -> phi_at 1 <= norm2 (F x) * norm2 (F x) - 1 * (norm2 (F x) * norm2 (F x)) / 10000 ->
  line_search F x (F x) dx strategy = (axpy x 1 dx, F (axpy x 1 dx)).
Proof.
  intros (next & E & Hn) H. unfold line_search. rewrite E. cbn [run_search]. destruct (phi_ok _ 1 true start_ok) as [H1 H2]. destruct (phi _ _ _ _ _ _) as [p m]. cbn [fst snd] in *. subst p.
  rewrite Hn by trivial. cbn [run_search]. destruct (Req_EM_T 1 (m_s m)) as [Es|_]; trivial. now rewrite (proj1 H2), <- Es.
Qed.
End Search.

Section Newton.
Variables (F : vec -> vec) (rdiff : R) (solve : (vec -> vec) -> vec -> R -> vec) (o : options).
Hypotheses (HF : keeps_size F) (HS : solver_size solve).
Notation nstep := (newton_step F rdiff solve o).
Notation nloop := (newton_loop F rdiff solve o).
Definition st_ok (s : state) : Prop := s_fx s = F (s_x s) /\ s_norm s = norm2 (s_fx s) /\ 0 <= s_eta s <= 9999 / 10000.
Lemma next_eta_range e a b : 0 <= e -> 0 <= a -> 0 <= next_eta e a b <= 9999 / 10000.
Proof.
  intros He Ha. unfold next_eta. destruct (Req_EM_T a 0); [lra|]. assert (H : 0 <= 9 / 10 * (b * b) / (a * a)).
  { apply Rmult_le_pos; [pose proof (Rle_0_sqr b); unfold Rsqr in *; lra|]. left. apply Rinv_0_lt_compat. nra. }
  destruct (Rlt_dec _ _); (split; [apply Rmin_glb; [lra|]|apply Rmin_l]); trivial. eapply Rle_trans; [exact H|apply Rmax_l].
Qed.
Lemma step_ok s : st_ok s -> st_ok (nstep s) /\ exists d, s_dx (nstep s) = Fin d /\ 0 <= d.
Proof.
  intros (H1 & H2 & H3). unfold newton_step. set (dx := vneg _).
  assert (Hd : length dx = length (s_x s)) by (unfold dx; rewrite vneg_length, HS, H1; apply HF).
  destruct (match o_search o with Some _ => _ | None => _ end) as [x' fx'] eqn:E.
  assert (Ef : fx' = F x').
  { destruct (o_search o) as [strategy|]; [|injection E as <- <-; reflexivity]. rewrite H1 in E.
    pose proof (search_value F (s_x s) dx Hd (strategy (s_x s) (F (s_x s)) dx)) as V. rewrite E in V. apply V. }
  split; [|exists (inf_norm dx); split; [reflexivity|apply inf_nonneg]]. split; [exact Ef|]. split; [reflexivity|]. cbn [s_eta]. apply next_eta_range; [apply H3|]. rewrite H2. apply norm2_nonneg.
Qed.
(** what a step is *)
Lemma step_form s : st_ok s -> exists tol, 0 <= tol <= 9999 / 10000 /\ let d := vneg (solve (jac_matvec F rdiff (s_x s) (F (s_x s))) (F (s_x s)) tol) in s_dx (nstep s) = Fin (inf_norm d) /\ exists t, s_x (nstep s) = axpy (s_x s) t d.
Proof.
  intros (H1 & H2 & H3 & H4). exists (Rmin (s_eta s) (s_eta s * s_norm s)). split.
  - pose proof (norm2_nonneg (s_fx s)) as Pn. rewrite <- H2 in Pn. split; [apply Rmin_glb; trivial; now apply Rmult_le_pos|]. eapply Rle_trans; [apply Rmin_l|trivial].
  - unfold newton_step. rewrite <- H1. set (dx := vneg _). assert (Hd : length dx = length (s_x s)) by (unfold dx; rewrite vneg_length, HS, H1; apply HF).
    destruct (o_search o) as [strategy|].
    + pose proof (search_value F (s_x s) dx Hd (strategy (s_x s) (s_fx s) dx)) as V. rewrite <- H1 in V. destruct (line_search _ _ _ _ _) as [x' fx']. split; [reflexivity|]. apply V.
    + split; [reflexivity|now exists 1].
Qed.
(** what a run gives *)
Lemma loop_found : forall k n f0 s res x it r, st_ok s -> nloop k n f0 s res = Done x it r true ->
  exists s', st_ok s' /\ converged o f0 s' = true /\ x = s_x s' /\ (n <= it < n + k)%nat /\ (exists t, r = res ++ t ++ [inf_norm (F x)] /\ length t = (it - n)%nat) /\ ((s' = s /\ it = n) \/ exists s'', st_ok s'' /\ s' = nstep s'').
Proof.
  induction k as [|k IH]; intros n f0 s res x it r Hs E; cbn [newton_loop] in E; [discriminate|]. destruct (converged o f0 s) eqn:Ec.
  - injection E as <- <- <-. exists s. split; trivial. split; trivial. split; trivial. split; [lia|]. split; [exists []; cbn; rewrite Nat.sub_diag; split; trivial; now rewrite (proj1 Hs)|now left].
  - destruct (IH _ _ _ _ _ _ _ (proj1 (step_ok s Hs)) E) as (s' & A & B & C & D & (t & T1 & T2) & G). exists s'. split; trivial. split; trivial. split; trivial. split; [lia|]. split.
    + exists (inf_norm (s_fx s) :: t). split; [rewrite T1, <- app_assoc; reflexivity|]. cbn [length]. lia.
    + right. destruct G as [[-> _]|G]; [now exists s|trivial].
Qed.
Lemma loop_lost : forall k n f0 s res x it r, nloop k n f0 s res = Done x it r false -> it = (n + k - 1)%nat /\ length r = (length res + k)%nat.
Proof.
  induction k as [|k IH]; intros n f0 s res x it r E; cbn [newton_loop] in E.
  - injection E as <- <- <-. lia.
  - destruct (converged o f0 s); [discriminate|]. destruct (IH _ _ _ _ _ _ _ E) as [A B]. rewrite app_length in B. cbn in B. lia.
Qed.
Lemma loop_total k n f0 s res : exists x it r b, nloop k n f0 s res = Done x it r b.
Proof. revert n s res. induction k as [|k IH]; intros n s res; cbn [newton_loop]; [now repeat eexists|]. destruct (converged o f0 s); [now repeat eexists|apply IH]. Qed.
Lemma start_st_ok x0 : st_ok (St x0 (F x0) (norm2 (F x0)) (1 / 1000) Inf).
Proof. repeat split; cbn; lra. Qed.
Lemma first_fails x0 f0 : o_xrtol o = Inf -> converged o f0 (St x0 (F x0) (norm2 (F x0)) (1 / 1000) Inf) = false.
Proof. intro H. unfold converged. cbn [s_dx s_x s_fx]. rewrite H. cbn [div_num le_num]. now rewrite !andb_false_r. Qed.

Lemma newton_found x0 x it r : newton F rdiff solve o x0 = Done x it r true ->
  le_num (Fin (inf_norm (F x))) (o_ftol o) = true /\ le_num (div_num (Fin (inf_norm (F x))) (o_frtol o)) (Fin (inf_norm (F x0))) = true
  /\ (it < o_maxiter o)%nat /\ length r = S it /\ last r 0 = inf_norm (F x) /\ hd 0 r = inf_norm (F x0) /\ (o_xrtol o = Inf -> (1 <= it)%nat)
  /\ ((1 <= it)%nat -> exists y tol, 0 <= tol <= 9999 / 10000 /\ let d := vneg (solve (jac_matvec F rdiff y (F y)) (F y) tol) in
        (exists t, x = axpy y t d) /\ le_num (Fin (inf_norm d)) (o_xtol o) = true /\ le_num (div_num (Fin (inf_norm d)) (o_xrtol o)) (Fin (inf_norm x)) = true).
Proof.
  unfold newton. destruct (Nat.eqb (o_maxiter o) 0) eqn:E0; [discriminate|]. apply Nat.eqb_neq in E0. intro E.
  assert (Hh : hd 0 r = inf_norm (F x0)).
  { destruct (o_maxiter o) as [|k]; [lia|]. cbn [newton_loop] in E. destruct (converged o _ _); [injection E as _ _ <-; reflexivity|].
    destruct (loop_found _ _ _ _ _ _ _ _ (proj1 (step_ok _ (start_st_ok x0))) E) as (_ & _ & _ & _ & _ & (t & -> & _) & _). reflexivity. }
  destruct (loop_found _ _ _ _ _ _ _ _ (start_st_ok x0) E) as (s & (A1 & _ & _) & B & C & D & (t & T1 & T2) & G).
  pose proof B as B'. unfold converged in B. rewrite A1, <- C in B. apply andb_prop in B. destruct B as [B Bx]. apply andb_prop in B, Bx. destruct B as [B1 B2]. destruct Bx as [B3 B4].
  split; trivial. split; trivial. split; [lia|]. cbn [app] in T1. rewrite T1. split; [rewrite app_length; cbn; lia|]. split; [apply last_last|].
  split; [now rewrite <- T1|]. split.
  - intro Hx. destruct G as [[-> ->]|G].
  + rewrite first_fails in B' by trivial. discriminate.
  + destruct it; [|lia]. exfalso. destruct (o_maxiter o) as [|k]; [lia|]. cbn [newton_loop] in E. rewrite first_fails in E by trivial.
    destruct (loop_found _ _ _ _ _ _ _ _ (proj1 (step_ok _ (start_st_ok x0))) E) as (_ & _ & _ & _ & D' & _). lia.
  - intro Hi. destruct G as [[_ ->]|(s0 & S0 & ->)]; [lia|]. destruct (step_form s0 S0) as (tol & Ht & Ed & Ex). exists (s_x s0), tol. split; trivial. rewrite Ed in B3, B4. subst x. now repeat split.
Qed.
Lemma newton_lost x0 x it r : newton F rdiff solve o x0 = Done x it r false -> it = (o_maxiter o - 1)%nat /\ length r = o_maxiter o.
Proof. unfold newton. destruct (Nat.eqb (o_maxiter o) 0); [discriminate|]. intro E. apply loop_lost in E. cbn in E. lia. Qed.
Lemma newton_total x0 : newton F rdiff solve o x0 = Unbound <-> o_maxiter o = O.
Proof.
  unfold newton. destruct (Nat.eqb (o_maxiter o) 0) eqn:E.
  - apply Nat.eqb_eq in E. now split.
  - apply Nat.eqb_neq in E. split; [|contradiction]. destruct (loop_total (o_maxiter o) 0 (inf_norm (F x0)) (St x0 (F x0) (norm2 (F x0)) (1 / 1000) Inf) []) as (a & b & c & d & ->). discriminate.
Qed.
End Newton.

(** the linear solver is only called with tolerances between 0 and 0.9999 *)
Lemma newton_tolerances F rdiff solve solve' o x0 : keeps_size F -> solver_size solve -> (forall J b tol, 0 <= tol <= 9999 / 10000 -> solve J b tol = solve' J b tol) ->
  newton F rdiff solve o x0 = newton F rdiff solve' o x0.
Proof.
  intros HF HS H. unfold newton. destruct (Nat.eqb (o_maxiter o) 0); trivial.
  assert (K : forall k n f0 s res, st_ok F s -> newton_loop F rdiff solve o k n f0 s res = newton_loop F rdiff solve' o k n f0 s res).
  { induction k as [|k IH]; intros n f0 s res Hs; trivial. cbn [newton_loop]. destruct (converged o f0 s); trivial.
    assert (E : newton_step F rdiff solve o s = newton_step F rdiff solve' o s).
    { unfold newton_step. rewrite H; trivial. destruct Hs as (_ & E & H3 & H4). pose proof (norm2_nonneg (s_fx s)). rewrite <- E in H0. split; [apply Rmin_glb; trivial; nra|]. eapply Rle_trans; [apply Rmin_l|trivial]. }
    rewrite <- E. apply IH. now apply step_ok. }
  apply K. apply start_st_ok.
Qed.

(** * affine functions *)
Lemma axpy_same (x : vec) s (v w : vec) : vneg w = v -> axpy x s v = axpy x (- s) w.
Proof. intros <-. unfold axpy, vneg. revert w. induction x as [|a x IH]; intros [|b w]; trivial. cbn. rewrite IH. f_equal. ring. Qed.
Lemma axpy_cancel (f v : vec) : v = f -> axpy f (- 1) v = map (fun _ => 0) f.
Proof. intros ->. unfold axpy. induction f as [|a f IH]; trivial. cbn. rewrite IH. f_equal. ring. Qed.
Lemma zero_norms (f : vec) : norm2 (map (fun _ => 0) f) = 0 /\ inf_norm (map (fun _ => 0) f) = 0.
Proof.
  unfold norm2, inf_norm. split.
  - replace (fold_right Rplus 0 _) with 0; [apply sqrt_0|]. induction f; cbn in *; trivial. rewrite <- IHf. ring.
  - induction f; cbn in *; trivial. rewrite IHf, Rabs_R0. apply Rmax_left. lra.
Qed.
Lemma norm2_zero (v : vec) : norm2 v = 0 -> v = map (fun _ => 0) v.
Proof.
  unfold norm2. intro H. assert (P : forall w : vec, 0 <= fold_right Rplus 0 (map (fun x => x * x) w)) by (induction w as [|a w IHw]; cbn; [lra|]; pose proof (Rle_0_sqr a); unfold Rsqr in *; lra).
  apply sqrt_eq_0 in H; [|apply P]. induction v as [|a v IH]; trivial. cbn in *. pose proof (P v). pose proof (Rle_0_sqr a). unfold Rsqr in *. f_equal; [|apply IH; lra]. apply Rsqr_0_uniq. unfold Rsqr. lra.
Qed.
Lemma axpy_zeros (x : vec) s (v : vec) : length v = length x -> axpy x s (map (fun _ => 0) v) = x.
Proof. revert v. induction x as [|a x IH]; intros [|b v] H; try discriminate; trivial. unfold axpy in *. cbn. rewrite IH by now injection H. f_equal. ring. Qed.
Lemma vscale_zero v : vscale 0 v = map (fun _ => 0) v.
Proof. apply map_ext. intro. ring. Qed.
Lemma axpy_fix (f v : vec) s : s <> 0 -> length v = length f -> axpy f s v = f -> v = map (fun _ => 0) v.
Proof.
  intro Hs. revert v. induction f as [|a f IH]; intros [|b v] H; try discriminate; trivial. unfold axpy in *. cbn. intro E. injection E as E1 E2. f_equal.
  - apply (Rmult_eq_reg_l s); trivial. lra.
  - apply IH; trivial. now injection H.
Qed.
Lemma sub_axpy (f v : vec) s : s <> 0 -> length v = length f -> vscale (/ s) (vsub (axpy f s v) f) = v.
Proof.
  intro Hs. revert v. induction f as [|a f IH]; intros [|b v] H; try discriminate; trivial. unfold axpy, vscale, vsub in *. cbn. rewrite IH by now injection H. f_equal. field. trivial.
Qed.
Lemma omega_pos rdiff x f : 0 < rdiff -> 0 < omega rdiff x f.
Proof.
  intro H. unfold omega. pose proof (Rmax_l 1 (inf_norm x)). pose proof (Rmax_l 1 (inf_norm f)). apply Rmult_lt_0_compat; [apply Rmult_lt_0_compat; lra|]. apply Rinv_0_lt_compat. lra.
Qed.
Lemma zeros_len (u w : vec) : length u = length w -> map (fun _ : R => 0) u = map (fun _ : R => 0) w.
Proof. revert w. induction u as [|a u IH]; intros [|b w] E; try discriminate; trivial. cbn. f_equal. apply IH. now injection E. Qed.
Lemma affine_matvec F A rdiff x v : keeps_size F -> affine F A -> 0 < rdiff -> length v = length x -> jac_matvec F rdiff x (F x) v = A v.
Proof.
  intros HF [HA H] Hr Hv. unfold jac_matvec. destruct (Req_EM_T (norm2 v) 0) as [E|E].
  - pose proof (norm2_zero v E) as Ez. rewrite vscale_zero, <- Ez. pose proof (H x 1 v (eq_sym Hv)) as K. rewrite Ez, axpy_zeros, <- Ez in K by trivial.
    rewrite (axpy_fix (F x) (A v) 1); [|lra|rewrite HA, HF; trivial|now symmetry]. rewrite Ez at 1. apply zeros_len. now rewrite HA.
  - rewrite H by now symmetry. apply sub_axpy; [|rewrite HA, HF; trivial]. apply Rmult_integral_contrapositive_currified; [pose proof (omega_pos rdiff x (F x) Hr); lra|]. now apply Rinv_neq_0_compat.
Qed.

Section Default.
Variables (F : vec -> vec) (rdiff : R) (solve : (vec -> vec) -> vec -> R -> vec) (e : R) (n : nat) (search : option (vec -> vec -> vec -> R -> search)).
Hypotheses (HF : keeps_size F) (HS : solver_size solve) (He : 0 <= e).
Let o := default_options e n search.
Lemma default_second x fx a eta d f0 : 0 <= d -> converged o f0 (St x fx a eta (Fin d)) = (if Rle_dec (inf_norm fx) e then (if Rle_dec 0 f0 then true else false) else false).
Proof.
  intro Hd. pose proof (inf_nonneg x) as G. unfold converged, o, default_options. cbn [s_x s_fx s_dx o_ftol o_frtol o_xtol o_xrtol le_num div_num].
  destruct (Rle_dec (inf_norm fx) e), (Rle_dec 0 f0), (Rle_dec 0 (inf_norm x)); trivial; contradiction.
Qed.
Lemma two_passes x0 : (2 <= n)%nat -> let s := newton_step F rdiff solve o (St x0 (F x0) (norm2 (F x0)) (1 / 1000) Inf) in
  inf_norm (F (s_x s)) <= e -> newton F rdiff solve o x0 = Done (s_x s) 1 [inf_norm (F x0); inf_norm (F (s_x s))] true.
Proof.
  intros Hn s H. unfold newton. change (o_maxiter o) with n. assert (Ek : exists k, n = S (S k)) by (exists (n - 2)%nat; lia). destruct Ek as [k Ek]. rewrite Ek. rewrite (proj2 (Nat.eqb_neq _ _)) by discriminate. cbn [newton_loop].
  rewrite first_fails by reflexivity. fold s. destruct (step_ok F rdiff solve o HF HS _ (start_st_ok F x0)) as [(A & _ & _) (d & Ed & Hd)]. fold s in A, Ed.
  assert (C : converged o (inf_norm (F x0)) s = true).
  { destruct s as [x fx a eta dd]. cbn [s_x s_fx s_dx] in *. subst dd fx. rewrite default_second by trivial. destruct (Rle_dec _ e); [|contradiction]. destruct (Rle_dec _ _) as [|G]; trivial. exfalso. apply G, inf_nonneg. }
  fold s. rewrite C, A. reflexivity.
Qed.
(** a solution is left alone *)
Lemma from_solution x0 : (2 <= n)%nat -> inf_norm (F x0) = 0 -> (forall J b tol, inf_norm b = 0 -> inf_norm (solve J b tol) = 0) -> newton F rdiff solve o x0 = Done x0 1 [0; 0] true.
Proof.
  intros Hn H0 Hz. pose proof (two_passes x0 Hn) as P. cbv zeta in P.
  assert (E : s_x (newton_step F rdiff solve o (St x0 (F x0) (norm2 (F x0)) (1 / 1000) Inf)) = x0).
  { unfold newton_step. cbn [s_x s_fx s_norm s_eta]. set (dx := vneg _). assert (Hd : length dx = length x0) by (unfold dx; rewrite vneg_length, HS; apply HF).
    assert (Ed : dx = map (fun _ => 0) dx).
    { unfold dx at 1 2. unfold vneg. rewrite map_map. apply map_ext_in. intros a Ha. assert (Q : within 0 (solve (jac_matvec F rdiff x0 (F x0)) (F x0) (Rmin (1 / 1000) (1 / 1000 * norm2 (F x0))))) by (apply inf_within; rewrite Hz; [lra|trivial]).
      specialize (Q a Ha). pose proof (Rabs_pos a). assert (Ea : Rabs a = 0) by lra. destruct (Req_dec a 0) as [->|Na]; [ring|]. now apply Rabs_no_R0 in Na. }
    destruct (o_search o) as [strategy|].
    - pose proof (search_value F x0 dx Hd (strategy x0 (F x0) dx)) as V. destruct (line_search _ _ _ _ _) as [x' fx']. destruct V as [_ (s & ->)]. cbn [s_x]. rewrite Ed. now apply axpy_zeros.
    - cbn [s_x]. rewrite Ed. now apply axpy_zeros. }
  rewrite E, H0 in P. now apply P.
Qed.
(** one step for an affine function *)
Lemma affine_once A x0 : (2 <= n)%nat -> affine F A -> 0 < rdiff -> (forall J b tol, (forall v, length v = length b -> J v = A v) -> (exists v, length v = length b /\ A v = b) -> A (solve J b tol) = b) -> (exists y, length y = length x0 /\ inf_norm (F y) = 0) ->
  (forall strategy x v, search = Some strategy -> full_first (norm2 (F x) * norm2 (F x)) (strategy x (F x) v (norm2 (F x) * norm2 (F x)))) ->
  exists x, newton F rdiff solve o x0 = Done x 1 [inf_norm (F x0); 0] true /\ inf_norm (F x) = 0.
Proof.
  intros Hn HA Hr Hsol (y & Hy & Fy) Hfull. pose proof (two_passes x0 Hn) as P. cbv zeta in P.
  assert (Ex : exists v, length v = length (F x0) /\ A v = F x0).
  { set (v := vsub x0 y). assert (Hv : length v = length x0) by (unfold v, vsub; rewrite map_length, combine_length, Hy; apply Nat.min_id). exists v. split; [now rewrite HF|].
    destruct HA as [HA1 HA2]. pose proof (HA2 x0 (-1) v (eq_sym Hv)) as K.
    assert (Ey : axpy x0 (-1) v = y). { unfold v, axpy, vsub. clear - Hy. revert y Hy. induction x0 as [|a x IH]; intros [|b y] E; try discriminate; trivial. cbn. rewrite IH by now injection E. f_equal. ring. }
    rewrite Ey in K. assert (Z : within 0 (F y)) by (apply inf_within; lra). rewrite K in Z. generalize (HA1 v). rewrite Hv, <- (HF x0). revert Z. generalize (F x0) (A v). clear. intros f; induction f as [|a f IH]; intros [|b w] Z E; try discriminate; trivial.
    unfold axpy in Z. cbn in Z. f_equal; [|apply IH; [|now injection E]].
    - specialize (Z (a + -1 * b) (or_introl eq_refl)). assert (Rabs (a + -1 * b) = 0) by (pose proof (Rabs_pos (a + -1 * b)); lra). destruct (Req_dec (a + -1 * b) 0) as [Q|Q]; [lra|]. now apply Rabs_no_R0 in Q.
    - intros c Hc. apply Z. now right. }
  set (tol := Rmin (1 / 1000) (1 / 1000 * norm2 (F x0))) in *. set (w := solve (jac_matvec F rdiff x0 (F x0)) (F x0) tol). assert (Hw : length w = length x0) by (unfold w; rewrite HS; apply HF).
  assert (Aw : A w = F x0) by (unfold w; apply Hsol; trivial; intros v Hv; apply affine_matvec; trivial; now rewrite Hv).
  assert (Fz : F (axpy x0 1 (vneg w)) = map (fun _ => 0) (F x0)).
  { rewrite (axpy_same x0 1 (vneg w) w) by reflexivity. rewrite (proj2 HA) by now symmetry. now apply axpy_cancel. }
  assert (E : s_x (newton_step F rdiff solve o (St x0 (F x0) (norm2 (F x0)) (1 / 1000) Inf)) = axpy x0 1 (vneg w)).
  { unfold newton_step. cbn [s_x s_fx s_norm s_eta]. fold tol. fold w. change (o_search o) with search. destruct search as [strategy|]; trivial.
    rewrite search_full; trivial; [now rewrite vneg_length|now apply Hfull|]. unfold phi_at. rewrite Fz, (proj1 (zero_norms _)). pose proof (Rle_0_sqr (norm2 (F x0))). unfold Rsqr in *. lra. }
  rewrite E in P. exists (axpy x0 1 (vneg w)). rewrite Fz in *. rewrite (proj2 (zero_norms _)) in *. split; trivial. now apply P.
Qed.
End Default.

(** with an Armijo search that always gives a step, the 2-norm never grows *)
Section Monotone.
Variables (F : vec -> vec) (rdiff : R) (solve : (vec -> vec) -> vec -> R -> vec) (o : options) (strategy : vec -> vec -> vec -> R -> search).
Hypotheses (HF : keeps_size F) (HS : solver_size solve) (Ho : o_search o = Some strategy).
Hypothesis Harm : forall x dx phi0, armijo phi0 [] (strategy x (F x) dx phi0).
Hypothesis Hpos : forall x tol, 0 <= tol <= 9999 / 10000 -> let dx := vneg (solve (jac_matvec F rdiff x (F x)) (F x) tol) in exists s, fst (run_search F x dx (Mem 0 (norm2 (F x) * norm2 (F x)) (F x)) (strategy x (F x) dx (norm2 (F x) * norm2 (F x)))) = Some s /\ 0 <= s.
Lemma step_decreases s : st_ok F s -> norm2 (F (s_x (newton_step F rdiff solve o s))) <= norm2 (F (s_x s)).
Proof.
  intros (H1 & H2 & H3). unfold newton_step. rewrite Ho. set (dx := vneg _). assert (Hd : length dx = length (s_x s)) by (unfold dx; rewrite vneg_length, HS, H1; apply HF). rewrite H1.
  pose proof (search_decreases F (s_x s) dx Hd _ (Harm (s_x s) dx _)) as V. 
  assert (Ht : 0 <= Rmin (s_eta s) (s_eta s * s_norm s) <= 9999 / 10000).
  { destruct H3 as [H3 H4]. pose proof (norm2_nonneg (s_fx s)) as Pn. rewrite <- H2 in Pn. split; [apply Rmin_glb; trivial; now apply Rmult_le_pos|]. eapply Rle_trans; [apply Rmin_l|trivial]. }
  pose proof (Hpos (s_x s) _ Ht) as P. cbv zeta in P. assert (Ed : vneg (solve (jac_matvec F rdiff (s_x s) (F (s_x s))) (F (s_x s)) (Rmin (s_eta s) (s_eta s * s_norm s))) = dx) by (unfold dx; now rewrite H1). rewrite Ed in P. destruct P as (s0 & Es & Ps).
  assert (Q : exists s1, fst (line_search F (s_x s) (F (s_x s)) dx (strategy (s_x s) (F (s_x s)) dx)) = axpy (s_x s) s1 dx /\ 0 <= s1 /\ norm2 (F (axpy (s_x s) s1 dx)) * norm2 (F (axpy (s_x s) s1 dx)) <= norm2 (F (s_x s)) * norm2 (F (s_x s)) - s1 * (norm2 (F (s_x s)) * norm2 (F (s_x s))) / 10000).
  { pose proof (run_armijo F (s_x s) dx _ _ [] _ (start_ok F (s_x s) dx Hd) ltac:(intros ? ? []) (Harm (s_x s) dx _) s0 Es) as D. exists s0. split; [|split; trivial].
    unfold line_search. destruct (run_search _ _ _ _ _) as [so m]. cbn [fst] in Es. now subst so. }
  destruct Q as (s1 & E & P1 & P2). destruct (line_search _ _ _ _ _) as [x' fx']. cbn [fst s_x] in *. subst x'.
  set (a := norm2 (F (s_x s))) in *. set (b := norm2 (F (axpy (s_x s) s1 dx))) in *. pose proof (norm2_nonneg (F (s_x s))) as Pa. pose proof (norm2_nonneg (F (axpy (s_x s) s1 dx))) as Pb. fold a in Pa. fold b in Pb.
  assert (0 <= s1 * (a * a)) by (apply Rmult_le_pos; nra). assert (b * b <= a * a) by lra. nra.
Qed.
Lemma loop_decreases : forall k n f0 s res x it r b, st_ok F s -> newton_loop F rdiff solve o k n f0 s res = Done x it r b -> norm2 (F x) <= norm2 (F (s_x s)).
Proof.
  induction k as [|k IH]; intros n f0 s res x it r b Hs E; cbn [newton_loop] in E; [injection E as <- _ _ _; apply Rle_refl|]. destruct (converged o f0 s); [injection E as <- _ _ _; apply Rle_refl|].
  eapply Rle_trans; [eapply IH; [|exact E]; now apply step_ok|]. now apply step_decreases.
Qed.
Lemma newton_decreases x0 x it r b : newton F rdiff solve o x0 = Done x it r b -> norm2 (F x) <= norm2 (F x0).
Proof. unfold newton. destruct (Nat.eqb _ 0); [discriminate|]. intro E. exact (loop_decreases _ _ _ _ _ _ _ _ _ (start_st_ok F x0) E). Qed.
End Monotone.

(** no solution: the last state is returned *)
Lemma no_solution n rdiff : (1 <= n)%nat -> exists x r, newton (fun _ => [1]) rdiff (fun _ b _ => map (fun _ => 0) b) (default_options (1 / 2) n None) [0] = Done x (n - 1) r false.
Proof.
  intro Hn. unfold newton. change (o_maxiter _) with n. destruct (Nat.eqb n 0) eqn:E; [apply Nat.eqb_eq in E; lia|]. clear E.
  assert (K : forall k m f0 s res, s_fx s = [1] -> exists x r, newton_loop (fun _ => [1]) rdiff (fun _ b _ => map (fun _ => 0) b) (default_options (1 / 2) n None) k m f0 s res = Done x (m + k - 1) r false).
  { induction k as [|k IH]; intros m f0 s res Hs; cbn [newton_loop]; [rewrite Nat.add_0_r; now repeat eexists|].
    assert (C : converged (default_options (1 / 2) n None) f0 s = false).
    { unfold converged. rewrite Hs. cbn. destruct (Rle_dec _ _) as [G|]; trivial. exfalso. rewrite Rabs_R1, Rmax_left in G by lra. lra. }
    rewrite C. replace (m + S k - 1)%nat with (S m + k - 1)%nat by lia. apply IH. reflexivity. }
  apply (K n O). reflexivity.
Qed.

(** * examples: F(x) = x - 3 in every component *)
Definition shift (x : vec) : vec := map (fun a => a - 3) x.
Definition ident (v : vec) : vec := v.
Definition same (J : vec -> vec) (b : vec) (tol : R) : vec := b.
Lemma shift_size : keeps_size shift. Proof. intro x. apply map_length. Qed.
Lemma same_size : solver_size same. Proof. now intros J b tol. Qed.
Lemma shift_affine : affine shift ident.
Proof. split; [reflexivity|]. intros x s v. revert v. unfold ident, shift, axpy. induction x as [|a x IH]; intros [|b v] E; try discriminate; trivial. cbn. rewrite IH by now injection E. f_equal. ring. Qed.
Lemma shift_solution (x0 : vec) : exists y, length y = length x0 /\ inf_norm (shift y) = 0.
Proof. exists (map (fun _ => 3) x0). split; [apply map_length|]. unfold shift. rewrite map_map. replace (map _ x0) with (map (fun _ : R => 0) x0) by (apply map_ext; intro; ring). apply zero_norms. Qed.
(** a backtracking search: 1, 1/2, 1/4, ... *)
Fixpoint backtrack (k : nat) (s phi0 : R) : search :=
  Ask s true (fun p => if Rle_dec p (phi0 - s * phi0 / 10000) then Stop (Some s) else match k with O => Stop None | S k' => backtrack k' (s / 2) phi0 end).
Lemma backtrack_armijo k : forall s phi0 seen, armijo phi0 seen (backtrack k s phi0).
Proof.
  induction k as [|k IH]; intros s phi0 seen p; destruct (Rle_dec p _) as [H|H]; cbn [armijo]; trivial; try (exists p; split; [now left|exact H]).
Qed.
Lemma backtrack_full k phi0 : full_first phi0 (backtrack k 1 phi0).
Proof. destruct k; (eexists; split; [reflexivity|]; intros p H; cbv beta; destruct (Rle_dec p _); [reflexivity|contradiction]). Qed.
Lemma shift_search k : forall x tol, 0 <= tol <= 9999 / 10000 -> let dx := vneg (same (jac_matvec shift 1 x (shift x)) (shift x) tol) in
  exists s, fst (run_search shift x dx (Mem 0 (norm2 (shift x) * norm2 (shift x)) (shift x)) (backtrack k 1 (norm2 (shift x) * norm2 (shift x)))) = Some s /\ 0 <= s.
Proof.
  intros x tol _ dx. exists 1. split; [|lra]. assert (Hd : length dx = length x) by (unfold dx, same; rewrite vneg_length; apply shift_size).
  destruct (backtrack_full k (norm2 (shift x) * norm2 (shift x))) as (next & -> & Hn). cbn [run_search]. destruct (phi_ok shift x dx _ 1 true (start_ok shift x dx Hd)) as [H1 _]. destruct (phi _ _ _ _ _ _) as [p m]. cbn [fst snd] in *.
  rewrite Hn; trivial. subst p. unfold phi_at. assert (E : shift (axpy x 1 dx) = map (fun _ => 0) (shift x)).
  { rewrite (axpy_same x 1 dx (shift x)) by reflexivity. rewrite (proj2 shift_affine) by (symmetry; apply shift_size). now apply axpy_cancel. }
  rewrite E, (proj1 (zero_norms _)). pose proof (Rle_0_sqr (norm2 (shift x))). unfold Rsqr in *. lra.
Qed.
Lemma shift_run : newton shift 1 same (default_options (1 / 10) 5 None) [1; 2] = Done [3; 3] 1 [2; 0] true.
Proof.
  assert (E : s_x (newton_step shift 1 same (default_options (1 / 10) 5 None) (St [1; 2] (shift [1; 2]) (norm2 (shift [1; 2])) (1 / 1000) Inf)) = [3; 3]).
  { unfold newton_step, default_options. cbn [o_search]. unfold same. cbn. repeat f_equal; ring. }
  assert (Z : inf_norm (shift [3; 3]) = 0). { change (shift [3; 3]) with [3 - 3; 3 - 3]. replace (3 - 3) with 0 by ring. apply (zero_norms [0; 0]). }
  rewrite (two_passes shift 1 same (1 / 10) 5 None shift_size same_size [1; 2]); [|lia|rewrite E, Z; lra]. rewrite E, Z. f_equal. f_equal.
  unfold inf_norm, shift. cbn. rewrite (Rabs_left (1 - 3)), (Rabs_left (2 - 3)) by lra. rewrite (Rmax_left (- (2 - 3)) 0), Rmax_left by (try lra; rewrite Rmax_left; lra). ring.
Qed.
Lemma newton_found_spec F rdiff solve o x0 x it r : keeps_size F -> solver_size solve -> newton F rdiff solve o x0 = Done x it r true ->
  (forall e, o_ftol o = Fin e -> within e (F x))
  /\ le_num (div_num (Fin (inf_norm (F x))) (o_frtol o)) (Fin (inf_norm (F x0))) = true
  /\ (it < o_maxiter o)%nat /\ length r = S it /\ last r 0 = inf_norm (F x) /\ hd 0 r = inf_norm (F x0) /\ (o_xrtol o = Inf -> (1 <= it)%nat)
  /\ ((1 <= it)%nat -> exists y tol, 0 <= tol <= 9999 / 10000 /\ let d := vneg (solve (jac_matvec F rdiff y (F y)) (F y) tol) in
        (exists t, x = axpy y t d) /\ le_num (Fin (inf_norm d)) (o_xtol o) = true /\ le_num (div_num (Fin (inf_norm d)) (o_xrtol o)) (Fin (inf_norm x)) = true).
Proof.
  intros HF HS E. destruct (newton_found F rdiff solve o HF HS x0 x it r E) as (A & B). split; trivial. intros e He. rewrite He in A. cbn [le_num] in A. destruct (Rle_dec _ _) as [G|]; [|discriminate]. now apply inf_within.
Qed.
Lemma newton_ends F rdiff solve o x0 : (newton F rdiff solve o x0 = Unbound <-> o_maxiter o = O)
  /\ forall x it r, newton F rdiff solve o x0 = Done x it r false -> it = (o_maxiter o - 1)%nat /\ length r = o_maxiter o.
Proof. split; [apply newton_total|]. intros x it r. apply newton_lost. Qed.
Lemma returned_refuted n rdiff : (1 <= n)%nat -> exists x r, newton (fun _ => [1]) rdiff (fun _ b _ => map (fun _ => 0) b) (default_options (1 / 2) n None) [0] = Done x (n - 1) r false
  /\ ~ within (1 / 2) ((fun _ => [1]) x).
Proof.
  intro Hn. destruct (no_solution n rdiff Hn) as (x & r & E). exists x, r. split; trivial. intro W. specialize (W 1 (or_introl eq_refl)). rewrite Rabs_R1 in W. lra.
Qed.
Lemma solution_kept F rdiff solve e n search x0 : keeps_size F -> solver_size solve -> 0 <= e -> (2 <= n)%nat -> inf_norm (F x0) = 0 ->
  (forall J b tol, inf_norm b = 0 -> inf_norm (solve J b tol) = 0) -> newton F rdiff solve (default_options e n search) x0 = Done x0 1 [0; 0] true.
Proof. intros. now apply from_solution. Qed.
Lemma shift_solved : keeps_size shift /\ solver_size same /\ inf_norm (shift [3; 3]) = 0 /\ forall J b tol, inf_norm b = 0 -> inf_norm (same J b tol) = 0.
Proof.
  split; [exact shift_size|]. split; [exact same_size|]. split; [|now intros]. change (shift [3; 3]) with [3 - 3; 3 - 3]. replace (3 - 3) with 0 by ring. apply (zero_norms [0; 0]).
Qed.
Lemma affine_solved F rdiff solve e n search A x0 : keeps_size F -> solver_size solve -> 0 <= e -> (2 <= n)%nat -> affine F A -> 0 < rdiff ->
  (forall J b tol, (forall v, length v = length b -> J v = A v) -> (exists v, length v = length b /\ A v = b) -> A (solve J b tol) = b) ->
  (exists y, length y = length x0 /\ inf_norm (F y) = 0) ->
  (forall strategy x v, search = Some strategy -> full_first (norm2 (F x) * norm2 (F x)) (strategy x (F x) v (norm2 (F x) * norm2 (F x)))) ->
  exists x, newton F rdiff solve (default_options e n search) x0 = Done x 1 [inf_norm (F x0); 0] true /\ inf_norm (F x) = 0.
Proof. intros. now apply (affine_once F rdiff solve e n search) with (A := A). Qed.
Lemma backtrack_example k : (forall x dx phi0, armijo phi0 [] ((fun _ _ _ : vec => backtrack k 1) x (shift x) dx phi0)) /\
  forall x tol, 0 <= tol <= 9999 / 10000 -> let dx := vneg (same (jac_matvec shift 1 x (shift x)) (shift x) tol) in
  exists s, fst (run_search shift x dx (Mem 0 (norm2 (shift x) * norm2 (shift x)) (shift x)) (backtrack k 1 (norm2 (shift x) * norm2 (shift x)))) = Some s /\ 0 <= s.
Proof. split; [intros x dx phi0; apply backtrack_armijo|apply shift_search]. Qed.
Lemma search_value_spec F x dx strategy : length dx = length x -> let (x', fx') := line_search F x (F x) dx strategy in fx' = F x' /\ exists s, x' = axpy x s dx.
Proof. intro H. now apply search_value. Qed.
Lemma tolerances_case : keeps_size shift /\ solver_size same /\ forall J b tol, 0 <= tol <= 9999 / 10000 -> same J b tol = (if Rlt_dec 1 tol then [] else b).
Proof. split; [exact shift_size|]. split; [exact same_size|]. intros J b tol H. destruct (Rlt_dec 1 tol); [lra|reflexivity]. Qed.
