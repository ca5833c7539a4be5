From Coq Require Import Reals List Bool Lra Lia String FunctionalExtensionality.
Notation length := List.length.
From Coquelicot Require Import Hierarchy.
From Verif Require Import RkModel RkSpec.
Import ListNotations.
Local Open Scope R_scope.

(** * The limiter *)
Lemma atan_half : atan (/ 2) < / 2.
Proof.
  destruct (MVT_cor2 atan (fun x => / (1 + x ^ 2)) 0 (/ 2)) as (c & E & Hc); [lra| |].
  - intros c Hc. apply derivable_pt_lim_atan.
  - rewrite atan_0 in E. assert (/ (1 + c ^ 2) < 1).
    { rewrite <- Rinv_1. apply Rinv_lt_contravar; nra. }
    assert (0 < / (1 + c ^ 2)) by (apply Rinv_0_lt_compat; nra). nra.
Qed.
Lemma limiter_mono : forall u v, u < v -> limiter u 2 < limiter v 2.
Proof. intros u v H. unfold limiter. assert (atan ((u - 1) / 2) < atan ((v - 1) / 2)) by (apply atan_increasing; lra). lra. Qed.
Lemma limiter_mono_le : forall u v, u <= v -> limiter u 2 <= limiter v 2.
Proof. intros u v [H| ->]; [left; apply limiter_mono, H|right; reflexivity]. Qed.
Lemma limiter_1 : limiter 1 2 = 1.
Proof. unfold limiter. replace ((1 - 1) / 2) with 0 by field. rewrite atan_0. ring. Qed.
Lemma limiter_pos : forall u, 0 <= u -> 0 < limiter u 2.
Proof.
  intros u H. assert (0 < limiter 0 2).
  { unfold limiter. replace ((0 - 1) / 2) with (- / 2) by field. rewrite atan_opp. pose proof atan_half. lra. }
  pose proof (limiter_mono_le 0 u H). lra.
Qed.

Lemma limiter_lt_5 : forall u, limiter u 2 < 5.
Proof. intros u. unfold limiter. destruct (atan_bound ((u - 1) / 2)) as [_ B]. pose proof PI_4. lra. Qed.

Section RK.
Context {V : ModuleSpace R_Ring}.
Variable s : solver V.
Hypothesis OK : sound s.

Definition rho : R := limiter (safety (ctl s)) 2.
Lemma rho_range : 0 < rho < 1.
Proof. destruct OK as (_ & _ & _ & [S1 S2] & _). split; [apply limiter_pos; lra|]. unfold rho. rewrite <- limiter_1. apply limiter_mono, S2. Qed.

Lemma Rpower_le_1 : forall x e, 1 <= x -> e < 0 -> 0 < Rpower x e <= 1.
Proof.
  intros x e Hx He. unfold Rpower. split; [apply exp_pos|]. rewrite <- exp_0.
  assert (0 <= ln x) by (rewrite <- ln_1; destruct Hx as [Hx| <-]; [left; apply ln_increasing; lra|right; reflexivity]).
  assert (e * ln x <= 0) as [L| ->] by nra; [left; apply exp_increasing, L|right; reflexivity].
Qed.
Lemma reject_factor : forall x, 1 <= x -> 0 < limiter (safety (ctl s) * Rpower x (error_exponent (ctl s))) 2 <= rho.
Proof.
  intros x Hx. destruct OK as (_ & _ & _ & [S1 S2] & _ & E & _). destruct (Rpower_le_1 x _ Hx E) as [P1 P2].
  split; [apply limiter_pos; nra|]. apply limiter_mono_le. nra.
Qed.

Lemma decreasing_snoc : forall l a b, decreasing (l ++ [a]) -> b < a -> decreasing ((l ++ [a]) ++ [b]).
Proof.
  induction l as [|x l IH]; intros a b D H; cbn in *; [auto|]. destruct l as [|z l]; cbn in *; [intuition|].
  destruct D as [D1 D2]. split; [exact D1|]. apply (IH a b D2 H).
Qed.

(** What the loop does; [tried ++ [hh]] is the list of the step sizes so far *)
Lemma loop_ok : forall fuel tt yy ff m hp sc old hh tried, 0 < hh -> hh <= hp -> (sc = false -> exists o, old = Some o /\ 0 < o) ->
  decreasing (tried ++ [hh]) ->
  match loop s fuel tt yy ff m hp sc old hh tried with
  | Accepted tried' hu hn x sc' =>
      0 < hu <= hh /\ m <= hu /\ error_norm s tt hu yy ff = Fin x /\ 0 <= x < 1 /\ 0 < hn <= 5 * hu /\ decreasing (tried' ++ [hu]) /\
      (sc' = false -> 0 < x) /\
      (exists rest, tried' = tried ++ rest /\ Forall (fun h' => exists x', error_norm s tt h' yy ff = Fin x' /\ 1 <= x') rest) /\
      (tried' <> [] -> hn <= hu)
  | Rejected tried' =>
      exists rest, tried' = tried ++ rest /\ decreasing tried' /\ Forall (fun h' => forall x', error_norm s tt h' yy ff = Fin x' -> 1 <= x') rest /\
        (rest = [] -> hh < m)
  | Crash => False
  | OutOfFuel => / 10 ^ 12 <= rho ^ (fuel - 1) * hh \/ fuel = 0%nat
  end.
Proof.
  pose proof rho_range as Hr. destruct OK as (Ha & Hb & Hm & [S1 S2] & Hsc & He & Hn).
  induction fuel as [|fuel IH]; intros tt yy ff m hp sc old hh tried Ph Php Hold D; cbn [loop]; [right; reflexivity|].
  assert (decreasing tried) as Dt.
  { clear - D. induction tried as [|a l IH]; [exact Logic.I|]. destruct l as [|b l]; [exact Logic.I|]. cbn in *. intuition. }
  destruct (Rlt_dec hh m) as [Lm|Lm].
  { exists []. rewrite app_nil_r. repeat split; auto. }
  destruct (error_norm s tt hh yy ff) as [x| |] eqn:Ee.
  - assert (0 <= x) as X0 by (eapply Hn; exact Ee).
    destruct (Rlt_dec x 1) as [X1|X1].
    + assert (exists u sc', factor s x hh hp sc old (match tried with [] => false | _ => true end) = Some (u, sc') /\ 0 <= u /\
               (sc' = false -> 0 < x) /\ (tried <> [] -> u <= 1)) as (u & sc' & Ef & Pu & Pq & Pt).
      { unfold factor. destruct (Rlt_dec x (h_min_b s)) as [Lb|Lb].
        - eexists _, _. split; [reflexivity|]. unfold BIG_FACTOR. split; [destruct tried; [lra|unfold Rmin; destruct (Rle_dec 1 4); lra]|].
          split; [discriminate|]. destruct tried; [intros []; reflexivity|intros _; apply Rmin_l].
        - assert (0 < x) by lra. destruct sc.
          + eexists _, _. split; [reflexivity|].
            assert (0 < safety (ctl s) * Rpower x (error_exponent (ctl s))) as P by (apply Rmult_lt_0_compat; [lra|apply exp_pos]).
            split; [destruct tried; [lra|]; apply Rmin_glb; lra|]. split; [auto|]. destruct tried; [intros []; reflexivity|intros _; apply Rmin_l].
          + destruct (Hold eq_refl) as (o & -> & Po). eexists _, _. split; [reflexivity|].
            assert (0 < safety_sc (ctl s) * (Rpower x (minbeta1 (ctl s)) * Rpower o (minbeta2 (ctl s)) * Rpower (hh / hp) (minalpha (ctl s)))) as P.
            { apply Rmult_lt_0_compat; [exact Hsc|]. apply Rmult_lt_0_compat; [apply Rmult_lt_0_compat|]; apply exp_pos. }
            split; [destruct tried; [lra|]; apply Rmin_glb; lra|]. split; [auto|]. destruct tried; [intros []; reflexivity|intros _; apply Rmin_l]. }
      rewrite Ef. assert (0 < limiter u 2) as Pl by (apply limiter_pos, Pu).
      pose proof (limiter_lt_5 u) as U5. repeat split; auto; try lra; [apply Rmult_lt_0_compat; lra|nra| |].
      * exists []. rewrite app_nil_r. repeat split; auto.
      * intros T. specialize (Pt T). pose proof (limiter_mono_le u 1 Pt) as L1. rewrite limiter_1 in L1. nra.
    + assert (1 <= x) as X by lra. destruct (reject_factor x X) as [P1 P2].
      set (h' := hh * limiter _ 2). assert (0 < h') as Ph' by (apply Rmult_lt_0_compat; lra).
      assert (h' <= rho * hh) as Hh' by (unfold h'; nra). assert (h' < hh) as Lh by nra.
      destruct (Rlt_dec h' (/ 10 ^ 12)) as [L12|L12].
      * exists [hh]. split; [reflexivity|]. split; [exact D|]. split; [|discriminate]. constructor; [|constructor]. intros x' E'. congruence.
      * specialize (IH tt yy ff m hp sc old h' (tried ++ [hh]) Ph' ltac:(lra) Hold (decreasing_snoc _ _ _ D Lh)).
        destruct (loop s fuel tt yy ff m hp sc old h' (tried ++ [hh])) as [tr hu hn xx sc'|tr| |].
        -- destruct IH as ([I1 I2] & I3 & I4 & I5 & I6 & I7 & I8 & (rest & -> & I9) & I10).
           repeat split; auto; try lra; try tauto. exists (hh :: rest). rewrite <- app_assoc. split; [reflexivity|]. constructor; eauto.
        -- destruct IH as (rest & -> & I1 & I2 & I3). exists (hh :: rest). rewrite <- app_assoc in *. split; [reflexivity|]. split; [exact I1|].
           split; [|discriminate]. constructor; [|exact I2]. intros x' E'. congruence.
        -- exact IH.
        -- left. destruct IH as [I|I].
           ++ destruct fuel as [|fuel]; [cbn in *; nra|]. cbn [Nat.sub] in *. rewrite Nat.sub_0_r in *. cbn [pow].
              assert (0 <= rho ^ fuel) by (apply pow_le; lra). nra.
           ++ subst fuel. cbn. lra.
  - exists [hh]. split; [reflexivity|]. split; [exact D|]. split; [|discriminate]. constructor; [|constructor]. intros x' E'. congruence.
  - exists [hh]. split; [reflexivity|]. split; [exact D|]. split; [|discriminate]. constructor; [|constructor]. intros x' E'. congruence.
Qed.

Lemma reassess_ok : forall tt hh sc h1 m sc1, tt < t_bound s -> 0 < hh ->
  (forall mx, max_step s = Some mx -> h_min_b s <= mx /\ h_min_a s * (Rabs tt + hh) <= mx) -> reassess s tt hh sc = (h1, m, sc1) ->
  0 < h1 <= t_bound s - tt /\ h_min_b s <= m /\ (sc1 = false -> sc = false).
Proof.
  destruct OK as (Ha & Hb & Hm & _). intros tt hh sc h1 m sc1 Ht Ph Hmx E. unfold reassess in E. cbv zeta in E.
  set (ms := Rmax (h_min_a s * (Rabs tt + hh)) (h_min_b s)) in *.
  assert (h_min_b s <= ms) as Hms by apply Rmax_r.
  rewrite (Rabs_pos_eq (t_bound s - tt)) in E by lra. set (d := t_bound s - tt) in *.
  assert (0 < d) as Pd by (unfold d; lra).
  match type of E with context [if Rlt_dec d (2 * ?x) then _ else _] => set (hc := x) in * end.
  assert (ms <= hc) as Pm.
  { unfold hc. destruct (Rlt_dec hh ms) as [L|L]; cbn [orb].
    - destruct (max_step s) as [mx|] eqn:Em; [|apply Rmax_l]. apply Rmin_glb; [|apply Rmax_l]. destruct (Hmx mx eq_refl). apply Rmax_lub; assumption.
    - destruct (max_step s) as [mx|] eqn:Em; [|lra]. destruct (Rlt_dec mx hh); [|lra]. apply Rmin_glb; [|apply Rmax_l].
      destruct (Hmx mx eq_refl). apply Rmax_lub; assumption. }
  assert (0 < hc) as Pc by lra.
  destruct (Rlt_dec d (2 * hc)) as [L|L].
  - destruct (Rlt_dec hc d) as [L'|L']; injection E as <- <- <-.
    + split; [|split; [exact Hms|discriminate]]. split; [apply Rlt_le_trans with ms; [lra|apply Rmax_r]|].
      apply Rmax_lub; lra.
    + split; [lra|]. split; [exact Hms|]. destruct sc; [|reflexivity]. rewrite orb_true_r. auto.
  - injection E as <- <- <-. split; [lra|]. split; [exact Hms|]. destruct sc; [|reflexivity]. rewrite orb_true_r. auto.
Qed.

(** * Reachable states *)
Variable t0 : R.
Hypothesis Ht0 : t0 < t_bound s.
Hypothesis RM : roomy s t0.

Definition good (st : state V) : Prop :=
  t0 <= t st <= t_bound s /\
  match stat st with
  | Running => t st < t_bound s /\ (exists h0, h st = Some h0 /\ 0 < h0 <= 5 * (t_bound s - t0)) /\
               (standard_sc st = false -> exists o, error_norm_old st = Some o /\ 0 < o)
  | Finished => t st = t_bound s
  | Failed => t st < t_bound s
  end.

Lemma construct_good : forall y0 fs st, construct s t0 y0 (Some fs) = Some st -> good st /\ stat st = Running /\ t st = t0 /\ y st = y0 /\ f st = fun_ s t0 y0.
Proof.
  intros y0 fs st E. unfold construct in E. destruct (Rle_dec fs 0); [discriminate|]. destruct (Rlt_dec _ _) as [|N]; [discriminate|].
  injection E as <-. rewrite Rabs_pos_eq in N by lra. split; [|repeat split]. unfold good. cbn. split; [lra|]. split; [lra|]. split; [|discriminate].
  exists fs. split; [reflexivity|lra].
Qed.

Local Notation enough := (enough s t0).
Lemma enough_exists : exists fuel, enough fuel.
Proof.
  destruct (pow_lt_1_zero rho) with (y := / 10 ^ 12 / (t_bound s - t0)) as [N H].
  - pose proof rho_range. rewrite Rabs_pos_eq; lra.
  - apply Rdiv_lt_0_compat; [apply Rinv_0_lt_compat, pow_lt; lra|lra].
  - exists (S N). split; [lia|]. change (limiter (safety (ctl s)) 2) with rho. cbn [Nat.sub]. rewrite Nat.sub_0_r. specialize (H N (le_n _)).
    pose proof rho_range. rewrite Rabs_pos_eq in H by (apply pow_le; lra).
    apply Rmult_lt_compat_r with (r := t_bound s - t0) in H; [|lra]. unfold Rdiv in H. rewrite Rmult_assoc, Rinv_l in H by lra. lra.
Qed.

(** One step from a running state *)
Lemma step_running : forall fuel st, good st -> stat st = Running ->
  match step s fuel st with
  | Some st' =>
      good st' /\
      ((stat st' = Failed /\ t st' = t st /\ y st' = y st) \/
       (stat st' <> Failed /\ exists hu x, 0 < hu <= t_bound s - t st /\ h_min_b s <= hu /\ t st' = t st + hu /\
          error_norm s (t st) hu (y st) (f st) = Fin x /\ x < 1 /\ y st' = y_new s (t st) hu (y st) (f st) /\
          (FSAL s = true -> f st' = fun_ s (t st') (y st')) /\
          exists hn, h st' = Some hn /\ (FSAL s = false -> f st' = fun_ s (t st + hn) (y st'))))
  | None => ~ enough fuel
  end.
Proof.
  intros fuel st G Er. destruct G as [Gt G]. rewrite Er in G. destruct G as (Gl & (h0 & Eh & Ph0) & Gs).
  unfold step. rewrite Er, Eh. destruct (Req_EM_T (t st) (t_bound s)) as [|_]; [lra|].
  destruct (reassess s (t st) h0 (standard_sc st)) as [[h1 m] sc1] eqn:Ea.
  destruct (reassess_ok (t st) h0 (standard_sc st) h1 m sc1 Gl) as (P1 & Pm & Psc); [lra| |exact Ea|].
  { intros mx Em. destruct (RM mx Em) as [M1 M2]. split; [exact M1|]. eapply Rle_trans; [|exact M2].
    destruct OK as (Ha & _). apply Rmult_le_compat_l; [exact Ha|].
    assert (Rabs (t st) <= Rabs t0 + (t_bound s - t0)).
    { replace (t st) with (t0 + (t st - t0)) by ring. eapply Rle_trans; [apply Rabs_triang|]. rewrite (Rabs_pos_eq (t st - t0)); lra. }
    lra. }
  assert (0 < h1) as P1' by lra.
  assert (sc1 = false -> exists o, error_norm_old st = Some o /\ 0 < o) as Ho by (intros Z; apply Gs, Psc, Z).
  pose proof (loop_ok fuel (t st) (y st) (f st) m h1 sc1 (error_norm_old st) h1 [] P1' (Rle_refl _) Ho Logic.I) as L.
  destruct (loop s fuel (t st) (y st) (f st) m h1 sc1 (error_norm_old st) h1 []) as [tr hu hn x sc'|tr| |].
  - destruct L as ((L1 & L1') & L2 & L3 & L4 & L5 & _ & L8 & _ & _).
    split.
    + unfold good. cbn. split; [lra|]. destruct (Rle_dec 0 (t st + hu - t_bound s)) as [F|F]; [lra|]. split; [lra|]. split.
      * exists hn. split; [reflexivity|]. split; [lra|].
        lra.
      * intros Z. exists x. auto.
    + right. split; [cbn; destruct (Rle_dec _ _); discriminate|]. exists hu, x. cbn. repeat split; auto; try lra.
      * intros ->. reflexivity.
      * exists hn. split; [reflexivity|]. intros ->. reflexivity.
  - split; [|left; cbn; auto]. unfold good. cbn. lra.
  - destruct L.
  - intros [E1 E2]. change (limiter (safety (ctl s)) 2) with rho in E2. destruct L as [L|L]; [|lia].
    assert (0 <= rho ^ (fuel - 1)) by (apply pow_le; pose proof rho_range; lra). nra.
Qed.

Lemma step_not_running : forall fuel st, stat st <> Running -> step s fuel st = None.
Proof. intros fuel st N. unfold step. destruct (stat st); [contradiction|reflexivity|reflexivity]. Qed.

Lemma reachable_good : forall fuel y0 st, reachable s fuel t0 y0 st -> good st.
Proof.
  intros fuel y0 st R. induction R as [fs st E|st st' R IH E].
  - apply (construct_good _ _ _ E).
  - destruct (stat st) eqn:Es; [|rewrite step_not_running in E by congruence; discriminate..].
    pose proof (step_running fuel st IH Es) as H. rewrite E in H. apply H.
Qed.

(** * Termination of the whole integration *)
Lemma drive_ends : forall fuel n st ts, enough fuel -> good st -> stat st = Running -> t_bound s - t st < INR n * h_min_b s ->
  exists st' ts', drive s fuel n st ts = Some (st', ts') /\ good st' /\ stat st' <> Running.
Proof.
  intros fuel. induction n as [|n IH]; intros st ts F G Er B.
  - cbn in B. destruct G as [_ G]. rewrite Er in G. lra.
  - cbn [drive]. pose proof (step_running fuel st G Er) as H. destruct (step s fuel st) as [st'|]; [|contradiction].
    destruct H as [G' H]. destruct (stat st') eqn:Es'.
    + destruct H as [[X _]|(_ & hu & x & _ & Hb & Et & _)]; [congruence|]. apply IH; auto. rewrite Et. rewrite S_INR in B. lra.
    + eexists _, _. split; [reflexivity|]. split; [exact G'|congruence].
    + eexists _, _. split; [reflexivity|]. split; [exact G'|congruence].
Qed.
Lemma terminates : forall y0 fs st, construct s t0 y0 (Some fs) = Some st -> exists fuel n st' ts, enough fuel /\
  drive s fuel n st [t0] = Some (st', ts) /\ ((stat st' = Finished /\ t st' = t_bound s) \/ (stat st' = Failed /\ t st' < t_bound s)).
Proof.
  intros y0 fs st E. destruct enough_exists as [fuel F]. destruct (construct_good y0 fs st E) as (G & Er & Et & _).
  destruct OK as (_ & Hb & _).
  destruct (archimed ((t_bound s - t0) / h_min_b s)) as [A _].
  destruct (drive_ends fuel (Z.to_nat (up ((t_bound s - t0) / h_min_b s))) st [t0] F G Er) as (st' & ts & Ed & Gd & Ns).
  - rewrite Et. rewrite INR_IZR_INZ, Z2Nat.id.
    + apply Rmult_lt_compat_r with (r := h_min_b s) in A; [|exact Hb]. unfold Rdiv in A. rewrite Rmult_assoc, Rinv_l, Rmult_1_r in A by lra. lra.
    + apply le_IZR. apply Rlt_le. eapply Rlt_trans; [|exact A]. apply Rdiv_lt_0_compat; lra.
  - exists fuel, (Z.to_nat (up ((t_bound s - t0) / h_min_b s))), st', ts. split; [exact F|]. split; [exact Ed|]. destruct Gd as [_ Gd].
    destruct (stat st'); [contradiction|left; auto|right; auto].
Qed.
End RK.

(** * The Runge-Kutta formula *)
Section Formula.
Context {V : ModuleSpace R_Ring}.
Variable s : solver V.

Lemma vsum_shift : forall n (g : nat -> V), vsum (S n) g = plus (g 0%nat) (vsum n (fun j => g (S j))).
Proof.
  induction n as [|n IH]; intros g.
  - cbn. rewrite plus_zero_l, plus_zero_r. reflexivity.
  - change (vsum (S (S n)) g) with (plus (vsum (S n) g) (g (S n))). rewrite IH. cbn [vsum]. rewrite plus_assoc. reflexivity.
Qed.
Lemma vsum_ext : forall n (g g' : nat -> V), (forall j, (j < n)%nat -> g j = g' j) -> vsum n g = vsum n g'.
Proof. induction n as [|n IH]; intros g g' H; [reflexivity|]. cbn. rewrite (IH g g'), (H n); auto. Qed.
Lemma comb_vsum : forall c (K : list V), (length c <= length K)%nat ->
  comb c K = vsum (length c) (fun j => scal (V := V) (nth j c 0) (nth j K zero)).
Proof.
  induction c as [|a c IH]; intros [|k K] H; try (cbn in H; lia); [reflexivity|reflexivity|].
  cbn [comb length]. rewrite vsum_shift. cbn [nth]. rewrite <- IH by (cbn in H; lia). reflexivity.
Qed.

Definition K_ok (tt hh : R) (yy : V) (K : list V) : Prop :=
  forall i, (1 <= i < length K)%nat ->
    nth i K zero = fun_ s (tt + nth i (tC (tab s)) 0 * hh)
      (plus yy (scal (V := V) hh (vsum i (fun j => scal (V := V) (nth j (nth i (tA (tab s)) []) 0) (nth j K zero))))).

Lemma nth_firstn : forall {T} i j (l : list T) d, (j < i)%nat -> nth j (firstn i l) d = nth j l d.
Proof. induction i as [|i IH]; intros [|j] [|x l] d H; try lia; try reflexivity. cbn. apply IH. lia. Qed.

Lemma stages_ok : forall n i tt hh yy K, shaped (tab s) -> (1 <= i)%nat -> (i + n = n_stages (tab s))%nat -> length K = i -> K_ok tt hh yy K ->
  let K' := stages s n i tt hh yy K in length K' = n_stages (tab s) /\ K_ok tt hh yy K' /\ nth 0 K' zero = nth 0 K zero.
Proof.
  intros n i tt hh yy K SH. destruct SH as (_ & LA & FA & _). revert i K.
  induction n as [|n IH]; intros i K Hi Hn L HK; cbn [stages].
  - split; [lia|]. auto.
  - set (k := fun_ s _ _). destruct (IH (S i) (K ++ [k])) as (I1 & I2 & I3); [lia|lia|rewrite app_length; cbn; lia| |].
    + intros j Hj. rewrite app_length in Hj. cbn in Hj. destruct (Nat.eq_dec j i) as [->|NE].
      * rewrite app_nth2 by lia. rewrite L, Nat.sub_diag. cbn [nth]. unfold k. do 3 f_equal.
        assert (length (nth i (tA (tab s)) []) = n_stages (tab s)) as Lr.
        { rewrite Forall_forall in FA. apply FA. apply nth_In. lia. }
        rewrite comb_vsum by (rewrite firstn_length; lia). rewrite firstn_length, Lr, Nat.min_l by lia.
        apply vsum_ext. intros l Hl. rewrite nth_firstn by exact Hl. rewrite app_nth1 by lia. reflexivity.
      * rewrite app_nth1 by lia. rewrite HK by lia. do 3 f_equal. apply vsum_ext. intros l Hl. rewrite app_nth1 by lia. reflexivity.
    + split; [exact I1|]. split; [exact I2|]. rewrite I3. rewrite app_nth1 by lia. reflexivity.
Qed.

Lemma y_new_rk : forall tt hh yy ff, shaped (tab s) ->
  rk_step (n_stages (tab s)) (fun i j => nth j (nth i (tA (tab s)) []) 0) (fun j => nth j (tB (tab s)) 0) (fun i => nth i (tC (tab s)) 0)
    (fun_ s) tt hh yy ff (y_new s tt hh yy ff).
Proof.
  intros tt hh yy ff SH. assert (1 <= n_stages (tab s))%nat as N1 by apply SH.
  destruct (stages_ok (n_stages (tab s) - 1) 1 tt hh yy [ff] SH) as (L & HK & H0); [lia|lia|reflexivity|intros i Hi; cbn in Hi; lia|].
  exists (fun i => nth i (all_stages s tt hh yy ff) zero). split; [exact H0|]. split.
  - intros i Hi. apply HK. unfold all_stages in *. rewrite L. exact Hi.
  - unfold y_new. do 2 f_equal. destruct SH as (_ & _ & _ & LB & _). rewrite comb_vsum; [|unfold all_stages; rewrite L; lia]. rewrite LB. reflexivity.
Qed.
End Formula.

(** * The time of the last evaluation *)
Section Time.
Context {V : ModuleSpace R_Ring}.
Variable s : solver V.
Hypothesis OK : sound s.

Lemma first_stage : forall fuel t0 y0 st, t0 < t_bound s -> roomy s t0 -> reachable s fuel t0 y0 st ->
  (FSAL s = true \/ (forall t1 t2 x, fun_ s t1 x = fun_ s t2 x)) -> f st = fun_ s (t st) (y st).
Proof.
  intros fuel t0 y0 st Ht RM R Hyp. induction R as [fs st E|st st' R IH E].
  - destruct (construct_good s t0 Ht _ _ _ E) as (_ & _ & -> & -> & ->). reflexivity.
  - pose proof (reachable_good s OK t0 Ht RM fuel y0 st R) as G.
    destruct (stat st) eqn:Es; [|rewrite step_not_running in E by congruence; discriminate..].
    pose proof (step_running s OK t0 RM fuel st G Es) as H. pose proof E as E0. rewrite E in H. destruct H as [_ [(Z & Et & Ey)|(_ & hu & x & _ & _ & _ & _ & _ & _ & HF & hn & _ & Hf)]].
    + rewrite Et, Ey, <- IH. clear - E Z Es. unfold step in E. rewrite Es in E.
      destruct (Req_EM_T _ _); [injection E as <-; discriminate Z|]. destruct (h st); [|injection E as <-; reflexivity].
      destruct (reassess _ _ _ _) as [[h1 m] sc1]. destruct (loop _ _ _ _ _ _ _ _ _ _ _); try discriminate.
      * injection E as <-. cbn in Z. destruct (Rle_dec _ _); discriminate.
      * injection E as <-. reflexivity.
    + destruct Hyp as [HFS|HA]; [apply HF, HFS|]. destruct (FSAL s); [apply HF; reflexivity|]. rewrite Hf by reflexivity. apply HA.
Qed.
End Time.


(** * Loop, seen from its start *)
Lemma attempts : forall (V : ModuleSpace R_Ring) (s : solver V) fuel tt yy ff m h1 sc old, sound s -> 0 < h1 ->
  (sc = false -> exists o, old = Some o /\ 0 < o) ->
  match loop s fuel tt yy ff m h1 sc old h1 [] with
  | Accepted tried hu hn x _ =>
      hd hu tried = h1 /\ decreasing (tried ++ [hu]) /\ m <= hu /\ error_norm s tt hu yy ff = Fin x /\ x < 1 /\
      Forall (fun h' => exists x', error_norm s tt h' yy ff = Fin x' /\ 1 <= x') tried /\ 0 < hn /\ (tried <> [] -> hn <= hu)
  | Rejected tried => decreasing tried /\ Forall (fun h' => forall x', error_norm s tt h' yy ff = Fin x' -> 1 <= x') tried /\
      (h1 < m \/ (exists r, tried = h1 :: r))
  | Crash => False
  | OutOfFuel => True
  end.
Proof.
  intros V s fuel tt yy ff m h1 sc old OK P Ho. pose proof (loop_ok s OK fuel tt yy ff m h1 sc old h1 [] P (Rle_refl _) Ho Logic.I) as L.
  assert (forall fuel m hp sc old hh tried, match loop s fuel tt yy ff m hp sc old hh tried with
    | Accepted tr hu _ _ _ => exists r, tr ++ [hu] = tried ++ hh :: r
    | Rejected tr => tr = tried \/ exists r, tr = tried ++ hh :: r | _ => True end) as HD.
  { clear. induction fuel as [|fuel IH]; intros m hp sc old hh tried; cbn [loop]; [exact Logic.I|].
    destruct (Rlt_dec hh m); [left; reflexivity|]. destruct (error_norm s tt hh yy ff) as [x| |].
    - destruct (Rlt_dec x 1).
      + destruct (factor _ _ _ _ _ _ _) as [[u sc']|]; [exists []; reflexivity|exact Logic.I].
      + destruct (Rlt_dec _ _); [right; exists []; reflexivity|].
        match goal with |- context [loop s fuel tt yy ff m hp sc old ?a ?b] => specialize (IH m hp sc old a b); destruct (loop s fuel tt yy ff m hp sc old a b) end; auto.
        * destruct IH as [r E]. rewrite <- app_assoc in E. eexists. exact E.
        * right. destruct IH as [->|[r ->]]; [exists []; reflexivity|]. rewrite <- app_assoc. eexists. reflexivity.
    - right; exists []; reflexivity.
    - right; exists []; reflexivity. }
  specialize (HD fuel m h1 sc old h1 []).
  destruct (loop s fuel tt yy ff m h1 sc old h1 []) as [tr hu hn x sc'|tr| |]; auto.
  - destruct L as (L1 & L2 & L3 & L4 & L5 & L6 & _ & (rest & -> & L7) & L8). destruct HD as [r E]. cbn [app] in *.
    split; [destruct rest; cbn in *; congruence|]. repeat split; auto; lra.
  - destruct L as (rest & -> & L1 & L2 & L3). cbn [app] in *. split; [exact L1|]. split; [exact L2|].
    destruct HD as [->|H]; [left; auto|right; exact H].
Qed.

(** * The controllers *)
Lemma controllers_sound : forall name kb1 kb2 a g eeo, In (name, (kb1, kb2, a, g)) controllers ->
  let c := mk_control eeo kb1 kb2 a g in 0 < safety c < 1 /\ 0 < safety_sc c /\ error_exponent c < 0.
Proof.
  intros name kb1 kb2 a g eeo H. cbn.
  assert (0 < g < 1) as G.
  { cbn in H. repeat (destruct H as [H|H]; [injection H as _ _ _ _ <-; lra|]). destruct H. }
  split; [exact G|]. split; [apply exp_pos|]. assert (0 <= INR eeo) by apply pos_INR.
  replace (-1 / (INR eeo + 1)) with (- / (INR eeo + 1)) by (field; lra). assert (0 < / (INR eeo + 1)) by (apply Rinv_0_lt_compat; lra). lra.
Qed.
Lemma tuple_ignored : forall upper default c, choose_controller upper default (Tuple c) = find_controller (upper default).
Proof. reflexivity. Qed.

(** * exode *)
Lemma exode_nan : forall (V : ModuleSpace R_Ring) (mk : (R -> V -> V) -> solver V) median fuel n tau A u, (forall F, t_bound (mk F) = 1) -> (1 <= n)%nat ->
  exode mk median fuel n tau A u (Some None) = Some (nth 0 u zero, None).
Proof.
  intros V mk median fuel n tau A u H Hn. unfold exode. cbn [construct]. destruct n as [|n]; [lia|]. cbn [drive]. unfold step. cbn [stat t h].
  rewrite H. destruct (Req_EM_T 0 1); [lra|]. cbn. reflexivity.
Qed.
Lemma exode_silent : forall (V : ModuleSpace R_Ring) (mk : (R -> V -> V) -> solver V) median A u, sound (mk (exode_fun A u)) -> max_step (mk (exode_fun A u)) = None ->
  t_bound (mk (exode_fun A u)) = 1 -> (forall a b c, enorm (mk (exode_fun A u)) a b c = Fin 2) -> (forall n, exists fuel,
  exode mk median fuel (S n) 1 A u None = Some (nth 0 u zero, None)).
Proof.
  intros V mk median A u OK Em Et En n. set (s := mk (exode_fun A u)) in *.
  assert (0 < t_bound s) as H0 by (rewrite Et; lra).
  assert (roomy s 0) as RM by (intros m E; congruence).
  destruct (enough_exists s OK 0 H0) as [fuel F]. exists fuel. unfold exode. fold s.
  destruct (construct s 0 (nth 0 u zero) (Some 1)) as [st|] eqn:Ec.
  - destruct (construct_good s 0 H0 _ _ _ Ec) as (G & Er & Et' & Ey & _). cbn [drive].
    pose proof (step_running s OK 0 RM fuel st G Er) as H. destruct (step s fuel st) as [st'|]; [|contradiction].
    destruct H as [_ [(Z & _ & E2)|(_ & hu & x & _ & _ & _ & E & X & _)]].
    + rewrite Z. rewrite E2, Ey. reflexivity.
    + unfold error_norm in E. rewrite En in E. injection E as <-. lra.
  - unfold construct in Ec. rewrite Et in Ec. destruct (Rle_dec 1 0); [lra|]. rewrite Rminus_0_r, Rabs_R1 in Ec. destruct (Rlt_dec 1 1); [lra|discriminate].
Qed.

(** * Examples *)
(** Bogacki-Shampine 3(2), butcher.py:136-145: first same as last *)
Definition bs32 : tableau :=
  {| n_stages := 3; tA := [[0; 0; 0]; [1 / 2; 0; 0]; [0; 3 / 4; 0]]; tB := [2 / 9; 1 / 3; 4 / 9]; tC := [0; 1 / 2; 3 / 4];
     tE := [5 / 72; - (1 / 12); - (1 / 9); 1 / 8] |}.
Definition one_stage : tableau := {| n_stages := 1; tA := [[0]]; tB := [1]; tC := [0]; tE := [0; 0] |}.
Definition ex_solver (tb : tableau) (F : R -> R -> R) (x : R) : solver R_ModuleSpace :=
  {| tab := tb; ctl := mk_control 2 1 0 0 (9 / 10); fun_ := F; enorm := fun _ _ _ => Fin x; h_min_a := 0; h_min_b := / 1000; max_step := None; t_bound := 1 |}.
Lemma ex_sound : forall tb F x, 0 <= x -> sound (ex_solver tb F x) /\ forall t0, roomy (ex_solver tb F x) t0.
Proof.
  intros tb F x H. split; [|intros t0 m E; discriminate]. unfold sound. cbn. destruct (controllers_sound "DEADBEAT"%string 1 0 0 (9 / 10) 2) as (C1 & C2 & C3); [left; reflexivity|].
  cbn in C1, C2, C3. split; [lra|]. split; [lra|]. split; [intros m E; discriminate|]. split; [lra|]. split; [lra|]. split; [lra|].
  intros a b c y E. injection E as <-. exact H.
Qed.
Lemma stale_time : exists st st', reachable (ex_solver one_stage (fun t _ => t) 0) 1 0 0 st /\
  step (ex_solver one_stage (fun t _ => t) 0) 1 st = Some st' /\ stat st' = Running /\ f st' <> fun_ (ex_solver one_stage (fun t _ => t) 0) (t st') (y st').
Proof.
  set (s := ex_solver one_stage (fun t _ => t) 0).
  destruct (construct s 0 0 (Some (1 / 4))) as [st|] eqn:Ec; [|unfold construct in Ec; cbn in Ec; destruct (Rle_dec _ _); [lra|]; destruct (Rlt_dec _ _) as [L|]; [rewrite Rabs_pos_eq in L; lra|discriminate]].
  exists st. unfold construct in Ec. cbn [t_bound s ex_solver] in Ec. destruct (Rle_dec (1 / 4) 0); [discriminate|]. destruct (Rlt_dec _ _) as [L|N]; [discriminate|].
  assert (exists st', step s 1 st = Some st' /\ stat st' = Running /\ t st' = 1 / 4 /\ f st' = 1 / 4 * limiter 4 2) as (st' & E1 & E2 & E3 & E4).
  { injection Ec as <-. unfold step. cbn [stat t h y f standard_sc error_norm_old t_bound s ex_solver]. destruct (Req_EM_T 0 1); [lra|].
    unfold reassess. cbn [h_min_a h_min_b max_step t_bound s ex_solver]. cbv zeta. rewrite Rmult_0_l.
    assert (Rmax 0 (/ 1000) = / 1000) as -> by (apply Rmax_right; lra). destruct (Rlt_dec (1 / 4) (/ 1000)); [lra|]. cbn [orb].
    rewrite Rminus_0_r, Rabs_R1. destruct (Rlt_dec 1 (2 * (1 / 4))); [lra|]. cbn [loop].
    destruct (Rlt_dec (1 / 4) (/ 1000)); [lra|]. unfold error_norm at 1. cbn [enorm s ex_solver]. destruct (Rlt_dec 0 1); [|lra].
    unfold factor. cbn [h_min_b s ex_solver]. destruct (Rlt_dec 0 (/ 1000)); [|lra].
    eexists. split; [reflexivity|]. cbn [stat t f]. unfold FSAL. cbn [tab s ex_solver one_stage n_stages tE nth fun_].
    destruct (Req_EM_T 0 0); [|lra]. unfold BIG_FACTOR. destruct (Rle_dec 0 (0 + 1 / 4 - 1)); [lra|]. split; [reflexivity|]. split; lra. }
  exists st'. split; [apply at_start with (fs := 1 / 4)|].
  - unfold construct. cbn [t_bound s ex_solver]. destruct (Rle_dec (1 / 4) 0); [lra|]. destruct (Rlt_dec _ _) as [L|]; [contradiction|]. exact Ec.
  - split; [exact E1|]. split; [exact E2|]. rewrite E3, E4. cbn [fun_ s ex_solver]. intros X.
    pose proof (limiter_mono 1 4 ltac:(lra)) as M. rewrite limiter_1 in M. lra.
Qed.

(** * Statements as used *)
Lemma step_summary : forall (V : ModuleSpace R_Ring) (s : solver V) t0 y0 fuel st, sound s -> roomy s t0 -> shaped (tab s) -> t0 < t_bound s ->
  reachable s fuel t0 y0 st -> stat st = Running ->
  match step s fuel st with
  | Some st' =>
      t st <= t st' <= t_bound s /\ (stat st' = Finished <-> t st' = t_bound s) /\
      ((stat st' = Failed /\ t st' = t st /\ y st' = y st) \/
       (stat st' <> Failed /\ exists hu x, 0 < hu /\ h_min_b s <= hu /\ t st' = t st + hu /\ error_norm s (t st) hu (y st) (f st) = Fin x /\ x < 1 /\
          rk_step (n_stages (tab s)) (fun i j => nth j (nth i (tA (tab s)) []) 0) (fun j => nth j (tB (tab s)) 0) (fun i => nth i (tC (tab s)) 0)
            (fun_ s) (t st) hu (y st) (f st) (y st')))
  | None => ~ enough s t0 fuel
  end.
Proof.
  intros V s t0 y0 fuel st OK RM SH Ht R Er. pose proof (reachable_good s OK t0 Ht RM fuel y0 st R) as G.
  pose proof (step_running s OK t0 RM fuel st G Er) as H. destruct (step s fuel st) as [st'|]; [|exact H].
  destruct H as [G' H]. destruct G' as [Gt Gs].
  split; [|split].
  - destruct H as [(_ & -> & _)|(_ & hu & x & P & _ & -> & _)]; [destruct G; lra|]. destruct P. rewrite <- (Rplus_0_r (t st)) at 1. lra.
  - destruct (stat st'); split; intros X; try congruence; try lra; destruct Gs; lra.
  - destruct H as [H|(N & hu & x & P & Hb & Et & Ex & X & Ey & _)]; [left; exact H|right]. split; [exact N|].
    exists hu, x. repeat split; auto; try lra. rewrite Ey. apply y_new_rk, SH.
Qed.
Lemma terminates_summary : forall (V : ModuleSpace R_Ring) (s : solver V) t0 y0 fs st, sound s -> roomy s t0 -> t0 < t_bound s ->
  construct s t0 y0 (Some fs) = Some st -> exists fuel n st' ts, enough s t0 fuel /\
  drive s fuel n st [t0] = Some (st', ts) /\ ((stat st' = Finished /\ t st' = t_bound s) \/ (stat st' = Failed /\ t st' < t_bound s)).
Proof.
  intros V s t0 y0 fs st OK RM Ht E. destruct (terminates s OK t0 Ht RM y0 fs st E) as (fuel & n & st' & ts & F & D & H).
  exists fuel, n, st', ts. auto.
Qed.
Lemma drive_reachable : forall (V : ModuleSpace R_Ring) (s : solver V) t0 y0 fuel n st ts st' ts', reachable s fuel t0 y0 st ->
  drive s fuel n st ts = Some (st', ts') -> reachable s fuel t0 y0 st'.
Proof.
  intros V s t0 y0 fuel. induction n as [|n IH]; intros st ts st' ts' R E; [discriminate|]. cbn [drive] in E.
  destruct (step s fuel st) as [s1|] eqn:Es; [|discriminate]. assert (reachable s fuel t0 y0 s1) as R1 by (eapply after_step; eauto).
  destruct (stat s1).
  - eapply IH; eauto.
  - injection E as <- _. exact R1.
  - injection E as <- _. exact R1.
Qed.
Lemma exode_finished : forall (V : ModuleSpace R_Ring) (mk : (R -> V -> V) -> solver V) median fuel n tau A u first fs,
  sound (mk (exode_fun A u)) -> roomy (mk (exode_fun A u)) 0 -> t_bound (mk (exode_fun A u)) = 1 ->
  fs = match first with None => tau | Some x => x end -> 0 < fs <= 1 -> enough (mk (exode_fun A u)) 0 fuel ->
  1 < INR n * h_min_b (mk (exode_fun A u)) ->
  exists st next, exode mk median fuel n tau A u (option_map Some first) = Some (y st, next) /\ reachable (mk (exode_fun A u)) fuel 0 (nth 0 u zero) st /\
    ((stat st = Finished /\ t st = 1) \/ stat st = Failed).
Proof.
  intros V mk median fuel n tau A u first fs OK RM Et Efs Hfs F Hn. unfold exode.
  assert (match option_map Some first with None => Some tau | Some x => x end = Some fs) as -> by (destruct first; subst; reflexivity).
  set (s := mk (exode_fun A u)) in *. assert (0 < t_bound s) as H0 by lra.
  destruct (construct s 0 (nth 0 u zero) (Some fs)) as [st|] eqn:Ec.
  - destruct (construct_good s 0 H0 _ _ _ Ec) as (G & Er & Et' & _).
    destruct (drive_ends s OK 0 RM fuel n st [0] F G Er) as (st' & ts & Ed & Gd & Ns); [rewrite Et, Et'; lra|].
    rewrite Ed. exists st'. eexists. split; [reflexivity|]. split.
    + eapply drive_reachable; [|exact Ed]. eapply at_start. exact Ec.
    + destruct Gd as [_ Gd]. destruct (stat st'); [contradiction|left; split; [reflexivity|lra]|right; reflexivity].
  - unfold construct in Ec. rewrite Et in Ec. destruct (Rle_dec fs 0); [lra|]. rewrite Rminus_0_r, Rabs_R1 in Ec. destruct (Rlt_dec 1 fs); [lra|discriminate].
Qed.
Lemma exode_problem : forall (V : ModuleSpace R_Ring) (A : V -> V) u tt x, exode_fun A u tt x = phi_problem A u tt x.
Proof.
  intros V A u tt x. unfold exode_fun, phi_problem. generalize (List.length u - 1)%nat. intros n. induction n as [|n IH].
  - cbn. rewrite plus_zero_r. reflexivity.
  - rewrite seq_S, fold_left_app, IH. cbn [fold_left vsum]. rewrite plus_assoc. do 3 f_equal. lia.
Qed.
Lemma exode_problem_fun : forall (V : ModuleSpace R_Ring) (A : V -> V) u, exode_fun A u = phi_problem A u.
Proof. intros. apply functional_extensionality. intros tt. apply functional_extensionality. intros x. apply exode_problem. Qed.
Lemma exode_silent_phi : forall (V : ModuleSpace R_Ring) (mk : (R -> V -> V) -> solver V) median A u, sound (mk (phi_problem A u)) -> max_step (mk (phi_problem A u)) = None ->
  t_bound (mk (phi_problem A u)) = 1 -> (forall a b c, enorm (mk (phi_problem A u)) a b c = Fin 2) -> (forall n, exists fuel,
  exode mk median fuel (S n) 1 A u None = Some (nth 0 u zero, None)).
Proof. intros V mk median A u. rewrite <- exode_problem_fun. apply exode_silent. Qed.
Lemma exode_finished_phi : forall (V : ModuleSpace R_Ring) (mk : (R -> V -> V) -> solver V) median fuel n tau A u first fs,
  sound (mk (phi_problem A u)) -> roomy (mk (phi_problem A u)) 0 -> t_bound (mk (phi_problem A u)) = 1 ->
  fs = match first with None => tau | Some x => x end -> 0 < fs <= 1 -> enough (mk (phi_problem A u)) 0 fuel ->
  1 < INR n * h_min_b (mk (phi_problem A u)) ->
  exists st next, exode mk median fuel n tau A u (option_map Some first) = Some (y st, next) /\ reachable (mk (phi_problem A u)) fuel 0 (nth 0 u zero) st /\
    ((stat st = Finished /\ t st = 1) \/ stat st = Failed).
Proof. intros V mk median fuel n tau A u. rewrite <- exode_problem_fun. apply exode_finished. Qed.
