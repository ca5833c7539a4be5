From Coq Require Import Reals QArith Qreals List Bool Lra Lia.
From Coquelicot Require Import Hierarchy.
From Verif Require Import EpiModel EpiSpec.
Import ListNotations.
Local Open Scope R_scope.

Section Hist.
Context {V : ModuleSpace R_Ring} {I K : Type}.
Variable e : epi V I K.

Lemma lin_comb_snoc : forall a (x : list V) x0 b y, length a = length x ->
  lin_comb x0 (a ++ [b]) (x ++ [y]) = plus (lin_comb x0 a x) (scal (V := V) b y).
Proof.
  induction a as [|c a IH]; intros [|z x] x0 b y H; try discriminate; cbn; [reflexivity|].
  apply IH. injection H; auto.
Qed.

Lemma add_to_ok : forall (vec : list V) k x, (k < length vec)%nat -> exists vec', add_to V vec k x = Some vec' /\ length vec' = length vec /\
  forall j, nth_error vec' j = if Nat.eqb j k then option_map (fun v => plus v x) (nth_error vec k) else nth_error vec j.
Proof.
  induction vec as [|v r IH]; intros k x H; [cbn in H; lia|]. destruct k as [|k]; cbn.
  - eexists. split; [reflexivity|]. split; [reflexivity|]. intros [|j]; reflexivity.
  - destruct (IH k x) as (r' & E & L & N); [cbn in H; lia|]. rewrite E. eexists. split; [reflexivity|]. split; [cbn; lia|].
    intros [|j]; cbn; [reflexivity|]. apply N.
Qed.

Lemma add_column_ok : forall column (vec : list V) k r, (k + length column <= length vec)%nat ->
  exists vec', add_column V vec k column r = Some vec' /\ length vec' = length vec /\
  forall j v, nth_error vec j = Some v ->
    nth_error vec' j = Some (match (if (k <=? j)%nat then nth_error column (j - k) else None) with
                             | Some a => plus v (scal (V := V) a r) | None => v end).
Proof.
  induction column as [|a column IH]; intros vec k r H; cbn.
  - exists vec. split; [reflexivity|]. split; [reflexivity|]. intros j v E. rewrite E. destruct (Nat.leb k j); [|reflexivity].
    now destruct (Nat.sub j k).
  - cbn in H. destruct (add_to_ok vec k (scal (V := V) a r)) as (v1 & E1 & L1 & N1); [lia|]. rewrite E1.
    destruct (IH v1 (S k) r) as (v2 & E2 & L2 & N2); [lia|]. rewrite E2. exists v2. split; [reflexivity|]. split; [lia|].
    intros j v E. specialize (N1 j). destruct (Nat.eqb_spec j k) as [Hjk|NE].
    + rewrite <- Hjk, E in N1. cbn in N1. rewrite <- Hjk in *. rewrite (N2 _ _ N1). rewrite Nat.sub_diag.
      destruct (S j <=? j)%nat eqn:X; [apply Nat.leb_le in X; lia|]. rewrite Nat.leb_refl. reflexivity.
    + rewrite E in N1. rewrite (N2 _ _ N1). destruct (k <=? j)%nat eqn:X.
      * apply Nat.leb_le in X. destruct (S k <=? j)%nat eqn:Y; [|apply Nat.leb_gt in Y; lia].
        replace (j - k)%nat with (S (j - S k)) by lia. reflexivity.
      * apply Nat.leb_gt in X. destruct (S k <=? j)%nat eqn:Y; [apply Nat.leb_le in Y; lia|]. reflexivity.
Qed.

Lemma nth_error_col : forall (M : list (list R)) i n, Forall (fun row => length row = n) M -> (i < n)%nat ->
  forall k, nth_error (map (fun row => nth i row 0) M) k = match nth_error M k with Some row => nth_error row i | None => None end.
Proof.
  intros M i n F Hi k. rewrite nth_error_map. destruct (nth_error M k) as [row|] eqn:E; [|reflexivity]. cbn.
  apply nth_error_In in E. rewrite Forall_forall in F. apply F in E. symmetry. apply nth_error_nth'. lia.
Qed.

Lemma firstn_S_nth : forall {T} (l : list T) i x, nth_error l i = Some x -> firstn (S i) l = firstn i l ++ [x].
Proof.
  induction l as [|y l IH]; intros [|i] x H; try discriminate; cbn in *.
  - injection H as ->. reflexivity.
  - f_equal. apply IH, H.
Qed.

Definition row_value (q : V) (saved : list V) (i j : nat) (base : V) : V :=
  match (if (first_row e <=? j)%nat then nth_error (A e) (j - first_row e) else None) with
  | Some row => lin_comb base (firstn i row) (map (remainder e q) (firstn i saved))
  | None => base
  end.

Lemma add_previous_ok : forall n i vec q saved, well_formed e -> (i + n = n_prev e)%nat -> length saved = n_prev e ->
  length vec = phi_rows e ->
  (forall j v, nth_error vec j = Some v -> v = row_value q saved i j (if Nat.eqb j 1 then rhs e q else zero)) ->
  exists vec', add_previous V I K e vec q (rhs e q) i n saved (map (rhs e) saved) = Some vec' /\ length vec' = phi_rows e /\
  forall j v, nth_error vec' j = Some v -> v = row_value q saved (n_prev e) j (if Nat.eqb j 1 then rhs e q else zero).
Proof.
  intros n i vec q saved W. destruct W as (_ & F & _ & _ & W). revert i vec.
  induction n as [|n IH]; intros i vec Hn Hs L N; cbn [add_previous].
  - exists vec. split; [reflexivity|]. split; [exact L|]. intros j v E. rewrite (N j v E). replace i with (n_prev e) by lia. reflexivity.
  - destruct (nth_error saved i) as [qi|] eqn:Eq; [|apply nth_error_None in Eq; lia].
    rewrite (map_nth_error _ _ _ Eq).
    destruct W as [W|W]; [lia|].
    destruct (add_column_ok (map (fun row => nth i row 0) (A e)) vec (first_row e) (remainder e q qi)) as (v' & E' & L' & N').
    { rewrite map_length. lia. }
    unfold remainder in E'. rewrite E'. apply IH; [lia|exact Hs|lia|]. clear IH.
    intros j v Ev.
    assert (exists v0, nth_error vec j = Some v0) as [v0 E0].
    { destruct (nth_error vec j) eqn:Z; [eauto|]. apply nth_error_None in Z. assert (nth_error v' j <> None) as Z' by congruence.
      apply nth_error_Some in Z'. lia. }
    specialize (N' _ _ E0). rewrite Ev in N'. injection N' as ->. specialize (N _ _ E0).
    unfold row_value in *. destruct (first_row e <=? j)%nat; [|exact N].
    rewrite (nth_error_col _ i (n_prev e) F ltac:(lia)). destruct (nth_error (A e) (j - first_row e)) as [row|] eqn:Er; [|exact N].
    assert (length row = n_prev e) as Lr by (apply nth_error_In in Er; rewrite Forall_forall in F; auto).
    destruct (nth_error row i) as [a|] eqn:Ea; [|apply nth_error_None in Ea; lia].
    rewrite (firstn_S_nth _ _ _ Ea), (firstn_S_nth _ _ _ Eq), map_app. cbn [map]. rewrite lin_comb_snoc.
    + rewrite N. reflexivity.
    + rewrite map_length, !firstn_length. lia.
Qed.

Lemma vec0_ok : forall q saved, well_formed e ->
  length (vec0 V I K e (rhs e q)) = phi_rows e /\
  forall j v, nth_error (vec0 V I K e (rhs e q)) j = Some v -> v = row_value q saved 0 j (if Nat.eqb j 1 then rhs e q else zero).
Proof.
  intros q saved (_ & _ & _ & W & _). split; [unfold vec0; cbn; rewrite repeat_length; lia|].
  intros j v E.
  assert (v = if Nat.eqb j 1 then rhs e q else zero) as ->.
  { unfold vec0 in E. destruct j as [|[|j]]; cbn in *; try congruence. apply nth_error_In, repeat_spec in E. exact E. }
  unfold row_value. destruct (if (first_row e <=? j)%nat then _ else _); reflexivity.
Qed.

(** The states the code keeps for the next call *)
Fixpoint code_run (dt : R) (past : list (V * R)) : list V :=
  match past with [] => [] | (q, d) :: r => if dt_changed d dt then [] else q :: code_run d r end.

Definition inv (past : list (V * R)) (s : state V I K) : Prop :=
  previous_rhs s = map (rhs e) (previous_Q s) /\
  match past with
  | [] => dt_ s = 0 /\ previous_Q s = []
  | (q, d) :: r => dt_ s = d /\ previous_Q s = firstn (n_prev e) (q :: code_run d r)
  end.

Lemma firstn_pop : forall {T} n (l : list T) q, (n <= length l)%nat -> (0 < n)%nat -> q :: removelast (firstn n l) = firstn n (q :: l).
Proof.
  intros T [|n] l q H P; [lia|]. rewrite removelast_firstn by lia. reflexivity.
Qed.

Lemma removelast_map : forall {T U} (f : T -> U) l, removelast (map f l) = map f (removelast l).
Proof.
  intros T U f. induction l as [|x l IH]; [reflexivity|]. destruct l as [|y l]; [reflexivity|].
  change (f x :: removelast (map f (y :: l)) = f x :: map f (removelast (y :: l))). f_equal. exact IH.
Qed.

Lemma inv_usable : forall past s dt, inv past s ->
  (if dt_changed (dt_ s) dt then [] else previous_Q s) = firstn (n_prev e) (code_run dt past) /\
  (if dt_changed (dt_ s) dt then [] else previous_rhs s) = map (rhs e) (firstn (n_prev e) (code_run dt past)).
Proof.
  intros past s dt [Hr H]. rewrite Hr. destruct past as [|[q0 d0] r].
  - destruct H as [-> ->]. cbn. rewrite firstn_nil. destruct (dt_changed 0 dt); auto.
  - destruct H as [-> ->]. cbn [code_run]. destruct (dt_changed d0 dt); [|auto]. rewrite firstn_nil. auto.
Qed.

Lemma phi_input_of : forall q saved vec, length vec = phi_rows e -> length saved = n_prev e -> well_formed e ->
  (forall j v, nth_error vec j = Some v -> v = row_value q saved (n_prev e) j (if Nat.eqb j 1 then rhs e q else zero)) -> phi_input e q saved vec.
Proof.
  intros q saved vec L Hs (_ & F & _) N. split; [exact L|]. intros j v E. cbn zeta. rewrite (N j v E). unfold row_value.
  destruct (first_row e <=? j)%nat; [|reflexivity]. destruct (nth_error (A e) _) as [row|] eqn:Er; [|reflexivity].
  apply nth_error_In in Er. rewrite Forall_forall in F. apply F in Er.
  rewrite !firstn_all2 by lia. reflexivity.
Qed.

Lemma step_ok : forall past s q dt, well_formed e -> inv past s ->
  exists s' q', step e s q dt = Some (s', q') /\ inv ((q, dt) :: past) s' /\
    expected e (code_run dt past) (krylov s) (init_state s) q dt (krylov s') (init_state s') q'.
Proof.
  intros past s q dt W H. destruct (inv_usable past s dt H) as [Eq Er]. unfold step. rewrite Eq, Er. clear Eq Er.
  unfold expected. set (u := code_run dt past).
  rewrite firstn_length.
  destruct (Nat.ltb_spec (Nat.min (n_prev e) (length u)) (n_prev e)) as [Hl|Hl].
  - destruct (Nat.ltb_spec (length u) (n_prev e)) as [_|X]; [|lia].
    destruct (substeps _ _ _ _) as [i' q'] eqn:Es. eexists _, _. split; [reflexivity|]. split; [|split; [reflexivity|reflexivity]].
    rewrite firstn_all2 by lia. split; [reflexivity|]. split; [reflexivity|]. cbn [previous_Q]. fold u.
    rewrite firstn_all2 by (cbn; lia). reflexivity.
  - destruct (Nat.ltb_spec (length u) (n_prev e)) as [X|_]; [lia|].
    destruct (vec0_ok q (firstn (n_prev e) u) W) as [L0 N0].
    destruct (add_previous_ok (n_prev e) 0 (vec0 V I K e (rhs e q)) q (firstn (n_prev e) u) W eq_refl) as (vec & Ev & Lv & Nv);
      [rewrite firstn_length; lia|exact L0|exact N0|].
    rewrite Ev. destruct (phi e (krylov s) dt q (rhs e q) vec) as [k' phiv] eqn:Ep. eexists _, _. split; [reflexivity|].
    split; [|split; [reflexivity|]].
    + destruct (Nat.ltb_spec 0 (n_prev e)) as [P|P].
      * split; [|split; [reflexivity|]]; cbn [previous_Q previous_rhs dt_].
        -- cbn [map]. f_equal. apply removelast_map.
        -- fold u. apply firstn_pop; lia.
      * assert (n_prev e = 0)%nat as Z by lia. split; [reflexivity|split; [reflexivity|]]. cbn [previous_Q]. rewrite Z. reflexivity.
    + exists vec, phiv. split; [|split; [exact Ep|reflexivity]].
      apply phi_input_of; auto. rewrite firstn_length. lia.
Qed.

Lemma steps_ok : forall calls past s, well_formed e -> inv past s ->
  exists s' qs, steps e s calls = Some (s', qs) /\ inv (rev calls ++ past) s'.
Proof.
  induction calls as [|[q dt] r IH]; intros past s W H; cbn [steps].
  - exists s, []. auto.
  - destruct (step_ok past s q dt W H) as (s1 & q1 & E1 & H1 & _). rewrite E1.
    destruct (IH _ _ W H1) as (s2 & qs & E2 & H2). rewrite E2. exists s2, (q1 :: qs). split; [reflexivity|].
    cbn [rev]. rewrite <- app_assoc. exact H2.
Qed.

Lemma initial_inv : forall k i, inv [] (initial k i).
Proof. intros k i. split; [reflexivity|]. split; reflexivity. Qed.

Lemma dt_changed_near : forall d dt, dt_changed d dt = false <-> d = 0 \/ Rabs (d - dt) <= / 10 ^ 10.
Proof.
  intros d dt. unfold dt_changed. destruct (Req_EM_T d 0) as [->|N]; [cbn; tauto|]. destruct (Rlt_dec _ _) as [L|L]; cbn.
  - split; [discriminate|]. intros [E|E]; [contradiction|lra].
  - split; [intros _; right; lra|reflexivity].
Qed.

Lemma code_run_near : forall past dt, code_run dt past = map fst (near_dt dt past).
Proof.
  induction past as [|[q d] r IH]; intros dt; [reflexivity|]. cbn [code_run near_dt].
  destruct (dt_changed d dt) eqn:E.
  - destruct (Req_EM_T d 0) as [Z|Z]; [assert (dt_changed d dt = false) by (apply dt_changed_near; auto); congruence|].
    destruct (Rle_dec _ _) as [L|L]; [assert (dt_changed d dt = false) by (apply dt_changed_near; auto); congruence|reflexivity].
  - apply dt_changed_near in E. destruct (Req_EM_T d 0) as [Z|Z]; [cbn; rewrite IH; reflexivity|].
    destruct (Rle_dec _ _) as [L|L]; [cbn; rewrite IH; reflexivity|]. destruct E; contradiction.
Qed.

Lemma code_run_same : forall past dt, clear_dts (dt :: map snd past) -> code_run dt past = same_dt dt past.
Proof.
  induction past as [|[q d] r IH]; intros dt C; [reflexivity|]. cbn [map snd] in C. cbn [clear_dts] in C. destruct C as (Z & S & C).
  cbn [code_run same_dt]. destruct (Req_EM_T d dt) as [->|N].
  - assert (dt_changed dt dt = false) as ->.
    { apply dt_changed_near. right. rewrite Rminus_diag_eq by reflexivity. rewrite Rabs_R0. apply Rlt_le, Rinv_0_lt_compat, pow_lt. lra. }
    f_equal. apply IH. exact C.
  - destruct S as [S|S]; [contradiction|]. destruct (dt_changed d dt) eqn:E; [reflexivity|]. apply dt_changed_near in E.
    destruct E as [E|E]; [contradiction|lra].
Qed.

Lemma near_bound : forall (past : list (V * R)) dt j q d, Forall (fun c => snd c <> 0) past -> nth_error (near_dt dt past) j = Some (q, d) ->
  Rabs (d - dt) <= INR (S j) / 10 ^ 10.
Proof.
  induction past as [|[q0 d0] r IH]; intros dt j q d F E; [destruct j; discriminate|].
  inversion F as [|? ? F0 F1]; subst. cbn [snd] in F0. cbn [near_dt] in E. destruct (Req_EM_T d0 0) as [Z|_]; [contradiction|].
  destruct (Rle_dec _ _) as [L|L]; [|destruct j; discriminate].
  destruct j as [|j]; cbn [nth_error] in E.
  - injection E as -> ->. replace (INR 1) with 1 by reflexivity. unfold Rdiv. rewrite Rmult_1_l. exact L.
  - apply IH in E; auto. replace (d - dt) with ((d - d0) + (d0 - dt)) by ring.
    eapply Rle_trans; [apply Rabs_triang|]. rewrite (S_INR (S j)). unfold Rdiv in *. lra.
Qed.

Theorem history_near : forall k i calls q dt, well_formed e ->
  exists s qs, steps e (initial k i) calls = Some (s, qs) /\ exists s' q', step e s q dt = Some (s', q') /\
    expected e (map fst (near_dt dt (rev calls))) (krylov s) (init_state s) q dt (krylov s') (init_state s') q'.
Proof.
  intros k i calls q dt W. destruct (steps_ok calls [] _ W (initial_inv k i)) as (s & qs & E & H). rewrite app_nil_r in H.
  exists s, qs. split; [exact E|]. destruct (step_ok _ s q dt W H) as (s' & q' & E' & _ & X). exists s', q'. split; [exact E'|].
  rewrite <- code_run_near. exact X.
Qed.
Theorem history_exact : forall k i calls q dt, well_formed e -> clear_dts (dt :: map snd (rev calls)) ->
  exists s qs, steps e (initial k i) calls = Some (s, qs) /\ exists s' q', step e s q dt = Some (s', q') /\
    expected e (same_dt dt (rev calls)) (krylov s) (init_state s) q dt (krylov s') (init_state s') q'.
Proof.
  intros k i calls q dt W C. destruct (history_near k i calls q dt W) as (s & qs & E & s' & q' & E' & X). exists s, qs. split; [exact E|].
  exists s', q'. split; [exact E'|]. rewrite <- code_run_near, code_run_same in X by exact C. exact X.
Qed.

(** For an affine right-hand side with its exact Jacobian the remainders vanish: the history does not matter. *)
Lemma lin_comb_zero : forall a (x : list V) x0, Forall (fun y => y = zero) x -> lin_comb x0 a x = x0.
Proof.
  induction a as [|b a IH]; intros [|y x] x0 F; cbn; try reflexivity. inversion F as [|? ? Hy Fx]; subst.
  rewrite scal_zero_r, plus_zero_r. apply IH. exact Fx.
Qed.
Lemma affine_remainder : (forall q saved, jac e q (rhs e q) (minus saved q) = minus (rhs e saved) (rhs e q)) ->
  forall q saved, remainder e q saved = zero.
Proof. intros H q saved. unfold remainder. rewrite H. apply minus_eq_zero. Qed.
Lemma affine_input : (forall q saved, jac e q (rhs e q) (minus saved q) = minus (rhs e saved) (rhs e q)) ->
  forall q saved vec j v, phi_input e q saved vec -> nth_error vec j = Some v -> v = if Nat.eqb j 1 then rhs e q else zero.
Proof.
  intros H q saved vec j v [_ N] E. apply N in E. cbn zeta in E. rewrite E.
  destruct (if (first_row e <=? j)%nat then _ else _) as [row|]; [|reflexivity].
  apply lin_comb_zero. apply Forall_map, Forall_forall. intros x _. apply affine_remainder. exact H.
Qed.
End Hist.

(** The constructors give well-formed integrators *)
Lemma Epi_wf : forall (V : ModuleSpace R_Ring) I K order r j (p : K -> R -> V -> V -> list V -> K * V) (init : I -> V -> R -> I * V) sub e,
  (1 <= sub)%nat -> Epi order r j p init sub = Some e -> well_formed e /\ n_prev e = (order - 2)%nat.
Proof.
  intros V I K order r j p init sub e S E. unfold Epi in E. destruct (table order) as [T|] eqn:ET; [|discriminate].
  destruct order as [|[|[|[|[|[|[|]]]]]]]; try discriminate ET; injection ET as <-; injection E as <-;
    (split; [split; [exact S|split; [|split; [cbn; lia|split; [cbn; lia|cbn; lia]]]]|reflexivity]); repeat constructor.
Qed.
Lemma EpiStiff_wf : forall (V : ModuleSpace R_Ring) I K order al r j (p : K -> R -> V -> V -> list V -> K * V) (init : I -> V -> R -> I * V) sub e,
  (1 <= sub)%nat -> EpiStiff order al r j p init sub = Some e -> well_formed e /\ n_prev e = (order - 2)%nat.
Proof.
  intros V I K order al r j p init sub e S E. unfold EpiStiff in E. destruct (Nat.ltb_spec order 2) as [|H]; [discriminate|].
  injection E as <-.
  assert (forall n, n_cols (map (fun k => map (al k) (seq 0 n)) (seq 0 n)) = n) as NC.
  { intros [|n]; [reflexivity|]. cbn [seq map n_cols]. cbn [length]. rewrite map_length, seq_length. reflexivity. }
  unfold well_formed, n_prev. cbn [A init_substeps first_row phi_rows]. rewrite NC.
  split; [split; [exact S|split; [|split; [lia|split; [destruct (Nat.ltb_spec 2 order); lia|]]]]|reflexivity].
  - apply Forall_map, Forall_forall. intros k _. rewrite map_length, seq_length. reflexivity.
  - rewrite map_length, seq_length. destruct (Nat.ltb_spec 2 order); lia.
Qed.

(** The tables *)
Lemma Epi_tables : forall order A, table order = Some A -> epi_order_conditions A order.
Proof.
  intros order A E. destruct order as [|[|[|[|[|[|[|]]]]]]]; try discriminate E; injection E as <-; intros p q Hp Hq.
  - lia.
  - assert (p = 2 /\ q = 0)%nat as [-> ->] by lia. reflexivity.
  - assert ((p = 2 /\ q = 0) \/ (p = 2 /\ q = 1) \/ (p = 3 /\ q = 0))%nat as X by lia. destruct X as [[-> ->]|[[-> ->]|[-> ->]]]; vm_compute; reflexivity.
  - assert ((p = 2 /\ q = 0) \/ (p = 2 /\ q = 1) \/ (p = 2 /\ q = 2) \/ (p = 3 /\ q = 0) \/ (p = 3 /\ q = 1) \/ (p = 4 /\ q = 0))%nat as X by lia. destruct X as [[-> ->]|[[-> ->]|[[-> ->]|[[-> ->]|[[-> ->]|[-> ->]]]]]]; vm_compute; reflexivity.
  - assert ((p = 2 /\ q = 0) \/ (p = 2 /\ q = 1) \/ (p = 2 /\ q = 2) \/ (p = 2 /\ q = 3) \/ (p = 3 /\ q = 0) \/ (p = 3 /\ q = 1) \/ (p = 3 /\ q = 2) \/ (p = 4 /\ q = 0) \/ (p = 4 /\ q = 1) \/ (p = 5 /\ q = 0))%nat as X by lia. destruct X as [[-> ->]|[[-> ->]|[[-> ->]|[[-> ->]|[[-> ->]|[[-> ->]|[[-> ->]|[[-> ->]|[[-> ->]|[-> ->]]]]]]]]]]; vm_compute; reflexivity.
Qed.
Lemma Epi_tables_sharp : forall order A, table order = Some A -> (3 <= order)%nat -> ~ epi_order_conditions A (order + 1).
Proof.
  intros order A E H C. specialize (C order 0%nat ltac:(lia) ltac:(lia)).
  destruct order as [|[|[|[|[|[|[|]]]]]]]; try discriminate E; injection E as <-; try lia; vm_compute in C; discriminate C.
Qed.
Lemma table_orders : forall order, table order <> None <-> (2 <= order <= 6)%nat.
Proof.
  intros order. destruct order as [|[|[|[|[|[|[|]]]]]]]; cbn; (split; [intros H|intros H]); try lia; try discriminate; try (now destruct H).
Qed.

(** A concrete integrator over R *)
Definition ex_rhs (x : R) : R := x * x.
Definition ex_epi (order : nat) : option (epi R_ModuleSpace unit nat) :=
  Epi (V := R_ModuleSpace) order ex_rhs (fun q _ v => 2 * q * v) (fun k h q f vec => (S k, nth 1 vec 0)) (fun u q h => (u, q + h * ex_rhs q)) 10.
Definition ex_epi3 : epi R_ModuleSpace unit nat :=
  {| A := [[Q2R (2 # 3)]]; first_row := 2; phi_rows := 3; rhs := ex_rhs; jac := fun q _ v => 2 * q * v;
     phi := fun k h q f vec => (S k, nth 1 vec 0); init_step := fun u q h => (u, q + h * ex_rhs q); init_substeps := 10 |}.
Lemma drift : exists calls q dt s qs s' q', Forall (fun c => snd c <> 0) calls /\ dt <> 0 /\ same_dt dt (rev calls) = [] /\
  steps ex_epi3 (initial 0%nat tt) calls = Some (s, qs) /\ step ex_epi3 s q dt = Some (s', q') /\ krylov s' = S (krylov s).
Proof.
  assert (well_formed ex_epi3) as W by (split; [cbn; lia|split; [repeat constructor|cbn; lia]]).
  exists [(1, 1)], 2, (1 + / 10 ^ 11).
  destruct (history_near ex_epi3 0%nat tt [(1, 1)] 2 (1 + / 10 ^ 11) W) as (s & qs & E & s' & q' & E' & X).
  assert (0 < / 10 ^ 11) as P by (apply Rinv_0_lt_compat; apply pow_lt; lra).
  assert (/ 10 ^ 11 <= / 10 ^ 10) as P' by (apply Rinv_le_contravar; [apply pow_lt; lra|apply Rle_pow; [lra|lia]]).
  exists s, qs, s', q'. split; [repeat constructor; cbn; lra|]. split; [lra|]. split; [cbn; destruct (Req_EM_T 1 _); [lra|reflexivity]|].
  split; [exact E|]. split; [exact E'|].
  cbn [rev app near_dt] in X. destruct (Req_EM_T 1 0); [lra|]. destruct (Rle_dec _ _) as [|N].
  - destruct X as (_ & vec & phiv & _ & Hp & _). cbn in Hp. injection Hp. auto.
  - exfalso. apply N. replace (1 - (1 + / 10 ^ 11)) with (- / 10 ^ 11) by ring. rewrite Rabs_Ropp, Rabs_pos_eq; lra.
Qed.
