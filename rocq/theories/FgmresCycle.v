From Coq Require Import Reals List Bool Arith Lra Lia.
From Coquelicot Require Import Hierarchy.
From Verif Require Import InnerSpec InnerFacts FgmresModel FgmresFacts FgmresProofs VecTac.
Import ListNotations.
Local Open Scope R_scope.

Lemma null_vector : forall hs v, (forall j l, (j < length hs)%nat -> (j < l)%nat -> nth j hs h0 l = 0) -> upper_solve (rev hs) v = None ->
  exists y, (exists k, (k < length hs)%nat /\ y k <> 0) /\ forall l, rsum (length hs) (fun j => y j * nth j hs h0 l) = 0.
Proof.
  induction hs as [|h hs IH] using rev_ind; intros v T H; [discriminate|]. rewrite rev_app_distr in H. cbn [rev app upper_solve] in H. rewrite rev_length in H. assert (LL : length (hs ++ [h]) = S (length hs)) by (rewrite app_length; cbn; lia). rewrite LL in *.
  assert (T' : forall j l, (j < length hs)%nat -> (j < l)%nat -> nth j hs h0 l = 0). { intros j l Hj Hl. specialize (T j l). rewrite nth_snoc in T by exact Hj. apply T; lia. }
  assert (EXT : forall v', upper_solve (rev hs) v' = None -> exists y, (exists k, (k < S (length hs))%nat /\ y k <> 0) /\ forall l, rsum (S (length hs)) (fun j => y j * nth j (hs ++ [h]) h0 l) = 0).
  { intros v' N. destruct (IH v' T' N) as (y & (k & Hk & Yk) & Y). exists (fun j => if Nat.ltb j (length hs) then y j else 0). split.
    - exists k. split; [lia|]. destruct (Nat.ltb_spec k (length hs)); [exact Yk|lia].
    - intros l. cbn [rsum]. destruct (Nat.ltb_spec (length hs) (length hs)); [lia|]. rewrite (rsum_ext (length hs) _ (fun j => y j * nth j hs h0 l)), Y; [ring|]. intros i Hi. destruct (Nat.ltb_spec i (length hs)); [|lia]. rewrite nth_snoc by lia. reflexivity. }
  destruct (Req_EM_T (h (length hs)) 0) as [Z|Z].
  - destruct (upper_solve (rev hs) (fun l => - h l)) as [ys|] eqn:E; [|exact (EXT _ E)]. destruct (upper_solve_ok hs _ ys T' E) as [LY Y]. exists (fun j => if Nat.ltb j (length hs) then nth j ys 0 else 1). split.
    + exists (length hs). split; [lia|]. destruct (Nat.ltb_spec (length hs) (length hs)); [lia|lra].
    + intros l. cbn [rsum]. destruct (Nat.ltb_spec (length hs) (length hs)); [lia|]. rewrite nth_end. rewrite (rsum_ext (length hs) _ (fun j => nth j ys 0 * nth j hs h0 l)) by (intros i Hi; destruct (Nat.ltb_spec i (length hs)); [|lia]; rewrite nth_snoc by lia; reflexivity).
      destruct (lt_eq_lt_dec l (length hs)) as [[Hl| ->]|Hl].
      * unfold h0. rewrite Y by exact Hl. ring.
      * rewrite rsum_zero by (intros i Hi; rewrite T' by lia; ring). rewrite Z. ring.
      * rewrite rsum_zero by (intros i Hi; rewrite T' by lia; ring). specialize (T (length hs) l). rewrite nth_end in T. rewrite T by lia. ring.
  - destruct (upper_solve (rev hs) _) as [ys|] eqn:E; [discriminate|]. exact (EXT _ E).
Qed.

Section Cycle.
Context {V : ModuleSpace R_Ring}.
Variable dot : V -> V -> R.
Variables A M : V -> V.
Hypothesis D : scalar_product dot.
Hypothesis L : linear_map A.
Notation nrm := (norm dot).
Notation sc := (scal (V := V)).
Notation inv := (inv dot A M).

Lemma inner_ok : forall tol rest i C C' n r0 beta, (exists hraw rs, inv r0 beta C i hraw rs) -> inner_loop dot A M tol rest i C = Some (C', n) ->
  (exists hraw rs, inv r0 beta C' n hraw rs) /\ (i <= n <= i + rest)%nat /\ (n = (i + rest)%nat \/ Rabs (g C' n) < tol).
Proof.
  intros tol rest. induction rest as [|rest IH]; intros i C C' n r0 beta I H; cbn [inner_loop] in H.
  - injection H as <- <-. split; [exact I|]. split; [lia|left; lia].
  - destruct (inner_step dot A M C i) as [C1|] eqn:E; [|discriminate]. destruct I as (hraw & rs & I). pose proof (step_ok dot A M D L r0 beta C i hraw rs C1 I E) as I1.
    destruct rest as [|rest]; [injection H as <- <-; split; [exact I1|]; split; [lia|left; lia]|]. destruct (Rlt_dec (Rabs (g C1 (S i))) tol) as [T|T]; [injection H as <- <-; split; [exact I1|]; split; [lia|right; exact T]|].
    destruct (IH _ _ _ _ _ _ I1 H) as (I2 & B & F). split; [exact I2|]. split; [lia|]. destruct F as [F|F]; [left; lia|right; exact F].
Qed.

(** the norm of s r0 minus a combination of the A z_j, from the triangular system *)
Lemma residual_form : forall r0 beta C n hraw rs, inv r0 beta C n hraw rs -> forall s (y : nat -> R),
  let e := plus (sc s r0) (opp (vsum n (fun j => sc (y j) (A (zs C j))))) in
  dot e e = rsum n (fun l => (s * g C l - rsum n (fun j => y j * nth j (hs C) h0 l)) * (s * g C l - rsum n (fun j => y j * nth j (hs C) h0 l))) + (s * g C n) * (s * g C n).
Proof.
  intros r0 beta C n hraw rs I s y e. set (q := rows (bas C)). set (e0 := set1 h0 0 beta). set (a := fun l => s * e0 l + rsum n (fun j => (- y j) * hraw j l)).
  assert (EV : e = vsum (S n) (fun l => sc (a l) (q l))).
  { unfold e. rewrite (i_r0 _ _ _ _ _ _ _ _ _ I). fold q.
    rewrite (vsum_ext n _ (fun j => sc (y j) (vsum (S n) (fun l => sc (hraw j l) (q l))))).
    2:{ intros j Hj. f_equal. rewrite (i_col _ _ _ _ _ _ _ _ _ I) by exact Hj. symmetry. apply vsum_more; [lia|]. intros l Hl. rewrite (i_sup _ _ _ _ _ _ _ _ _ I j l) by lia. exact (scal_zero_l _). }
    rewrite vsum_swap. assert (E0 : sc beta (q 0%nat) = vsum (S n) (fun l => sc (e0 l) (q l))).
    { symmetry. rewrite (vsum_more (S n) 1) by (try lia; intros l Hl; unfold e0; rewrite set1_other by lia; exact (scal_zero_l _)). cbn [vsum]. unfold e0. rewrite set1_same. apply plus_zero_l. }
    rewrite E0. transitivity (plus (vsum (S n) (fun l => sc s (sc (e0 l) (q l)))) (vsum (S n) (fun l => sc (-1) (sc (rsum n (fun j => y j * hraw j l)) (q l))))).
    - rewrite (vsum_scal (S n) s), (vsum_scal (S n) (-1)). vec.
    - rewrite <- vsum_plus. apply vsum_ext. intros l _. unfold a. replace (rsum n (fun j => - y j * hraw j l)) with (-1 * rsum n (fun j => y j * hraw j l)) by (rewrite <- rsum_scal; apply rsum_ext; intros; ring). vec. }
  assert (NS : dot e e = rsum (S n) (fun l => a l * a l)).
  { rewrite EV. destruct (Req_EM_T (v_norm C) 0) as [Z|NZ]; [|apply (on_norm dot D); exact (i_on1 _ _ _ _ _ _ _ _ _ I NZ)].
    destruct (i_brk _ _ _ _ _ _ _ _ _ I Z) as [Hn Hz]. assert (AN : a n = 0).
    { unfold a, e0. rewrite set1_other by lia. rewrite rsum_zero; [unfold h0; ring|]. intros j Hj. destruct (Nat.eq_dec j (n - 1)) as [->|Nj]; [rewrite Hz; ring|]. rewrite (i_sup _ _ _ _ _ _ _ _ _ I) by lia. ring. }
    cbn [vsum rsum]. rewrite AN. replace (sc 0 (q n)) with (zero : V) by (symmetry; exact (scal_zero_l _)). rewrite plus_zero_r, (on_norm dot D) by exact (i_on _ _ _ _ _ _ _ _ _ I). ring. }
  rewrite NS. assert (LR := i_len _ _ _ _ _ _ _ _ _ I). rewrite <- (turn_squares rs 0 (S n) a) by (try exact (i_rot _ _ _ _ _ _ _ _ _ I); rewrite LR; lia).
  assert (TA : forall l, turn rs 0 a l = s * g C l - rsum n (fun j => y j * nth j (hs C) h0 l)).
  { intros l. unfold a. rewrite (turn_rsum rs 0 n (fun l => s * e0 l) hraw). assert (TS : turn rs 0 (fun l => s * e0 l) l = s * turn rs 0 e0 l).
    { transitivity (turn rs 0 (fun l => 0 + s * e0 l) l); [apply turn_ext; intros; ring|]. rewrite (turn_lin rs 0 (fun _ => 0) e0), turn_zero. ring. }
    rewrite TS. unfold e0. rewrite (i_g _ _ _ _ _ _ _ _ _ I). rewrite (rsum_ext n _ (fun j => -1 * (y j * nth j (hs C) h0 l))) by (intros j Hj; rewrite (i_tri _ _ _ _ _ _ _ _ _ I) by exact Hj; ring). rewrite rsum_scal. ring. }
  cbn [rsum]. rewrite !TA. f_equal.
  - apply rsum_ext. intros l _. rewrite TA. reflexivity.
  - rewrite rsum_zero by (intros j Hj; rewrite (i_low _ _ _ _ _ _ _ _ _ I) by lia; ring). ring.
Qed.

(** the solution of the triangular system minimises the residual, and its last component is the residual *)
Lemma cycle_min : forall r0 beta C n hraw rs y, inv r0 beta C n hraw rs -> upper_solve (rev (hs C)) (g C) = Some y ->
  nrm (plus r0 (opp (A (vsum n (fun j => sc (nth j y 0) (zs C j)))))) = Rabs (g C n) /\
  forall y', Rabs (g C n) <= nrm (plus r0 (opp (A (vsum n (fun j => sc (y' j) (zs C j)))))).
Proof.
  intros r0 beta C n hraw rs y I H. assert (LH := i_hs _ _ _ _ _ _ _ _ _ I).
  assert (T : forall j l, (j < length (hs C))%nat -> (j < l)%nat -> nth j (hs C) (fun _ => 0) l = 0) by (intros j l Hj Hl; apply (i_low _ _ _ _ _ _ _ _ _ I); lia).
  destruct (upper_solve_ok (hs C) (g C) y T H) as [_ Y]. rewrite LH in Y.
  assert (F : forall y', nrm (plus r0 (opp (A (vsum n (fun j => sc (y' j) (zs C j)))))) = sqrt (rsum n (fun l => (g C l - rsum n (fun j => y' j * nth j (hs C) h0 l)) * (g C l - rsum n (fun j => y' j * nth j (hs C) h0 l))) + g C n * g C n)).
  { intros y'. unfold norm. f_equal. rewrite (linear_vsum A L). rewrite (vsum_ext n _ (fun j => sc (y' j) (A (zs C j)))) by (intros; apply (proj2 L)).
    pose proof (residual_form r0 beta C n hraw rs I 1 y') as RF. cbv zeta in RF. replace (sc 1 r0) with r0 in RF by (symmetry; exact (scal_one r0)). rewrite RF. f_equal; [apply rsum_ext; intros; ring|ring]. }
  split.
  - rewrite (F (fun j => nth j y 0)), rsum_zero; [rewrite Rplus_0_l; apply sqrt_Rsqr_abs|]. intros l Hl. unfold h0. rewrite Y by exact Hl. ring.
  - intros y'. rewrite F, <- sqrt_Rsqr_abs. unfold Rsqr. apply sqrt_le_1_alt. set (sq := rsum n _). assert (0 <= sq); [|lra]. apply rsum_pos. intros. apply Rle_0_sqr.
Qed.

(** the Krylov directions are combinations of the z_j *)
Definition in_span (C : cycle (V := V)) (n : nat) (v : V) : Prop := exists y, v = vsum n (fun j => sc (y j) (zs C j)).
Lemma span_zero : forall C n, in_span C n zero.
Proof. intros C n. exists (fun _ => 0). symmetry. apply vsum_zero. intros. exact (scal_zero_l _). Qed.
Lemma span_plus : forall C n u v, in_span C n u -> in_span C n v -> in_span C n (plus u v).
Proof. intros C n u v (y1 & ->) (y2 & ->). exists (fun j => y1 j + y2 j). rewrite <- vsum_plus. apply vsum_ext. intros. vec. Qed.
Lemma span_scal : forall C n a u, in_span C n u -> in_span C n (sc a u).
Proof. intros C n a u (y & ->). exists (fun j => a * y j). rewrite <- vsum_scal. apply vsum_ext. intros. vec. Qed.
Lemma krylov_rows : forall r0 beta C n hraw rs, inv r0 beta C n hraw rs -> linear_map M -> forall k, (k < n)%nat -> exists c, Nat.iter k (fun v => A (M v)) r0 = vsum (S k) (fun l => sc (c l) (rows (bas C) l)).
Proof.
  intros r0 beta C n hraw rs I LM k. induction k as [|k IH]; intros Hk.
  - exists (fun _ => beta). cbn. rewrite plus_zero_l. apply (i_r0 _ _ _ _ _ _ _ _ _ I).
  - destruct IH as (c & E); [lia|]. exists (fun l => rsum (S k) (fun j => c j * hraw j l)). change (Nat.iter (S k) (fun v => A (M v)) r0) with (A (M (Nat.iter k (fun v => A (M v)) r0))). rewrite E, (linear_vsum M LM), (linear_vsum A L), <- vsum_swap.
    apply vsum_ext. intros j Hj. rewrite (proj2 LM), (proj2 L). f_equal. rewrite <- (i_z _ _ _ _ _ _ _ _ _ I LM) by lia. rewrite (i_col _ _ _ _ _ _ _ _ _ I) by lia. symmetry. apply vsum_more; [lia|]. intros l Hl. rewrite (i_sup _ _ _ _ _ _ _ _ _ I) by lia. exact (scal_zero_l _).
Qed.
Lemma krylov_span : forall r0 beta C n hraw rs, inv r0 beta C n hraw rs -> linear_map M -> forall a : nat -> R, in_span C n (vsum n (fun k => sc (a k) (M (Nat.iter k (fun v => A (M v)) r0)))).
Proof.
  intros r0 beta C n hraw rs I LM a. enough (G : forall m, (m <= n)%nat -> in_span C n (vsum m (fun k => sc (a k) (M (Nat.iter k (fun v => A (M v)) r0))))) by (apply G; lia).
  induction m as [|m IH]; intros Hm; [apply span_zero|]. cbn [vsum]. apply span_plus; [apply IH; lia|]. apply span_scal. destruct (krylov_rows _ _ _ _ _ _ I LM m) as (c & ->); [lia|]. exists (fun l => if Nat.ltb l (S m) then c l else 0).
  rewrite (linear_vsum M LM). rewrite (vsum_more n (S m)); [|lia|intros l Hl; destruct (Nat.ltb_spec l (S m)); [lia|exact (scal_zero_l _)]]. apply vsum_ext. intros l Hl. destruct (Nat.ltb_spec l (S m)); [|lia]. rewrite (proj2 LM), (i_z _ _ _ _ _ _ _ _ _ I LM) by lia. reflexivity.
Qed.

(** with a non-singular operator and preconditioner the triangular system is non-singular *)
Lemma solvable : forall r0 beta C n hraw rs, inv r0 beta C n hraw rs -> linear_map M -> (forall v, A v = zero -> v = zero) -> (forall v, M v = zero -> v = zero) -> upper_solve (rev (hs C)) (g C) <> None.
Proof.
  intros r0 beta C n hraw rs I LM IA IM H. assert (LH := i_hs _ _ _ _ _ _ _ _ _ I).
  destruct (null_vector (hs C) (g C)) as (y & (k & Hk & Yk) & Y); [intros j l Hj Hl; apply (i_low _ _ _ _ _ _ _ _ _ I); lia|exact H|]. rewrite LH in *.
  pose proof (residual_form r0 beta C n hraw rs I 0 y) as RF. cbv zeta in RF. rewrite rsum_zero in RF by (intros l Hl; rewrite Y; ring). rewrite !Rmult_0_l, Rplus_0_l in RF. apply (dot_0 dot D) in RF.
  assert (Z1 : A (vsum n (fun j => sc (y j) (zs C j))) = zero).
  { rewrite (linear_vsum A L). rewrite (vsum_ext n _ (fun j => sc (y j) (A (zs C j)))) by (intros; apply (proj2 L)). set (u := vsum n _) in *. transitivity (opp (plus (sc 0 r0) (opp u))); [vec|]. rewrite RF. vec. }
  apply IA in Z1. rewrite (vsum_ext n _ (fun j => M (sc (y j) (rows (bas C) j)))) in Z1 by (intros j Hj; rewrite (proj2 LM), (i_z _ _ _ _ _ _ _ _ _ I LM) by exact Hj; reflexivity).
  rewrite <- (linear_vsum M LM) in Z1. apply IM in Z1. apply Yk. rewrite <- (on_coef dot D (rows (bas C)) n y k (i_on _ _ _ _ _ _ _ _ _ I) Hk), Z1. apply (dot_zero_r dot D).
Qed.
(** a breakdown is seen by the convergence test *)
Lemma breakdown_converged : forall r0 beta C n hraw rs, inv r0 beta C n hraw rs -> forall C', inner_step dot A M C n = Some C' -> v_norm C' = 0 -> g C' (S n) = 0.
Proof.
  intros r0 beta C n hraw rs I C' H Z. unfold inner_step in H. destruct (Req_EM_T (v_norm C) 0) as [|NZ]; [discriminate|]. destruct (ortho _ _ _) as [nn B] eqn:EB. destruct (apply_givens _ _ _ _) as [h|] eqn:EG; [|discriminate].
  assert (RS := c_rs _ _ _ _ _ _ _ _ _ I NZ). assert (LR := i_len _ _ _ _ _ _ _ _ _ I). rewrite RS in EG. rewrite <- LR in EG at 1. rewrite apply_turn in EG. injection EG as EG.
  assert (G0 : g C (S n) = 0). { rewrite <- (i_g _ _ _ _ _ _ _ _ _ I), turn_above by lia. rewrite set1_other by lia. reflexivity. }
  destruct (Req_EM_T (h (S n)) 0) as [HZ|HZ]; [injection H as <-; exact G0|]. exfalso. apply HZ. rewrite <- EG, turn_above by lia. destruct (rotg _ _) as [[c s] rr]. injection H as <-. cbn [v_norm] in Z.
  destruct (Nat.ltb_spec (S n) (n + 2)); [|lia]. pose proof (ortho_ok dot (Basis (set1 (rows (bas C)) (n + 2) (sc (v_norm C) (A (sc (/ v_norm C) (M (rows (bas C) (S n))))))) (mr (bas C)) (mt (bas C)) (mk (bas C))) (S n)) as OK.
  replace (S n + 2)%nat with (n + 3)%nat in OK by lia. rewrite EB in OK. cbn [fst snd] in OK. destruct OK as (E1 & _ & _ & _ & _ & E2 & _); [|replace (n + 1)%nat with (S n) by lia; rewrite E2, <- E1; exact Z].
  intros i Hi. cbn [rows]. rewrite !set1_other by lia. apply (c_perp _ _ _ _ _ _ _ _ _ I NZ). lia.
Qed.
Lemma inner_succeeds : forall tol, 0 < tol -> forall rest i C r0 beta, (exists hraw rs, inv r0 beta C i hraw rs) -> v_norm C <> 0 \/ rest = 0%nat -> inner_loop dot A M tol rest i C <> None.
Proof.
  intros tol T rest. induction rest as [|rest IH]; intros i C r0 beta (hraw & rs & I) NZ; cbn [inner_loop]; [discriminate|]. destruct NZ as [NZ|NZ]; [|discriminate].
  destruct (inner_step dot A M C i) as [C1|] eqn:E.
  - destruct rest as [|rest]; [discriminate|]. destruct (Rlt_dec (Rabs (g C1 (S i))) tol) as [LT|LT]; [discriminate|]. apply (IH (S i) C1 r0 beta); [exact (step_ok dot A M D L r0 beta C i hraw rs C1 I E)|]. left. intros Z. apply LT. rewrite (breakdown_converged _ _ _ _ _ _ I C1 E Z), Rabs_R0. exact T.
  - exfalso. unfold inner_step in E. destruct (Req_EM_T (v_norm C) 0) as [|_]; [contradiction|]. destruct (ortho _ _ _) as [nn B]. assert (RS := c_rs _ _ _ _ _ _ _ _ _ I NZ). assert (LR := i_len _ _ _ _ _ _ _ _ _ I).
    match type of E with context [apply_givens ?a 0 i ?h] => assert (AG : apply_givens a 0 i h = Some (turn a 0 h)) by (rewrite <- (apply_turn a 0 h); f_equal; rewrite RS, LR; reflexivity); rewrite AG in E end.
    destruct (Req_EM_T _ 0); [discriminate|]. destruct (rotg _ _) as [[c s] rr]. discriminate.
Qed.
End Cycle.
