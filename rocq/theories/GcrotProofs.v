From Coq Require Import Reals List Bool Lra Lia.
From Coquelicot Require Import Hierarchy.
From Verif Require Import InnerSpec InnerFacts GcrotModel GcrotSpec VecTac.
Import ListNotations.
Local Open Scope R_scope.

Section Coefs.
Context {V : ModuleSpace R_Ring}.
Lemma combination_add_pad : forall a b (q : list V), combination (add_pad a b) q = plus (combination a q) (combination b q).
Proof.
  induction a as [|c a IH]; intros [|d b] [|p q]; cbn [add_pad combination]; try (now rewrite plus_zero_l); try (now rewrite plus_zero_r). rewrite IH. vec.
Qed.
Lemma times_cols_snoc : forall cols c y (q : list V), combination (times_cols (cols ++ [c]) y) q = plus (combination (times_cols cols y) q) (scal (V := V) (nth (length cols) y 0) (combination c q)).
Proof.
  induction cols as [|d cols IH]; intros c [|v y] q; cbn [app times_cols length nth].
  - cbn [combination]. symmetry. rewrite plus_zero_l. exact (scal_zero_l _).
  - rewrite combination_add_pad, combination_scale. cbn [combination]. rewrite plus_zero_l, plus_zero_r. reflexivity.
  - cbn [combination]. symmetry. rewrite plus_zero_l. exact (scal_zero_l _).
  - rewrite !combination_add_pad, IH. rewrite <- plus_assoc. reflexivity.
Qed.
End Coefs.
Lemma add_pad_length : forall a b n, (length a <= n)%nat -> (length b <= n)%nat -> (length (add_pad a b) <= n)%nat.
Proof. induction a as [|c a IH]; intros [|d b] n A B; cbn in *; try lia. destruct n; [lia|]. specialize (IH b n). lia. Qed.
Lemma times_cols_length : forall cols y n, (forall c, In c cols -> (length c <= n)%nat) -> (length (times_cols cols y) <= n)%nat.
Proof. induction cols as [|c cols IH]; intros [|v y] n H; cbn [times_cols length]; try lia. apply add_pad_length; [rewrite map_length; apply H; now left|]. apply IH. intros d I. apply H. now right. Qed.

Section Proofs.
Context {V : ModuleSpace R_Ring}.
Variable dot : V -> V -> R.
Variables A M : V -> V.
Hypothesis D : scalar_product dot.
Hypothesis L : linear_map A.
Notation arnoldi := (arnoldi dot A M).
Notation fgmres := (fgmres dot A M).
Notation update := (update dot A M).
Notation pivoted_qr := (pivoted_qr dot).
Notation known_products := (known_products A).
Notation initial := (initial A).
Notation axpy x a y := (plus x (scal (V := V) a y)).

Lemma against_sum : forall qs w c w1, against dot qs w = (c, w1) -> w = plus (combination c qs) w1 /\ length c = length qs.
Proof.
  induction qs as [|q qs IH]; intros w c w1 H; cbn [against] in H.
  - injection H as <- <-. cbn. rewrite plus_zero_l. auto.
  - destruct (against dot qs (axpy w (- dot q w) q)) as [c' w'] eqn:E. injection H as <- <-. destruct (IH _ _ _ E) as [I J]. cbn [combination length]. split; [|now rewrite J]. rewrite <- plus_assoc, <- I. vec.
Qed.

(** the relation A Z = C B + V H *)
Definition arnoldi_rel (cs : list V) (K : krylov) : Prop :=
  length (cols_b K) = length (zs K) /\ length (cols_h K) = length (zs K) /\ (forall c, In c (cols_h K) -> (length c <= length (vs K))%nat) /\
  forall y, A (combination y (zs K)) = plus (combination (times_cols (cols_b K) y) cs) (combination (times_cols (cols_h K) y) (vs K)).

Lemma arnoldi_step : forall cs K, arnoldi_rel cs K -> arnoldi_rel cs (arnoldi cs K).
Proof.
  intros cs K (LB & LH & LV & R). unfold GcrotModel.arnoldi. set (z := M (last (vs K) zero)). destruct (against dot cs (A z)) as [b w1] eqn:E1. destruct (against dot (vs K) w1) as [h w2] eqn:E2.
  apply against_sum in E1 as [E1 _]. apply against_sum in E2 as [E2 LE]. set (n := norm dot w2). set (w3 := if Req_EM_T n 0 then w2 else scal (V := V) (1 / n) w2).
  assert (S3 : w2 = scal (V := V) n w3).
  { unfold w3. destruct (Req_EM_T n 0) as [Z|Z].
    - rewrite Z. rewrite (norm_0 dot D w2 Z). symmetry. exact (scal_zero_r 0).
    - transitivity (scal (V := V) (n * (1 / n)) w2); [|symmetry; exact (scal_assoc n (1 / n) w2)]. replace (n * (1 / n)) with 1 by (field; exact Z). symmetry. exact (scal_one w2). }
  unfold arnoldi_rel. cbn [vs zs cols_b cols_h]. rewrite !app_length. cbn [length]. split; [lia|]. split; [lia|]. split.
  - intros c I. apply in_app_or in I as [I|[<-|[]]]; [specialize (LV c I); lia|]. rewrite app_length. cbn [length]. lia.
  - intros y. rewrite combination_snoc, (proj1 L), (proj2 L), R, !times_cols_snoc, LB, LH, E1. rewrite (combination_short (times_cols (cols_h K) y)) by (apply times_cols_length; exact LV).
    rewrite combination_snoc. replace (nth (length (vs K)) (h ++ [n]) 0) with n by (rewrite app_nth2, LE, Nat.sub_diag by lia; reflexivity).
    assert (C : combination (h ++ [n]) (vs K) = combination h (vs K)). { clear - LE. revert h LE. induction (vs K) as [|v q IH]; intros [|c h] E; cbn in *; try lia; [reflexivity|]. rewrite IH by lia. reflexivity. }
    rewrite C, <- S3. rewrite E2 at 1. vec.
Qed.
Lemma fgmres_rel : forall cs v0 n, arnoldi_rel cs (fgmres v0 n cs).
Proof.
  intros cs v0 n. unfold GcrotModel.fgmres. induction n as [|n IH].
  - unfold arnoldi_rel. cbn [Nat.iter nat_rect vs zs cols_b cols_h length]. split; [reflexivity|]. split; [reflexivity|]. split; [intros c []|]. intros y. rewrite combination_nil_r. replace (times_cols [] y) with (@nil R) by (destruct y; reflexivity). cbn [combination]. rewrite plus_zero_l. apply linear_zero; exact L.
  - cbn [Nat.iter nat_rect]. apply arnoldi_step. exact IH.
Qed.

(** orthonormality by recursion on the list *)
Fixpoint ortho (q : list V) : Prop := match q with [] => True | a :: q => dot a a = 1 /\ (forall b, In b q -> dot a b = 0) /\ ortho q end.
Lemma ortho_of : forall q, orthonormal dot q -> ortho q.
Proof.
  induction q as [|a q IH]; intros H; cbn [ortho]; [exact I|]. split; [|split].
  - apply (H 0%nat 0%nat); cbn; lia.
  - intros b B. destruct (In_nth q b zero B) as (j & J & <-). apply (H 0%nat (S j)); cbn; lia.
  - apply IH. intros i j Hi Hj. apply (H (S i) (S j)); cbn; lia.
Qed.
Lemma ortho_to : forall q, ortho q -> orthonormal dot q.
Proof.
  induction q as [|a q IH]; intros H i j Hi Hj; cbn [length] in *; [lia|]. destruct H as (U & P & O). destruct i as [|i], j as [|j]; cbn [nth Nat.eqb].
  - exact U.
  - apply P, nth_In. lia.
  - rewrite (dot_sym dot D). apply P, nth_In. lia.
  - apply IH; auto; lia.
Qed.
Lemma ortho_snoc : forall q z, ortho q -> dot z z = 1 -> (forall b, In b q -> dot b z = 0) -> ortho (q ++ [z]).
Proof.
  induction q as [|a q IH]; intros z O U P; cbn [app ortho]; [split; [exact U|split; [intros b []|exact I]]|]. destruct O as (Ua & Pa & O). split; [exact Ua|]. split.
  - intros b B. apply in_app_or in B as [B|[<-|[]]]; [now apply Pa|apply P; now left].
  - apply IH; auto. intros b B. apply P. now right.
Qed.
Lemma ortho_unit : forall q c, ortho q -> In c q -> dot c c = 1.
Proof. induction q as [|a q IH]; intros c O B; [destruct B|]. destruct O as (U & P & O), B as [<-|B]; auto. Qed.
Lemma ortho_rev : forall q, ortho q -> ortho (rev q).
Proof. induction q as [|a q IH]; intros O; [exact I|]. destruct O as (U & P & O). cbn [rev]. apply ortho_snoc; auto. intros b B. apply in_rev in B. rewrite (dot_sym dot D). auto. Qed.
Lemma ortho_firstn : forall n q, ortho q -> ortho (firstn n q).
Proof.
  induction n as [|n IH]; intros [|a q] O; cbn [firstn]; try exact I. destruct O as (U & P & O). cbn [ortho]. split; [exact U|]. split; [|auto]. intros b B. apply P. clear -B. revert n B. induction q as [|c q IH]; intros [|n] B; cbn in *; auto; try tauto. destruct B; eauto.
Qed.

Lemma against_keep : forall qs w c w1 z, against dot qs w = (c, w1) -> dot z w = 0 -> (forall q, In q qs -> dot z q = 0) -> dot z w1 = 0.
Proof.
  induction qs as [|q qs IH]; intros w c w1 z H Z P; cbn [against] in H; [injection H as <- <-; exact Z|].
  destruct (against dot qs (axpy w (- dot q w) q)) as [c' w'] eqn:E. injection H as <- <-. apply (IH _ _ _ z E); [|intros p B; apply P; now right].
  rewrite (dot_plus_r dot D), (dot_scal_r dot D), Z, (P q) by now left. ring.
Qed.
Lemma against_perp : forall qs w c w1, ortho qs -> against dot qs w = (c, w1) -> forall q, In q qs -> dot q w1 = 0.
Proof.
  induction qs as [|q qs IH]; intros w c w1 O H p B; [destruct B|]. cbn [against] in H. destruct (against dot qs (axpy w (- dot q w) q)) as [c' w'] eqn:E. injection H as <- <-. destruct O as (U & P & O).
  destruct B as [<-|B]; [|now apply (IH _ _ _ O E)]. apply (against_keep _ _ _ _ q E); [|exact P]. rewrite (dot_plus_r dot D), (dot_scal_r dot D), U. ring.
Qed.

Lemma arnoldi_perp : forall cs K, ortho cs -> (forall v c, In v (vs K) -> In c cs -> dot c v = 0) -> forall v c, In v (vs (arnoldi cs K)) -> In c cs -> dot c v = 0.
Proof.
  intros cs K O P v c. unfold GcrotModel.arnoldi. set (z := M (last (vs K) zero)). destruct (against dot cs (A z)) as [b w1] eqn:E1. destruct (against dot (vs K) w1) as [h w2] eqn:E2. cbn [vs]. intros Iv Ic.
  apply in_app_or in Iv as [Iv|[<-|[]]]; [now apply P|].
  assert (Q : dot c w2 = 0). { apply (against_keep _ _ _ _ c E2); [now apply (against_perp cs (A z) b w1 O E1)|]. intros q Iq. now apply P. }
  destruct (Req_EM_T _ 0); [exact Q|]. rewrite (dot_scal_r dot D), Q. ring.
Qed.
Lemma fgmres_perp : forall cs v0 n, ortho cs -> (forall c, In c cs -> dot c v0 = 0) -> forall v c, In v (vs (fgmres v0 n cs)) -> In c cs -> dot c v = 0.
Proof.
  intros cs v0 n O P. unfold GcrotModel.fgmres. induction n as [|n IH].
  - cbn. intros v c [<-|[]] Ic. now apply P.
  - cbn [Nat.iter nat_rect]. apply arnoldi_perp; assumption.
Qed.

(** the pairs: c = A u, and the c are orthonormal *)
Definition valid (CU : list (V * V)) : Prop := (forall p, In p CU -> fst p = A (snd p)) /\ ortho (map fst CU).
Lemma valid_map : forall CU, (forall p : V * V, In p CU -> fst p = A (snd p)) -> map fst CU = map A (map snd CU).
Proof. intros CU H. rewrite map_map. apply map_ext_in. intros p I. now apply H. Qed.
Definition consistent (b : V) (s : state) : Prop := r s = plus b (opp (A (x s))) /\ valid (CU s) /\ forall c, In c (map fst (CU s)) -> dot c (r s) = 0.

Lemma oldest_in : forall k (CU : list (V * V)) p, In p (oldest k CU) -> In p CU.
Proof. intros k CU p. induction CU as [|q CU IH]; [auto|]. cbn [oldest]. destruct (Nat.leb _ _); [intros B; right; auto|auto]. Qed.
Lemma oldest_valid : forall k (CU : list (V * V)), valid CU -> valid (oldest k CU).
Proof.
  intros k CU. induction CU as [|q CU IH]; [auto|]. cbn [oldest]. destruct (Nat.leb _ _); [|auto]. intros (E & O). apply IH. split; [intros p B; apply E; now right|]. apply O.
Qed.

Lemma dot_combinations : forall q, ortho q -> forall a b, length a = length q -> length b = length q -> dot (combination a q) (combination b q) = rdot a b.
Proof.
  induction q as [|p q IH]; intros O a b La Lb; destruct a as [|u a], b as [|v b]; cbn [length] in *; try lia; cbn [combination rdot]; [apply (dot_zero_l dot D)|].
  destruct O as (U & P & O). rewrite !(dot_plus_l dot D), !(dot_plus_r dot D), !(dot_scal_l dot D), !(dot_scal_r dot D), U, IH by (auto; lia).
  rewrite (dot_combination_zero dot D p a q) by (intros c C; rewrite (dot_sym dot D); auto). rewrite (dot_sym dot D p (combination b q)), (dot_combination_zero dot D p b q) by (intros c C; rewrite (dot_sym dot D); auto). ring.
Qed.
Lemma fold_ortho_noop : forall acc p, (forall q, In q acc -> dot (fst q) (fst p) = 0) -> fold_left (ortho_pair dot) acc p = p.
Proof.
  induction acc as [|q acc IH]; intros p P; cbn [fold_left]; [reflexivity|]. unfold ortho_pair at 2. rewrite (P q) by now left.
  assert (E : forall v w : V, axpy v (- 0) w = v) by (intros v w; vec). rewrite !E. rewrite <- surjective_pairing. apply IH. intros c C. apply P. now right.
Qed.
Lemma smallest_is : forall k W CU, valid CU -> orthonormal_columns (length CU) W -> smallest dot k W CU = if (Nat.leb k (length CU) && negb (Nat.eqb (length CU) 0))%bool then map (combined CU) W else CU.
Proof.
  intros k W CU (E & O) (LW & OW). unfold smallest. destruct (_ && _); [|reflexivity].
  enough (G : forall W2 W1, W = W1 ++ W2 -> fold_left (fun acc w => acc ++ [normal_pair dot (fold_left (ortho_pair dot) acc (combined CU w))]) W2 (map (combined CU) W1) = map (combined CU) W) by exact (G W [] eq_refl).
  induction W2 as [|w W2 IH]; intros W1 EW; cbn [fold_left]; [rewrite EW, app_nil_r; reflexivity|].
  assert (DD : forall i j, (i < length W)%nat -> (j < length W)%nat -> dot (fst (combined CU (nth i W []))) (fst (combined CU (nth j W []))) = if Nat.eqb i j then 1 else 0).
  { intros i j Hi Hj. unfold combined. cbn [fst]. rewrite dot_combinations; [now apply OW|exact O| |]; rewrite map_length; apply LW, nth_In; assumption. }
  assert (Nw : nth (length W1) W [] = w) by (rewrite EW, app_nth2, Nat.sub_diag by lia; reflexivity).
  assert (Lw : (length W1 < length W)%nat) by (rewrite EW, app_length; cbn; lia).
  rewrite fold_ortho_noop.
  - replace (normal_pair dot (combined CU w)) with (combined CU w).
    + replace (map (combined CU) W1 ++ [combined CU w]) with (map (combined CU) (W1 ++ [w])) by (rewrite map_app; reflexivity). apply IH. rewrite EW, <- app_assoc. reflexivity.
    + unfold normal_pair. replace (norm dot (fst (combined CU w))) with 1. 2:{ symmetry. apply (norm_unit dot D). rewrite <- Nw, DD by lia. now rewrite Nat.eqb_refl. }
      rewrite Rinv_1. rewrite (scal_one (fst (combined CU w)) : scal (V := V) 1 _ = _), (scal_one (snd (combined CU w)) : scal (V := V) 1 _ = _). apply surjective_pairing.
  - intros q Q. apply in_map_iff in Q as (w' & <- & Q). destruct (In_nth W1 w' [] Q) as (i & Hi & Ei). assert (Ni : nth i W [] = w') by (rewrite EW, app_nth1 by lia; exact Ei).
    rewrite <- Ni, <- Nw, DD by lia. destruct (Nat.eqb_spec i (length W1)); [lia|reflexivity].
Qed.
Lemma smallest_valid : forall k W CU, valid CU -> orthonormal_columns (length CU) W -> valid (smallest dot k W CU) /\ forall z, (forall c, In c (map fst CU) -> dot c z = 0) -> forall c, In c (map fst (smallest dot k W CU)) -> dot c z = 0.
Proof.
  intros k W CU VV OW. rewrite smallest_is by assumption. destruct (_ && _); [|split; [exact VV|auto]]. destruct VV as (E & O), OW as (LW & OW). split; [split|].
  - intros p P. apply in_map_iff in P as (w & <- & _). unfold combined. cbn [fst snd]. rewrite (linear_combination A L), valid_map by exact E. reflexivity.
  - apply ortho_of. intros i j. rewrite !map_length. intros Hi Hj. rewrite map_map.
    assert (NE : forall i, (i < length W)%nat -> nth i (map (fun w => fst (combined CU w)) W) zero = combination (nth i W []) (map fst CU)).
    { intros n Hn. rewrite (nth_indep _ zero (fst (combined CU []))) by (rewrite map_length; lia). exact (map_nth (fun w => fst (combined CU w)) W [] n). }
    rewrite !NE by assumption. rewrite dot_combinations; [now apply OW|exact O| |]; rewrite map_length; apply LW, nth_In; assumption.
  - intros z Z c C. rewrite map_map in C. apply in_map_iff in C as (w & <- & _). unfold combined. cbn [fst]. apply (dot_combination_zero dot D). exact Z.
Qed.

Lemma update_ok : forall b k tr s i, consistent b s -> good_inner tr i -> consistent b (update k tr s i) /\ dot (r (update k tr s i)) (r (update k tr s i)) <= dot (r s) (r s).
Proof.
  intros b k tr s i (R & U & P) G. unfold GcrotModel.update. set (K := fgmres _ _ _). destruct (fgmres_rel (map fst (CU s)) (scal (V := V) (/ norm dot (r s)) (r s)) (passes i)) as (_ & _ & _ & AR). fold K in AR.
  set (ux := axpy (combination (y i) (zs K)) (-1) (combination (times_cols (cols_b K) (y i)) (map snd (CU s)))). set (cx := combination (times_cols (cols_h K) (y i)) (vs K)).
  assert (CX : A ux = cx). { unfold ux. rewrite (proj1 L), (proj2 L), AR, (linear_combination A L), <- valid_map by apply U. fold cx. vec. }
  assert (PX : forall c, In c (map fst (CU s)) -> dot c cx = 0).
  { intros c C. rewrite (dot_sym dot D). apply (dot_combination_zero dot D). intros v Iv. rewrite (dot_sym dot D). apply (fgmres_perp (map fst (CU s)) (scal (V := V) (/ norm dot (r s)) (r s)) (passes i) (proj2 U)); [|exact Iv|exact C].
    intros c' C'. rewrite (dot_scal_r dot D), P by exact C'. ring. }
  destruct (Req_EM_T (norm dot cx) 0) as [Z|Z]; [cbn [r]; split; [split; [exact R|split; [exact U|exact P]]|lra]|].
  pose proof (normalised dot D cx Z) as UN. set (cn := scal (V := V) (1 / norm dot cx) cx) in *. set (un := scal (V := V) (1 / norm dot cx) ux).
  assert (CN : A un = cn) by (unfold un, cn; rewrite (proj2 L), CX; reflexivity).
  assert (PN : forall c, In c (map fst (CU s)) -> dot c cn = 0) by (intros c C; unfold cn; rewrite (dot_scal_r dot D), PX by exact C; ring).
  cbn [r x CU]. set (kept := match tr with Oldest => _ | Smallest => _ end).
  assert (KV : valid kept /\ forall z, (forall c, In c (map fst (CU s)) -> dot c z = 0) -> forall c, In c (map fst kept) -> dot c z = 0).
  { unfold kept. destruct tr; [split; [now apply oldest_valid|]|apply smallest_valid; [exact U|apply G]]. intros z Hz c C. apply in_map_iff in C as (p & <- & C). apply Hz, in_map. now apply oldest_in with k. }
  destruct KV as [(KE & KO) KP]. split.
  - split; [|split]; cbn [r x CU].
    + rewrite R, (proj1 L), (proj2 L), CN. vec.
    + split.
      * intros p B. apply in_app_or in B as [B|[<-|[]]]; [now apply KE|]. cbn [fst snd]. now rewrite CN.
      * rewrite map_app. apply ortho_snoc; [exact KO|exact UN|]. exact (KP cn PN).
    + intros c C. rewrite map_app in C. rewrite (dot_plus_r dot D), (dot_scal_r dot D). apply in_app_or in C as [C|[<-|[]]]; cbn [fst].
      * rewrite (KP (r s) P), (KP cn PN) by exact C. ring.
      * rewrite UN. ring.
  - pose proof (remove_component dot D cn (r s) UN) as Q. cbv zeta in Q. rewrite Q. pose proof (Rle_0_sqr (dot cn (r s))) as S2. unfold Rsqr in S2. lra.
Qed.

Lemma project_ok : forall b cu xr, fst cu = A (snd cu) -> dot (fst cu) (fst cu) = 1 -> snd xr = plus b (opp (A (fst xr))) ->
  let xr' := project dot xr cu in snd xr' = plus b (opp (A (fst xr'))) /\ dot (snd xr') (snd xr') <= dot (snd xr) (snd xr).
Proof.
  intros b [c u] [x0 r0] E U R xr'. unfold xr', project. cbn [fst snd] in *. split.
  - rewrite R, (proj1 L), (proj2 L), E. vec.
  - pose proof (remove_component dot D c r0 U) as Q. cbv zeta in Q. rewrite Q. pose proof (Rle_0_sqr (dot c r0)) as S2. unfold Rsqr in S2. lra.
Qed.
Lemma projects_keep : forall CU xr z, dot z (snd xr) = 0 -> (forall c, In c (map fst CU) -> dot z c = 0) -> dot z (snd (fold_left (project dot) CU xr)) = 0.
Proof.
  induction CU as [|[c u] CU IH]; intros [x0 r0] z Z P; cbn [fold_left]; [exact Z|]. apply IH; [|intros q Q; apply P; now right]. cbn [project snd]. rewrite (dot_plus_r dot D), (dot_scal_r dot D), (P c) by now left. cbn [snd] in Z. rewrite Z. ring.
Qed.
Lemma projects_ok : forall b CU xr, valid CU -> snd xr = plus b (opp (A (fst xr))) -> let xr' := fold_left (project dot) CU xr in
  snd xr' = plus b (opp (A (fst xr'))) /\ dot (snd xr') (snd xr') <= dot (snd xr) (snd xr) /\ forall c, In c (map fst CU) -> dot c (snd xr') = 0.
Proof.
  intros b CU. induction CU as [|p CU IH]; intros xr (E & O) R; cbv zeta; cbn [fold_left]; [split; [exact R|split; [apply Rle_refl|intros c []]]|]. cbn [map ortho] in O. destruct O as (U & P & O). destruct (project_ok b p xr (E p (or_introl eq_refl)) U R) as [R' S'].
  destruct (IH (project dot xr p)) as (R2 & S2 & P2); [split; [intros q B; apply E; now right|exact O]|exact R'|]. split; [exact R2|]. split; [eapply Rle_trans; [exact S2|exact S']|].
  intros c [<-|C]; [|now apply P2]. apply projects_keep; [|exact P]. destruct p as [c u], xr as [x0 r0]. cbn [project snd fst] in *. rewrite (dot_plus_r dot D), (dot_scal_r dot D), U. ring.
Qed.

Lemma main_ok : forall b tol k tr is first beta0 s s' beta brk, List.Forall (good_inner tr) is -> consistent b s -> main_loop dot A M b tol k tr first is beta0 s = (s', beta, brk) ->
  (forall w, beta0 = Some w -> norm dot (r s) <= w) ->
  consistent b s' /\ dot (r s') (r s') <= dot (r s) (r s) /\ forall w, beta = Some w -> norm dot (r s') <= w.
Proof.
  intros b tol k tr. induction is as [|i is IH]; intros first beta0 s s' beta brk G C H B0; cbn [main_loop] in H.
  - injection H as <- <- <-. split; [exact C|]. split; [apply Rle_refl|exact B0].
  - inversion G as [|? ? Gi G']. subst. set (s2 := if _ && _ then State _ _ _ _ else s) in H.
    assert (S2 : s2 = State (x s) (r s) (CU s) (niter s)) by (unfold s2; destruct (_ && _); [rewrite <- (proj1 C); reflexivity|destruct s; reflexivity]).
    assert (S2' : s2 = s) by (rewrite S2; destruct s; reflexivity). rewrite S2' in H. clear S2 S2' s2. destruct (Rle_dec (norm dot (r s)) _) as [LE|LE].
    + injection H as <- <- <-. split; [exact C|]. split; [lra|]. intros w [= <-]. lra.
    + destruct (update_ok b k tr s i C Gi) as [C1 L1]. destruct (IH _ _ _ _ _ _ G' C1 H) as (C2 & L2 & B2); [|split; [exact C2|split; [lra|exact B2]]]. intros w [= <-]. apply (norm_le dot D). exact L1.
Qed.

Lemma combination_firstn : forall a (q : list V), combination a q = combination a (firstn (length a) q).
Proof. induction a as [|c a IH]; intros [|p q]; cbn [combination length firstn]; try reflexivity. now rewrite <- IH. Qed.
Lemma firstn_nth : forall (q : list V) j, (j < length q)%nat -> firstn (S j) q = firstn j q ++ [nth j q zero].
Proof. induction q as [|p q IH]; intros j H; cbn [length] in H; [lia|]. destruct j; [reflexivity|]. cbn [firstn nth app]. f_equal. apply IH. lia. Qed.
Lemma new_us_length : forall (us : list V) qr n, length (new_us us qr n) = n.
Proof. induction n as [|n IH]; [reflexivity|]. cbn [new_us]. rewrite app_length, IH. cbn. lia. Qed.
Lemma new_us_ok : forall us qr rank n, pivoted_qr (map A us) qr rank -> (n <= rank)%nat -> map A (new_us us qr n) = firstn n (q_cols qr).
Proof.
  intros us qr rank n (O & LR & Q). induction n as [|j IH]; intros Hn; [reflexivity|]. cbn [new_us]. rewrite map_app, IH by lia. rewrite firstn_nth by lia. f_equal. cbn [map]. f_equal. destruct (Q j) as [N E]; [lia|].
  rewrite (proj2 L), (proj1 L), (proj2 L), (linear_combination A L), IH by lia.
  rewrite <- (map_nth A us zero), (linear_zero A L), E, combination_firstn, map_length, seq_length, firstn_nth, combination_snoc by lia. rewrite firstn_length, Nat.min_l by lia.
  replace (nth j (map (fun i => r_entry qr i j) (seq 0 (S j))) 0) with (r_entry qr j j).
  2:{ rewrite (nth_indep _ 0 (r_entry qr 0 j)) by (rewrite map_length, seq_length; lia). rewrite (map_nth (fun i => r_entry qr i j)), seq_nth by lia. reflexivity. }
  rewrite (seq_S j 0), map_app. cbn [Nat.add map]. set (a := map _ (seq 0 j)). assert (La : length a = j) by (unfold a; rewrite map_length, seq_length; reflexivity).
  replace (combination (a ++ [r_entry qr j j]) (firstn j (q_cols qr))) with (combination a (firstn j (q_cols qr))).
  2:{ assert (Lf : length a = length (firstn j (q_cols qr))) by (rewrite La, firstn_length, Nat.min_l by lia; reflexivity). clear -Lf. revert Lf. generalize (firstn j (q_cols qr)) as q. induction a as [|c a IH]; intros [|p q] E; cbn in *; try lia; [reflexivity|]. rewrite <- IH by lia. reflexivity. }
  vec_with ltac:(field; exact N).
Qed.
Lemma combine_valid : forall q us, map A us = firstn (length us) q -> forall p, In p (combine q us) -> fst p = A (snd p).
Proof. induction q as [|c q IH]; intros [|u us] E p B; cbn in *; try tauto. injection E as E1 E2. destruct B as [<-|B]; [cbn; now symmetry|]. now apply (IH us). Qed.
Lemma map_fst_combine : forall (q us : list V), map fst (combine q us) = firstn (length us) q.
Proof. induction q as [|c q IH]; intros [|u us]; cbn; try reflexivity. now rewrite IH. Qed.
Lemma reorthogonalised_ok : forall us qr rank, pivoted_qr (map A us) qr rank -> valid (reorthogonalised us qr rank).
Proof.
  intros us qr rank Q. unfold reorthogonalised. pose proof (new_us_ok us qr rank rank Q (le_n _)) as E. split.
  - intros p B. apply in_rev in B. apply (combine_valid (q_cols qr) (new_us us qr rank)); [rewrite new_us_length; exact E|exact B].
  - rewrite map_rev, map_fst_combine. apply ortho_rev, ortho_firstn, ortho_of. apply Q.
Qed.

Lemma filled_products : forall l, known_products l -> map fst (filled A l) = map A (map snd (filled A l)).
Proof.
  intros l H. apply valid_map. intros p B. unfold filled in B. apply in_map_iff in B as ([[c|] u] & <- & B); cbn [fill fst snd]; [|reflexivity]. apply H. apply in_app_or in B as [B|B]; apply filter_In in B; apply B.
Qed.
Lemma forget_products : forall d l, known_products l -> known_products (forgotten d l).
Proof. intros [|] l H; [|exact H]. intros c u B. unfold forgotten in B. apply in_map_iff in B as (p & [= ] & _). Qed.

Lemma gcrot_ok : forall b x0 tol k tr d pairs qr rank is res, List.Forall (good_inner tr) is ->
  d = true \/ known_products pairs -> (pairs <> [] -> pivoted_qr (map fst (filled A (forgotten d pairs))) qr rank) ->
  gcrot dot A M b x0 tol k tr d pairs qr rank is = Some res ->
  norm dot (plus b (opp (A (solution res)))) <= norm dot (initial b x0) /\ norm dot (plus b (opp (A (solution res)))) <= residual res /\ (norm dot b <> 0 -> known_products (recycled res)).
Proof.
  intros b x0 tol k tr d pairs qr rank is res G KP Q H. unfold gcrot in H. destruct (Req_EM_T (norm dot b) 0) as [Z|NZ].
  - injection H as <-. cbn [solution residual recycled]. rewrite (norm_0 dot D b Z), (linear_zero A L). replace (plus (zero : V) (opp zero)) with (zero : V) by (symmetry; apply plus_opp_r). rewrite (norm_zero dot D). split; [apply norm_pos|]. split; [lra|]. intros N. now contradiction N.
  - assert (KF : known_products (forgotten d pairs)). { destruct KP as [->|KP]; [intros c u B; apply in_map_iff in B as (p & [= ] & _)|now apply forget_products]. }
    set (CU1 := match pairs with [] => _ | _ => _ end) in H.
    assert (V1 : valid CU1). { unfold CU1. destruct pairs as [|p0 l]; [split; [intros p []|exact I]|]. apply reorthogonalised_ok. change (pivoted_qr (map A (map snd (filled A (forgotten d (p0 :: l))))) qr rank). rewrite <- filled_products by exact KF. apply Q. discriminate. }
    set (xr0 := (_, match x0 with Some v => plus b (opp (A v)) | None => b end)) in H.
    assert (I0 : snd xr0 = initial b x0) by reflexivity.
    assert (R0 : snd xr0 = plus b (opp (A (fst xr0)))). { unfold xr0. cbn [fst snd]. destruct x0; [reflexivity|]. rewrite (linear_zero A L). vec. }
    destruct (projects_ok b CU1 xr0 V1 R0) as (R2 & L2 & P2). rewrite I0 in L2.
    destruct (fold_left (project dot) CU1 xr0) as [x2 r2] eqn:EP. cbn [fst snd] in R2, L2, P2.
    destruct (main_loop _ _ _ _ _ _ _ _ _ _ _) as [[s [beta|]] brk] eqn:EM; [|discriminate]. injection H as <-. cbn [solution residual recycled].
    destruct (main_ok b tol k tr is true None (State x2 r2 CU1 0) s (Some beta) brk G) as (C & LL & B); [split; [exact R2|split; [exact V1|exact P2]]|exact EM|discriminate|].
    rewrite <- (proj1 C). cbn [r] in LL. split; [|split; [now apply B|]].
    + apply (norm_le dot D). lra.
    + intros _ c u J. apply (forget_products d (map (fun p => (Some (fst p), snd p)) (CU s) ++ [(None, x s)])); [|exact J]. intros c' u' J'. apply in_app_or in J' as [J'|[[= ]|[]]]. apply in_map_iff in J' as (p & [= <- <-] & J'). now apply (proj1 (proj1 (proj2 C))).
Qed.

(** a reported residual within the tolerance is the true residual, whatever the recycled pairs are *)
Lemma main_true : forall b tol k tr is first beta0 s s' beta brk, (first = true -> CU s = [] -> r s = plus b (opp (A (x s)))) ->
  main_loop dot A M b tol k tr first is beta0 s = (s', beta, brk) -> (forall w, beta0 = Some w -> tol * norm dot b < w) ->
  forall w, beta = Some w -> w <= tol * norm dot b -> w = norm dot (plus b (opp (A (x s')))).
Proof.
  intros b tol k tr. induction is as [|i is IH]; intros first beta0 s s' beta brk F H B0 w E LE; cbn [main_loop] in H.
  - injection H as <- <- <-. specialize (B0 w E). lra.
  - set (rc := (if Rle_dec (norm dot (r s)) _ then true else false) && _) in H. set (s2 := if rc then State _ _ _ _ else s) in H. destruct (Rle_dec (norm dot (r s2)) _) as [L2|L2].
    + injection H as <- <- <-. injection E as <-. unfold s2 in *. destruct rc eqn:RC; [reflexivity|]. unfold rc in RC. destruct (Rle_dec (norm dot (r s)) _) as [L3|L3]; [|contradiction]. cbn [andb] in RC. apply orb_false_elim in RC as [R1 R2]. apply negb_false_iff in R1, R2. apply PeanoNat.Nat.eqb_eq, length_zero_iff_nil in R2. rewrite (F R1 R2). reflexivity.
    + refine (IH false _ _ _ _ _ _ H _ w E LE); [discriminate|]. intros v [= <-]. lra.
Qed.
Lemma gcrot_true : forall b x0 tol k tr d pairs qr rank is res, gcrot dot A M b x0 tol k tr d pairs qr rank is = Some res -> residual res <= tol * norm dot b -> true_residual dot A b (solution res) = residual res.
Proof.
  intros b x0 tol k tr d pairs qr rank is res H LE. unfold true_residual. unfold gcrot in H. destruct (Req_EM_T (norm dot b) 0) as [Z|NZ].
  - injection H as <-. cbn [solution residual]. rewrite (norm_0 dot D b Z), (linear_zero A L). replace (plus (zero : V) (opp zero)) with (zero : V) by (symmetry; apply plus_opp_r). apply (norm_zero dot D).
  - set (CU1 := match pairs with [] => _ | _ => _ end) in H. set (xr0 := (_, match x0 with Some v => plus b (opp (A v)) | None => b end)) in H.
    destruct (fold_left (project dot) CU1 xr0) as [x2 r2] eqn:EP. destruct (main_loop _ _ _ _ _ _ _ _ _ _ _) as [[s [beta|]] brk] eqn:EM; [|discriminate]. injection H as <-. cbn [solution residual] in *. symmetry.
    apply (main_true b tol k tr is true None _ _ _ _) with (2 := EM) (w := beta); [|discriminate|reflexivity|exact LE]. cbn [CU r x]. intros _ C0. rewrite C0 in EP. cbn [fold_left] in EP. unfold xr0 in EP. injection EP as <- <-. destruct x0; [reflexivity|]. rewrite (linear_zero A L). vec.
Qed.
Lemma gcrot_flag : forall b x0 tol k tr d pairs qr rank is res, gcrot dot A M b x0 tol k tr d pairs qr rank is = Some res -> flag res = 0%nat.
Proof.
  intros b x0 tol k tr d pairs qr rank is res H. unfold gcrot in H. destruct (Req_EM_T _ 0); [injection H as <-; reflexivity|]. destruct (fold_left _ _ _) as [x2 r2]. destruct (main_loop _ _ _ _ _ _ _ _ _ _ _) as [[s [beta|]] brk]; [|discriminate]. injection H as <-. reflexivity.
Qed.

(** the number of iterations *)
Lemma main_count : forall b tol k tr is first beta0 s s' beta brk, main_loop dot A M b tol k tr first is beta0 s = (s', beta, brk) ->
  exists n, (n <= length is)%nat /\ niter s' = (niter s + list_sum (map passes (firstn n is)))%nat /\ (n = length is \/ exists w, beta = Some w /\ w <= tol * norm dot b).
Proof.
  intros b tol k tr. induction is as [|i is IH]; intros first beta0 s s' beta brk H; cbn [main_loop] in H.
  - injection H as <- <- <-. exists 0%nat. cbn. split; [lia|]. split; [lia|now left].
  - set (s2 := if _ && _ then State _ _ _ _ else s) in H. assert (N : niter s2 = niter s) by (unfold s2; destruct (_ && _); reflexivity). destruct (Rle_dec (norm dot (r s2)) _) as [LE|LE].
    + injection H as <- <- <-. exists 0%nat. cbn [firstn map list_sum fold_right length]. split; [lia|]. split; [rewrite N; cbn; lia|]. right. now exists (norm dot (r s2)).
    + destruct (IH _ _ _ _ _ _ H) as (n & L1 & E & T). exists (S n). cbn [firstn map length]. split; [lia|]. split; [|destruct T as [T|T]; [left; lia|right; exact T]].
      rewrite E. change (list_sum (passes i :: map passes (firstn n is))) with (passes i + list_sum (map passes (firstn n is)))%nat. unfold update. destruct (Req_EM_T _ 0); cbn [niter]; rewrite N; lia.
Qed.
Lemma gcrot_count : forall b x0 tol k tr d pairs qr rank is res, norm dot b <> 0 -> gcrot dot A M b x0 tol k tr d pairs qr rank is = Some res ->
  exists n, (n <= length is)%nat /\ iterations res = list_sum (map passes (firstn n is)) /\ (n = length is \/ residual res <= tol * norm dot b).
Proof.
  intros b x0 tol k tr d pairs qr rank is res NZ H. unfold gcrot in H. destruct (Req_EM_T _ 0) as [Z0|_]; [contradiction|]. destruct (fold_left _ _ _) as [x2 r2]. destruct (main_loop _ _ _ _ _ _ _ _ _ _ _) as [[s [beta|]] brk] eqn:EM; [|discriminate].
  injection H as <-. cbn [iterations residual]. destruct (main_count _ _ _ _ _ _ _ _ _ _ _ EM) as (n & L1 & E & T). exists n. cbn [niter] in E. split; [exact L1|]. split; [exact E|]. destruct T as [T|(w & W & T)]; [now left|right; now injection W as <-].
Qed.

(** sizes *)
Lemma oldest_is : forall k (CU : list (V * V)), (1 <= k)%nat -> oldest k CU = skipn (length CU - (k - 1)) CU.
Proof.
  intros k CU K. induction CU as [|p l IH]; [reflexivity|]. cbn [oldest]. destruct (PeanoNat.Nat.leb_spec k (length (p :: l))) as [H|H]; cbn [length] in *.
  - rewrite IH. replace (S (length l) - (k - 1))%nat with (S (length l - (k - 1))) by lia. reflexivity.
  - replace (S (length l) - (k - 1))%nat with 0%nat by lia. reflexivity.
Qed.
Lemma oldest_zero : forall (CU : list (V * V)), oldest 0 CU = [].
Proof. induction CU as [|p l IH]; [reflexivity|]. cbn [oldest]. exact IH. Qed.
Lemma update_pairs : forall k s i, exists l, CU (update k Oldest s i) = CU s \/ (CU (update k Oldest s i) = skipn (length (CU s) - (k - 1)) (CU s) ++ [l]).
Proof.
  intros k s i. unfold GcrotModel.update. destruct (Req_EM_T _ 0); [exists (zero, zero); now left|]. eexists. right. cbn [CU]. f_equal. destruct k; [|apply oldest_is; lia].
  rewrite oldest_zero. symmetry. apply skipn_all2. lia.
Qed.
Lemma update_size : forall k s i, CU (update k Oldest s i) = CU s \/ (length (CU (update k Oldest s i)) <= Nat.max k 1)%nat.
Proof. intros k s i. destruct (update_pairs k s i) as (l & [E|E]); rewrite E; [now left|]. right. rewrite app_length, skipn_length. cbn [length]. lia. Qed.
Lemma main_size : forall b tol k is first beta0 s s' beta brk, main_loop dot A M b tol k Oldest first is beta0 s = (s', beta, brk) -> CU s' = CU s \/ (length (CU s') <= Nat.max k 1)%nat.
Proof.
  intros b tol k. induction is as [|i is IH]; intros first beta0 s s' beta brk H; cbn [main_loop] in H; [injection H as <- <- <-; now left|].
  set (s2 := if _ && _ then State _ _ _ _ else s) in H. assert (E2 : CU s2 = CU s) by (unfold s2; destruct (_ && _); reflexivity). destruct (Rle_dec (norm dot (r s2)) _); [injection H as <- <- <-; now left|].
  destruct (IH _ _ _ _ _ _ H) as [E|E]; [|now right]. rewrite E, <- E2. apply update_size.
Qed.
Lemma reorthogonalised_size : forall (us : list V) qr rank, length (reorthogonalised us qr rank) = Nat.min (length (q_cols qr)) rank.
Proof. intros us qr rank. unfold reorthogonalised. rewrite rev_length, combine_length, new_us_length. reflexivity. Qed.
Lemma gcrot_size : forall b x0 tol k d pairs qr rank is res, (rank <= length pairs)%nat -> gcrot dot A M b x0 tol k Oldest d pairs qr rank is = Some res -> (length (recycled res) <= S (Nat.max (length pairs) (Nat.max k 1)))%nat.
Proof.
  intros b x0 tol k d pairs qr rank is res HR H. unfold gcrot in H. destruct (Req_EM_T _ 0); [injection H as <-; cbn [recycled]; lia|].
  set (CU1 := match pairs with [] => _ | _ => _ end) in H. assert (L1 : (length CU1 <= length pairs)%nat). { unfold CU1. destruct pairs as [|p l]; [reflexivity|]. rewrite reorthogonalised_size. lia. }
  destruct (fold_left _ _ _) as [x2 r2]. destruct (main_loop _ _ _ _ _ _ _ _ _ _ _) as [[s [beta|]] brk] eqn:EM; [|discriminate]. injection H as <-. cbn [recycled].
  apply main_size in EM. cbn [CU] in EM. assert (F : forall l : list (pair (V := V)), length (forgotten d l) = length l) by (intros l; destruct d; cbn [forgotten]; [apply map_length|reflexivity]).
  unfold forgotten in F. rewrite F, app_length, map_length. cbn [length]. destruct EM as [->|EM]; lia.
Qed.
(** a solve whose first residual is zero adds a pair and drops only those the QR finds dependent *)
Definition start_pairs (d : bool) (pairs : list (pair (V := V))) (qr : qr_result) (rank : nat) : list (V * V) := match pairs with [] => [] | _ => reorthogonalised (map snd (filled A (forgotten d pairs))) qr rank end.
Lemma gcrot_immediate : forall b v tol k tr d pairs qr rank i is, norm dot b <> 0 -> plus b (opp (A v)) = zero -> 0 <= tol ->
  exists res, gcrot dot A M b (Some v) tol k tr d pairs qr rank (i :: is) = Some res /\ recycled res = forgotten d (map (fun p => (Some (fst p), snd p)) (start_pairs d pairs qr rank) ++ [(None, v)]).
Proof.
  intros b v tol k tr d pairs qr rank i is NZ RZ T. unfold gcrot. destruct (Req_EM_T _ 0) as [?|_]; [contradiction|]. rewrite RZ.
  set (CU1 := match pairs with [] => _ | _ => _ end). change (start_pairs d pairs qr rank) with CU1.
  assert (FP : fold_left (project dot) CU1 (v, zero) = (v, zero)). { clear -D. induction CU1 as [|[c u] l IH]; [reflexivity|]. cbn [fold_left project]. rewrite (dot_zero_r dot D). replace (axpy v 0 u) with v by vec. replace (axpy zero (- 0) c) with (zero : V) by vec. exact IH. }
  rewrite FP. cbn [main_loop r x CU niter]. rewrite RZ. assert (ZT : norm dot zero <= tol * norm dot b) by (rewrite (norm_zero dot D); apply Rmult_le_pos; [exact T|apply norm_pos]).
  set (s2 := if _ && _ then _ else _). assert (S2 : s2 = State v zero CU1 0) by (unfold s2; destruct (_ && _); reflexivity). rewrite S2. cbn [r]. destruct (Rle_dec (norm dot zero) _) as [_|N]; [|contradiction].
  eexists. split; [reflexivity|]. reflexivity.
Qed.
Lemma gcrot_grows : forall b v tol k tr d pairs qr i is, norm dot b <> 0 -> plus b (opp (A v)) = zero -> 0 <= tol -> pairs <> [] -> length (q_cols qr) = length pairs ->
  exists res, gcrot dot A M b (Some v) tol k tr d pairs qr (length pairs) (i :: is) = Some res /\ length (recycled res) = S (length pairs).
Proof.
  intros b v tol k tr d pairs qr i is NZ RZ T NP HR. destruct (gcrot_immediate b v tol k tr d pairs qr (length pairs) i is NZ RZ T) as (res & E & F). exists res. split; [exact E|]. rewrite F.
  assert (G : forall l : list (pair (V := V)), length (forgotten d l) = length l) by (intros l; destruct d; cbn [forgotten]; [apply map_length|reflexivity]). rewrite G, app_length, map_length. unfold start_pairs. destruct pairs; [now contradiction NP|]. rewrite reorthogonalised_size. cbn [length] in *. lia.
Qed.
End Proofs.
