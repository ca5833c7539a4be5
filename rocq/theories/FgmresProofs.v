From Coq Require Import Reals List Bool Arith Lra Lia.
From Coquelicot Require Import Hierarchy.
From Verif Require Import InnerSpec InnerFacts FgmresModel FgmresFacts VecTac.
Import ListNotations.
Local Open Scope R_scope.

Lemma lower_solve_zero : forall T v n, (forall i, (i < n)%nat -> v i = 0) -> forall l, nth l (lower_solve T v n) 0 = 0.
Proof.
  intros T v n. induction n as [|n IH]; intros H l; cbn [lower_solve]; [destruct l; reflexivity|]. assert (IH' := IH (fun i Hi => H i (Nat.lt_trans _ _ _ Hi (Nat.lt_succ_diag_r n)))).
  destruct (lt_eq_lt_dec l (length (lower_solve T v n))) as [[L| ->]|L].
  - rewrite app_nth1 by exact L. apply IH'.
  - rewrite nth_end, (H n) by lia. rewrite rsum_zero by (intros i _; rewrite IH'; ring). ring.
  - rewrite nth_overflow by (rewrite app_length; cbn; lia). reflexivity.
Qed.

Section Proofs.
Context {V : ModuleSpace R_Ring}.
Variable dot : V -> V -> R.
Variables A M : V -> V.
Hypothesis D : scalar_product dot.
Hypothesis L : linear_map A.
Notation nrm := (norm dot).
Notation axpy x a y := (plus x (scal (V := V) a y)).
Notation sc := (scal (V := V)).

Lemma set1_same : forall {T} (f : nat -> T) i v, set1 f i v i = v. Proof. intros. unfold set1. now rewrite Nat.eqb_refl. Qed.
Lemma set1_other : forall {T} (f : nat -> T) i v l, l <> i -> set1 f i v l = f l. Proof. intros. unfold set1. destruct (Nat.eqb_spec l i); [contradiction|reflexivity]. Qed.

Lemma ortho_ok : forall B k, (forall i, (i < k)%nat -> dot (rows B i) (rows B k) = 0) ->
  let q := rows B in let n := nrm (q k) in let w := q (S k) in let qk := sc (/ n) (q k) in let B' := snd (ortho dot B (k + 2)) in
  fst (ortho dot B (k + 2)) = n /\ (forall i, i <> k -> i <> S k -> rows B' i = q i) /\ rows B' k = qk /\
  rows B' (S k) = sc (/ n) (axpy (axpy w (-1) (vsum k (fun i => sc (dot (q i) w) (q i)))) (- (dot (q k) w / n)) qk) /\
  (forall i, (i < k)%nat -> mr B' i k = mk B i (k - 1)%nat) /\ mr B' k k = n /\ (forall i, (i < k)%nat -> mk B' i k = dot (q i) w / n) /\ mk B' k k = dot (q k) w / n / n.
Proof.
  intros B k P. cbv zeta. set (q := rows B) in *. unfold ortho. fold q. replace (k + 2 - 2)%nat with k by lia. replace (k + 2 - 1)%nat with (S k) by lia. replace (k + 2 - 3)%nat with (k - 1)%nat by lia. replace (k + 1)%nat with (S k) by lia. rewrite !Nat.add_0_r.
  assert (SM : forall T l, nth l (lower_solve T (fun i => dot (q i) (q k)) k) 0 = 0) by (intros; now apply lower_solve_zero).
  assert (R0 : forall f, rsum k (fun i => dot (q i) (q k) * f i) = 0) by (intros f; apply rsum_zero; intros i Hi; rewrite P by exact Hi; ring). rewrite !R0, !Rminus_0_r. change (sqrt (dot (q k) (q k))) with (nrm (q k)). set (n := nrm (q k)).
  set (R1 := set_col (mr B) (S k) (S k) (fun i => dot (q i) (q (S k)))). assert (E1 : forall i, (i <= k)%nat -> R1 i (S k) = dot (q i) (q (S k))).
  { intros i Hi. unfold R1, set_col. rewrite Nat.eqb_refl. destruct (Nat.ltb_spec i (S k)); [reflexivity|lia]. }
  set (R2 := fun i l : nat => if Nat.eqb i k && Nat.eqb l k then n else if Nat.eqb i k && Nat.eqb l (S k) then R1 k (S k) / n else R1 i l).
  assert (E2 : R2 k (S k) = dot (q k) (q (S k)) / n). { unfold R2. rewrite Nat.eqb_refl. destruct (Nat.eqb_spec (S k) k); [lia|]. rewrite Nat.eqb_refl. cbn [andb]. rewrite E1 by lia. reflexivity. }
  assert (E2' : forall i, (i < k)%nat -> R2 i (S k) = dot (q i) (q (S k))). { intros i Hi. unfold R2. destruct (Nat.eqb_spec i k); [lia|]. cbn [andb]. apply E1. lia. }
  assert (E2n : R2 k k = n) by (unfold R2; rewrite Nat.eqb_refl; reflexivity).
  destruct (Nat.ltb_spec 2 (k + 2)) as [K2|K2].
  - set (R3 := set_col R2 k k _). assert (E3 : forall i, R3 i (S k) = R2 i (S k)). { intros i. unfold R3, set_col. destruct (Nat.eqb_spec (S k) k); [lia|reflexivity]. }
    assert (E3k : R3 k k = n). { unfold R3, set_col. rewrite Nat.eqb_refl. destruct (Nat.ltb_spec k k); [lia|]. exact E2n. }
    assert (E3l : forall i, (i < k)%nat -> R3 i k = mk B i (k - 1)%nat). { intros i Hi. unfold R3, set_col. rewrite Nat.eqb_refl. destruct (Nat.ltb_spec i k); [|lia]. cbn [andb]. rewrite SM. ring. }
    cbn [fst snd rows mr mk]. set (q1 := set1 (set1 q k _) (S k) _).
    assert (Q1k : q1 k = q k). { unfold q1. rewrite set1_other, set1_same by lia. rewrite vsum_zero by (intros i Hi; rewrite P by exact Hi; exact (scal_zero_l _)). vec. }
    assert (Q1S : q1 (S k) = axpy (q (S k)) (-1) (vsum k (fun i => sc (dot (q i) (q (S k))) (q i)))). { unfold q1. rewrite set1_same. f_equal. f_equal. apply vsum_ext. intros i Hi. rewrite E3, E2' by exact Hi. reflexivity. }
    split; [reflexivity|]. split; [intros i N1 N2; rewrite !set1_other by auto; unfold q1; rewrite !set1_other by auto; reflexivity|]. split; [rewrite !set1_other by lia; rewrite set1_same, Q1k; reflexivity|].
    split; [rewrite !set1_same; rewrite (set1_other q1 k) by lia; rewrite ?set1_same; rewrite Q1k, Q1S, E3, E2; reflexivity|].
    split; [exact E3l|]. split; [exact E3k|]. assert (KK : forall i, (i <= k)%nat -> set_col (mk B) (S k) k (fun i0 => (R3 i0 (S k) - rsum k (fun l => R3 i0 (l + 1)%nat * nth l (lower_solve (set_col (mt B) k k (fun i1 => dot (q i1) (q k) / n)) (fun i1 => dot (q i1) (q k)) k) 0)) / n) i k = R3 i (S k) / n).
    { intros i Hi. unfold set_col at 1. rewrite Nat.eqb_refl. destruct (Nat.ltb_spec i (S k)); [|lia]. cbn [andb]. rewrite rsum_zero by (intros l _; rewrite SM; ring). f_equal. ring. }
    split; [intros i Hi; rewrite KK by lia; rewrite E3, E2' by exact Hi; reflexivity|]. rewrite KK by lia. rewrite E3, E2. reflexivity.
  - assert (k = 0)%nat by lia. subst k. cbn [fst snd rows mr mk]. split; [reflexivity|]. split; [intros i N1 N2; rewrite !set1_other by auto; reflexivity|]. split; [rewrite !set1_other by lia; rewrite set1_same; reflexivity|].
    split; [rewrite !set1_same; rewrite (set1_other q 0) by lia; rewrite ?set1_same; rewrite E2; cbn [vsum]; f_equal; f_equal; vec|].
    split; [intros i Hi; lia|]. split; [exact E2n|]. split; [intros i Hi; lia|]. change (R2 0%nat 1%nat / n = dot (q 0%nat) (q 1%nat) / n / n). rewrite E2. reflexivity.
Qed.

Definition h0 : nat -> R := fun _ => 0.
Record inv (r0 : V) (beta : R) (C : cycle) (n : nat) (hraw : nat -> nat -> R) (rs : list (R * R)) : Prop := Inv {
  i_on : on dot (rows (bas C)) n;
  i_on1 : v_norm C <> 0 -> on dot (rows (bas C)) (S n);
  i_brk : v_norm C = 0 -> (0 < n)%nat /\ hraw (n - 1)%nat n = 0;
  i_r0 : r0 = sc beta (rows (bas C) 0%nat);
  i_col : forall j, (j < n)%nat -> A (zs C j) = vsum (j + 2) (fun l => sc (hraw j l) (rows (bas C) l));
  i_sup : forall j l, (j < n)%nat -> (j + 1 < l)%nat -> hraw j l = 0;
  i_len : length rs = n;
  i_rot : rotations rs;
  i_hs : length (hs C) = n;
  i_tri : forall j, (j < n)%nat -> forall l, turn rs 0 (hraw j) l = nth j (hs C) h0 l;
  i_low : forall j l, (j < n)%nat -> (j < l)%nat -> nth j (hs C) h0 l = 0;
  i_g : forall l, turn rs 0 (set1 h0 0 beta) l = g C l;
  i_z : linear_map M -> forall j, (j < n)%nat -> zs C j = M (rows (bas C) j);
  c_rs : v_norm C <> 0 -> rots C = rs;
  c_perp : v_norm C <> 0 -> forall a, (a <= n)%nat -> dot (rows (bas C) a) (rows (bas C) (S n)) = 0;
  c_col : v_norm C <> 0 -> A (zs C n) = plus (vsum (S n) (fun l => sc (mk (bas C) l n) (rows (bas C) l))) (rows (bas C) (S n));
  c_z : v_norm C <> 0 -> linear_map M -> zs C n = M (rows (bas C) n)
}.

Lemma on_S : forall (q : nat -> V) n, on dot q n -> dot (q n) (q n) = 1 -> (forall a, (a < n)%nat -> dot (q a) (q n) = 0) -> on dot q (S n).
Proof.
  intros q n O U P a b Ha Hb. destruct (Nat.eq_dec a n) as [->|Na], (Nat.eq_dec b n) as [->|Nb].
  - now rewrite Nat.eqb_refl.
  - rewrite (dot_sym dot D), P by lia. destruct (Nat.eqb_spec n b); [lia|reflexivity].
  - rewrite P by lia. destruct (Nat.eqb_spec a n); [lia|reflexivity].
  - apply O; lia.
Qed.
Lemma on_ext : forall (q p : nat -> V) n, (forall i, (i < n)%nat -> q i = p i) -> on dot q n -> on dot p n.
Proof. intros q p n E O a b Ha Hb. rewrite <- !E by assumption. now apply O. Qed.
Lemma normal_unit : forall x, nrm x <> 0 -> dot (sc (/ nrm x) x) (sc (/ nrm x) x) = 1.
Proof. intros x N. rewrite (dot_scal_l dot D), (dot_scal_r dot D), <- (norm_sqr dot D). field. exact N. Qed.
(** the new vector is orthogonal to the previous ones *)
Lemma new_row_perp : forall (q : nat -> V) k w, on dot q k -> (forall a, (a < k)%nat -> dot (q a) (q k) = 0) -> let n := nrm (q k) in n <> 0 ->
  let p := sc (/ n) (axpy (axpy w (-1) (vsum k (fun i => sc (dot (q i) w) (q i)))) (- (dot (q k) w / n)) (sc (/ n) (q k))) in (forall a, (a < k)%nat -> dot (q a) p = 0) /\ dot (sc (/ n) (q k)) p = 0.
Proof.
  intros q k w O P n N p. unfold p. split.
  - intros a Ha. rewrite (dot_scal_r dot D), !(dot_plus_r dot D), !(dot_scal_r dot D), (on_coef dot D q k (fun i => dot (q i) w) a O Ha), P by exact Ha. ring.
  - rewrite (dot_scal_r dot D), !(dot_plus_r dot D), !(dot_scal_r dot D), !(dot_scal_l dot D), (dot_vsum_r dot D), rsum_zero by (intros i Hi; rewrite (dot_scal_r dot D), (dot_sym dot D (q k)), P by exact Hi; ring).
    rewrite <- (norm_sqr dot D (q k)). fold n. field. exact N.
Qed.

Lemma first_ok : forall r0, nrm r0 <> 0 -> exists hraw, inv r0 (nrm r0) (first_cycle dot A M r0 (nrm r0)) 0 hraw [].
Proof.
  intros r0 N. exists (fun _ _ => 0). unfold first_cycle. set (v0 := sc (/ nrm r0) r0). set (B0 := Basis (set1 (set1 (fun _ => zero) 0 v0) 1 (A (M v0))) _ _ _).
  destruct (ortho_ok B0 0) as (EN & EO & E0 & E1 & _ & _ & _ & EK); [intros; lia|]. cbn [Nat.add] in *. destruct (ortho dot B0 2) as [n B]. cbn [fst snd] in *.
  assert (R0 : rows B0 0%nat = v0) by reflexivity. assert (R1 : rows B0 1%nat = A (M v0)) by reflexivity. rewrite R0, R1 in *.
  assert (U : dot v0 v0 = 1) by (apply normal_unit; exact N). assert (N1 : nrm v0 = 1) by (apply (norm_unit dot D); exact U). rewrite N1 in *. subst n. cbn [vsum] in E1.
  assert (E0' : rows B 0%nat = v0) by (rewrite E0; vec_with ltac:(field)). clear E0.
  constructor; cbn [bas zs hs rots g v_norm length]; try (intros; lia); try reflexivity.
  - intros a b Ha. lia.
  - intros _ a b Ha Hb. replace a with 0%nat by lia. replace b with 0%nat by lia. rewrite E0'. exact U.
  - lra.
  - rewrite E0'. unfold v0. vec_with ltac:(field; exact N).
  - intros p [].
  - intros _ a Ha. replace a with 0%nat by lia. rewrite E0', E1. rewrite (dot_scal_r dot D), !(dot_plus_r dot D), !(dot_scal_r dot D), (dot_zero_r dot D), U. field.
  - intros _. cbn [vsum]. rewrite E0', E1, EK, set1_same. vec_with ltac:(field).
  - intros _ _. rewrite E0'. reflexivity.
Qed.

Lemma step_ok : forall r0 beta C i hraw rs C', inv r0 beta C i hraw rs -> inner_step dot A M C i = Some C' -> exists hraw' rs', inv r0 beta C' (S i) hraw' rs'.
Proof.
  intros r0 beta C i hraw rs C' I H. unfold inner_step in H. destruct (Req_EM_T (v_norm C) 0) as [Z|NZ]; [discriminate|].
  pose proof (i_on1 _ _ _ _ _ _ I NZ) as O1. pose proof (c_perp _ _ _ _ _ _ I NZ) as PP. pose proof (c_col _ _ _ _ _ _ I NZ) as CC. pose proof (c_rs _ _ _ _ _ _ I NZ) as RS.
  set (z := M (rows (bas C) (S i))) in *. set (w := sc (v_norm C) (A (sc (/ v_norm C) z))) in *.
  assert (W : w = A z). { unfold w. rewrite (proj2 L). vec_with ltac:(field; exact NZ). }
  set (B0 := Basis (set1 (rows (bas C)) (i + 2) w) (mr (bas C)) (mt (bas C)) (mk (bas C))) in *.
  assert (Q0 : forall a, (a <= S i)%nat -> rows B0 a = rows (bas C) a) by (intros a Ha; cbn [B0 rows]; apply set1_other; lia).
  assert (Q2 : rows B0 (S (S i)) = w) by (cbn [B0 rows]; replace (i + 2)%nat with (S (S i)) by lia; apply set1_same).
  destruct (ortho_ok B0 (S i)) as (EN & EO & E1 & E2 & ER & ERn & EK & EKn); [intros a Ha; rewrite !Q0 by lia; apply PP; lia|]. replace (S i + 2)%nat with (i + 3)%nat in * by lia.
  destruct (ortho dot B0 (i + 3)) as [n B] eqn:EB. cbn [fst snd] in *. rewrite (Q0 (S i)) in * by lia. rewrite Q2 in *. set (p := rows (bas C) (S i)) in *. rewrite <- EN in E1, E2, ERn, EK, EKn.
  assert (QB : forall a, (a <= i)%nat -> rows B a = rows (bas C) a) by (intros a Ha; rewrite EO by lia; apply Q0; lia).
  assert (NP : p = sc n (rows B (S i))). { rewrite E1. destruct (Req_EM_T n 0) as [N0|N0]; [|vec_with ltac:(field; exact N0)]. rewrite EN in N0. rewrite (norm_0 dot D p N0). rewrite EN, N0. symmetry. exact (scal_zero_l _). }
  replace (i + 1)%nat with (S i) in H by lia. set (hn := fun l : nat => if Nat.ltb l (i + 2) then mr B l (S i) else 0) in *.
  assert (Hl : forall l, (l <= i)%nat -> hn l = mk (bas C) l i). { intros l Hl. unfold hn. destruct (Nat.ltb_spec l (i + 2)); [|lia]. rewrite ER by lia. cbn [B0 mk]. replace (S i - 1)%nat with i by lia. reflexivity. }
  assert (Hn : hn (S i) = n). { unfold hn. destruct (Nat.ltb_spec (S i) (i + 2)); [|lia]. exact ERn. }
  assert (Hs : forall l, (i + 1 < l)%nat -> hn l = 0). { intros l Hl'. unfold hn. destruct (Nat.ltb_spec l (i + 2)); [lia|reflexivity]. }
  assert (COL : A (zs C i) = vsum (i + 2) (fun l => sc (hn l) (rows B l))).
  { rewrite CC. replace (i + 2)%nat with (S (S i)) by lia. cbn [vsum]. rewrite Hn, <- NP. f_equal. cbn [vsum]. f_equal; [apply vsum_ext; intros l Hl'|]; rewrite Hl, QB by lia; reflexivity. }
  assert (LR : length (rots C) = i) by (rewrite RS; apply (i_len _ _ _ _ _ _ I)).
  assert (AG : apply_givens (rots C) 0 i hn = Some (turn rs 0 hn)) by (rewrite <- RS; pose proof (apply_turn (rots C) 0 hn) as X; rewrite LR in X; exact X). rewrite AG in H. clear AG.
  set (h := turn rs 0 hn) in *. assert (HS : h (S i) = n). { unfold h. rewrite turn_above by (rewrite (i_len _ _ _ _ _ _ I); lia). exact Hn. }
  assert (HA : forall l, (i + 1 < l)%nat -> h l = 0). { intros l Hl'. unfold h. rewrite turn_above by (rewrite (i_len _ _ _ _ _ _ I); lia). now apply Hs. }
  set (hraw' := fun j => if Nat.eqb j i then hn else hraw j). set (z' := set1 (zs C) (S i) (sc (/ n) z)) in *.
  assert (COLS : forall j, (j < S i)%nat -> A (z' j) = vsum (j + 2) (fun l => sc (hraw' j l) (rows B l))).
  { intros j Hj. unfold z'. rewrite set1_other by lia. unfold hraw'. destruct (Nat.eqb_spec j i) as [->|Nj]; [exact COL|]. rewrite (i_col _ _ _ _ _ _ I) by lia. apply vsum_ext. intros l Hl'. rewrite QB by lia. reflexivity. }
  assert (SUP : forall j l, (j < S i)%nat -> (j + 1 < l)%nat -> hraw' j l = 0). { intros j l Hj Hl'. unfold hraw'. destruct (Nat.eqb_spec j i) as [->|Nj]; [now apply Hs|]. apply (i_sup _ _ _ _ _ _ I); lia. }
  assert (ON1 : on dot (rows B) (S i)) by (apply (on_ext (rows (bas C))); [intros a Ha; symmetry; apply QB; lia|exact O1]).
  assert (ZL : linear_map M -> forall j, (j < S i)%nat -> z' j = M (rows B j)). { intros LM j Hj. unfold z'. rewrite set1_other by lia. rewrite QB by lia. destruct (Nat.eq_dec j i) as [->|Nj]; [now apply (c_z _ _ _ _ _ _ I)|]. apply (i_z _ _ _ _ _ _ I LM). lia. }
  assert (R0' : r0 = sc beta (rows B 0%nat)) by (rewrite QB by lia; apply (i_r0 _ _ _ _ _ _ I)).
  assert (LOW : forall j l, (j < i)%nat -> (j < l)%nat -> nth j (hs C) h0 l = 0) by (intros; apply (i_low _ _ _ _ _ _ I); assumption).
  (* whatever the case, the list of rotations followed by (c, s) *)
  assert (GO : forall c s hn' g' rots', c * c + s * s = 1 -> (forall l, hn' l = rotate c s i h l) -> hn' (S i) = 0 -> (forall l, g' l = rotate c s i (g C) l) -> (n <> 0 -> rots' = rs ++ [(c, s)]) ->
     inv r0 beta (Cycle B z' (hs C ++ [hn']) rots' g' n) (S i) hraw' (rs ++ [(c, s)])).
  { intros c s hn' g' rots' CS EH H0 EG ERT. assert (HL := i_hs _ _ _ _ _ _ I). assert (RL := i_len _ _ _ _ _ _ I).
    assert (RK : forall v l, turn (rs ++ [(c, s)]) 0 v l = rotate c s i (turn rs 0 v) l) by (intros v l; rewrite turn_snoc, RL; reflexivity).
    assert (PERP : n <> 0 -> (forall a, (a < S i)%nat -> dot (rows B a) (rows B (S (S i))) = 0) /\ dot (rows B (S i)) (rows B (S (S i))) = 0).
    { intros N0. destruct (new_row_perp (set1 (rows B) (S i) p) (S i) w) as [X1 X2].
      - apply (on_ext (rows B)); [intros a Ha; rewrite set1_other by lia; reflexivity|exact ON1].
      - intros a Ha. rewrite set1_same, set1_other, QB by lia. apply PP. lia.
      - rewrite set1_same, <- EN. exact N0.
      - rewrite set1_same in X1, X2. rewrite <- EN in X1, X2. rewrite (vsum_ext (S i) _ (fun a => sc (dot (rows B0 a) w) (rows B0 a))) in X1, X2 by (intros a Ha; rewrite set1_other, QB, Q0 by lia; reflexivity). rewrite <- E2 in X1, X2. rewrite <- E1 in X2. split; [|exact X2].
        intros a Ha. specialize (X1 a Ha). rewrite set1_other in X1 by lia. exact X1. }
    assert (ON2 : n <> 0 -> on dot (rows B) (S (S i))).
    { intros N0. apply on_S; [exact ON1|rewrite E1, EN; apply normal_unit; rewrite <- EN; exact N0|]. intros a Ha. rewrite E1, (dot_scal_r dot D), QB, PP by lia. ring. }
    constructor; cbn [bas zs hs rots g v_norm].
    - exact ON1.
    - exact ON2.
    - intros N0. split; [lia|]. unfold hraw'. replace (S i - 1)%nat with i by lia. rewrite Nat.eqb_refl, Hn. exact N0.
    - exact R0'.
    - exact COLS.
    - exact SUP.
    - rewrite app_length. cbn. lia.
    - intros q Q. apply in_app_or in Q as [Q|[<-|[]]]; [now apply (i_rot _ _ _ _ _ _ I)|exact CS].
    - rewrite app_length. cbn. lia.
    - intros j Hj l. rewrite RK. unfold hraw'. destruct (Nat.eqb_spec j i) as [->|Nj].
      + rewrite <- HL at 2. rewrite nth_end, EH. reflexivity.
      + rewrite nth_snoc by lia. assert (T := i_tri _ _ _ _ _ _ I j). unfold rotate. rewrite !T by lia. rewrite (LOW j i), (LOW j (S i)) by lia. destruct (Nat.eqb_spec l i) as [->|]; [rewrite LOW by lia; ring|]. destruct (Nat.eqb_spec l (S i)) as [->|]; [rewrite LOW by lia; ring|reflexivity].
    - intros j l Hj Hl'. destruct (Nat.eq_dec j i) as [->|Nj].
      + rewrite <- HL at 1. rewrite nth_end. destruct (Nat.eq_dec l (S i)) as [->|]; [exact H0|]. rewrite EH. unfold rotate. destruct (Nat.eqb_spec l i); [lia|]. destruct (Nat.eqb_spec l (S i)); [lia|]. apply HA. lia.
      + rewrite nth_snoc by lia. apply LOW; lia.
    - intros l. rewrite RK, EG. unfold rotate. rewrite !(i_g _ _ _ _ _ _ I). reflexivity.
    - exact ZL.
    - exact ERT.
    - intros N0 a Ha. destruct (Nat.eq_dec a (S i)) as [->|]; [now apply PERP|]. apply PERP; [exact N0|lia].
    - intros N0. unfold z'. rewrite set1_same, (proj2 L), <- W, E2. cbn [vsum]. rewrite (EK i), EKn by lia. rewrite (vsum_ext i _ (fun l => sc (/ n) (sc (dot (rows B0 l) w) (rows B0 l)))).
      2:{ intros l Hl'. rewrite EK by lia. rewrite QB, Q0 by lia. unfold Rdiv. rewrite Rmult_comm. symmetry. exact (scal_assoc (/ n) _ _). }
      rewrite vsum_scal, E1, (QB i), (Q0 i) by lia. vec_with ltac:(field; exact N0).
    - intros N0 LM. unfold z', z. rewrite set1_same. fold p. rewrite E1, (proj2 LM). reflexivity. }
  destruct (Req_EM_T (h (S i)) 0) as [HZ|HZ].
  - injection H as <-. exists hraw', (rs ++ [(1, 0)]). apply GO; [ring| | | |].
    + intros l. unfold rotate. destruct (Nat.eqb_spec l i) as [->|]; [ring|]. destruct (Nat.eqb_spec l (S i)) as [->|]; [ring|reflexivity].
    + exact HZ.
    + intros l. unfold rotate. destruct (Nat.eqb_spec l i) as [->|]; [ring|]. destruct (Nat.eqb_spec l (S i)) as [->|]; [ring|reflexivity].
    + intros N0. rewrite HS in HZ. contradiction.
  - destruct (rotg (h i) (h (S i))) as [[c s] rr] eqn:ER2. destruct (rotg_ok _ _ _ _ _ ER2) as (CS & CR & CZ). injection H as <-. exists hraw', (rs ++ [(c, s)]). apply GO; [exact CS| | | |].
    + intros l. unfold rotate, set1. destruct (Nat.eqb_spec l (S i)) as [->|]; [destruct (Nat.eqb_spec (S i) i); [lia|]; symmetry; exact CZ|]. destruct (Nat.eqb_spec l i); reflexivity.
    + apply set1_same.
    + reflexivity.
    + intros _. rewrite RS. reflexivity.
Qed.
End Proofs.
