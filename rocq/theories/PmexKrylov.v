(** The Krylov relation of pmex: the basis and the matrix reproduce the powers of the augmented operator *)
From Coq Require Import Reals ZArith List Bool Arith Lra Lia.
From Coquelicot Require Import Coquelicot.
From Verif Require Import InnerSpec InnerFacts FgmresModel FgmresFacts VecTac KiopsModel PmexSpec PmexModel KiopsSpec KiopsProofs PmexProofs ExpmFacts.
Import ListNotations.
Local Open Scope R_scope.

Lemma vec_sum_vsum : forall (V : ModuleSpace R_Ring) n (f : nat -> V), vec_sum n f = vsum n f.
Proof. induction n as [|n IH]; intros; cbn; [reflexivity|now rewrite IH]. Qed.
Lemma rsum_more : forall n d f, (forall i, (n <= i)%nat -> f i = 0) -> rsum (n + d) f = rsum n f.
Proof. induction d as [|d IH]; intros f F; [now rewrite Nat.add_0_r|]. rewrite Nat.add_succ_r. cbn [rsum]. rewrite IH, F by (auto; lia). ring. Qed.

Lemma vsum_S : forall (V : ModuleSpace R_Ring) n (f : nat -> V), vsum (S n) f = plus (vsum n f) (f n). Proof. reflexivity. Qed.

Section Powers.
Context {V : ModuleSpace R_Ring}.
Variable A : V -> V.
Hypothesis L : linear_map A.
Variable v : nat -> V.
Variables h n : nat.
Hypothesis Hn : (1 <= h <= n)%nat.
Variable H : nat -> nat -> R.

Lemma powers_step : forall d, (d <= h)%nat -> (forall k, (k < d)%nat -> A (v k) = vsum h (fun q => scal (V := V) (H q k) (v q))) ->
  forall c : nat -> R, (forall i, (d <= i)%nat -> (i < n)%nat -> c i = 0) ->
  vsum h (fun i => scal (V := V) (sum_to n (fun q => H i q * c q)) (v i)) = A (vsum h (fun i => scal (V := V) (c i) (v i))).
Proof.
  intros d DH Rel c C. rewrite linear_vsum by exact L.
  rewrite (vsum_ext h (fun i => A _) (fun i => scal (V := V) (c i) (vsum h (fun q => scal (V := V) (H q i) (v q))))).
  2: { intros i I. rewrite (proj2 L). destruct (le_lt_dec d i) as [G|G]; [rewrite C by lia; rewrite !(scal_zero_l (V := V)); reflexivity|now rewrite Rel]. }
  rewrite (vsum_swap h h c (fun j l => H l j) v). apply vsum_ext. intros i I. f_equal. rewrite sum_to_rsum.
  transitivity (rsum h (fun q => H i q * c q)); [|apply rsum_ext; intros; apply Rmult_comm].
  assert (N : forall e, (h + e <= n)%nat -> rsum (h + e) (fun q => H i q * c q) = rsum h (fun q => H i q * c q)); [|replace n with (h + (n - h))%nat by lia; apply N; lia].
  induction e as [|e IH]; intros G; [now rewrite Nat.add_0_r|]. rewrite Nat.add_succ_r. cbn [rsum]. rewrite IH, (C (h + e)%nat) by lia. ring.
Qed.

Lemma powers_0 : vsum h (fun i => scal (V := V) (mat_pow n H 0 i 0) (v i)) = v 0%nat.
Proof. cbn [mat_pow]. rewrite (vsum_more h 1); [|lia|intros [|i] I; [lia|exact (scal_zero_l _)]]. cbn. rewrite plus_zero_l. exact (scal_one _). Qed.

(** all columns but the last: the powers below h *)
Lemma powers_low : (forall k, (k < h - 1)%nat -> A (v k) = vsum h (fun q => scal (V := V) (H q k) (v q))) -> (forall i k, (k < h - 1)%nat -> (k + 1 < i)%nat -> H i k = 0) ->
  forall k, (k < h)%nat -> (forall i, (k < i)%nat -> mat_pow n H k i 0 = 0) /\ vsum h (fun i => scal (V := V) (mat_pow n H k i 0) (v i)) = Nat.iter k A (v 0%nat).
Proof.
  intros Rel Low. induction k as [|k IH]; intros K.
  - split; [intros i I; cbn; destruct i; [lia|reflexivity]|]. exact powers_0.
  - destruct IH as [Z P]; [lia|]. split.
    + intros i I. cbn [mat_pow]. rewrite sum_to_rsum. apply rsum_zero. intros q Q. destruct (le_lt_dec q k) as [G|G]; [rewrite Low by lia; ring|rewrite Z by lia; ring].
    + change (Nat.iter (S k) A (v 0%nat)) with (A (Nat.iter k A (v 0%nat))). cbn [mat_pow]. rewrite <- P. apply powers_step with (d := (h - 1)%nat); auto; try lia. intros i I1 I2. apply Z. lia.
Qed.
(** all columns: all powers *)
Lemma powers_all : (forall k, (k < h)%nat -> A (v k) = vsum h (fun q => scal (V := V) (H q k) (v q))) -> (forall i k, (h <= i)%nat -> (i < n)%nat -> (k < n)%nat -> H i k = 0) ->
  forall k, (forall i, (h <= i)%nat -> (i < n)%nat -> mat_pow n H k i 0 = 0) /\ vsum h (fun i => scal (V := V) (mat_pow n H k i 0) (v i)) = Nat.iter k A (v 0%nat).
Proof.
  intros Rel Low. induction k as [|k IH].
  - split; [intros i I _; cbn; destruct i; [lia|reflexivity]|]. exact powers_0.
  - destruct IH as [Z P]. split.
    + intros i I1 I2. cbn [mat_pow]. rewrite sum_to_rsum. apply rsum_zero. intros q Q. rewrite Low by lia. ring.
    + change (Nat.iter (S k) A (v 0%nat)) with (A (Nat.iter k A (v 0%nat))). cbn [mat_pow]. rewrite <- P. apply powers_step with (d := h); auto; try lia.
Qed.
End Powers.

Lemma vsum_low : forall (V : ModuleSpace R_Ring) n m (f : nat -> V), (n <= m)%nat -> (forall i, (n <= i < m)%nat -> f i = zero) -> vsum m f = vsum n f.
Proof. induction m as [|m IH]; intros f L Z; [replace n with 0%nat by lia; reflexivity|]. destruct (Nat.eq_dec n (S m)) as [->|N]; [reflexivity|]. cbn [vsum]. rewrite Z, plus_zero_r by lia. apply IH; [lia|]. intros. apply Z. lia. Qed.

Section Basis.
Context {X : ModuleSpace R_Ring}.
Variable dot : X -> X -> R.
Hypothesis D : scalar_product dot.
Variable A : X -> X.
Hypothesis L : linear_map A.
Variable u : nat -> X.
Variable p : nat.
Hypothesis Hp : (1 <= p)%nat.
Variable ex : Z.
Notation row := (@row X).
Notation ad := (adot dot p).
Notation At := (augmented_product A u p ex).

Lemma ad_sym : forall x y, ad x y = ad y x.
Proof. intros x y. unfold adot. rewrite (dot_sym dot D). f_equal. apply rsum_ext. intros. ring. Qed.
Lemma ad_plus : forall x y z : row, ad (plus x y) z = ad x z + ad y z.
Proof.
  intros x y z. unfold adot. change (fst (plus x y)) with (plus (fst x) (fst y)). rewrite (dot_plus_l dot D).
  match goal with |- _ + rsum p ?f = _ => rewrite (rsum_ext p f (fun k => snd x k * snd z k + snd y k * snd z k)) end; [rewrite rsum_plus; cbn; ring|].
  intros k _. change (snd (plus x y) k) with (snd x k + snd y k). ring.
Qed.
Lemma ad_scal : forall a (x z : row), ad (scal (V := row) a x) z = a * ad x z.
Proof.
  intros a x z. unfold adot. change (fst (scal (V := row) a x)) with (scal (V := X) a (fst x)). rewrite (dot_scal_l dot D).
  match goal with |- _ + rsum p ?f = _ => rewrite (rsum_ext p f (fun k => a * (snd x k * snd z k))) end; [rewrite rsum_scal; cbn; ring|].
  intros k _. change (snd (scal (V := row) a x) k) with (a * snd x k). ring.
Qed.
Lemma ad_pos : forall x : row, 0 <= ad x x.
Proof. intros x. unfold adot. pose proof (dot_pos dot D (fst x)). pose proof (rsum_pos p (fun k => snd x k * snd x k) (fun k _ => Rle_0_sqr (snd x k))). lra. Qed.
Lemma ad_opp : forall x z : row, ad (opp x) z = - ad x z.
Proof. intros x z. replace (opp x) with (scal (V := row) (-1) x) by (exact (scal_opp_one x)). rewrite ad_scal. ring. Qed.
Lemma ad_zero : forall z : row, ad zero z = 0.
Proof. intros z. replace (zero : row) with (scal (V := row) 0 (zero : row)) by (exact (scal_zero_l _)). rewrite ad_scal. ring. Qed.
Lemma ad_vsum : forall n (f : nat -> row) z, ad (vsum n f) z = rsum n (fun i => ad (f i) z).
Proof. induction n as [|n IH]; intros f z; cbn [vsum rsum]; [apply ad_zero|]. rewrite ad_plus, IH. reflexivity. Qed.

Lemma At_linear : linear_map At.
Proof.
  split.
  - intros x y. unfold augmented_product. apply injective_projections; cbn [fst snd].
    + change (fst (plus x y)) with (plus (fst x) (fst y)). rewrite (proj1 L). change (fst (plus ?a ?b)) with (plus (fst a) (fst b)). cbn [fst].
      rewrite (vsum_ext p _ (fun k => plus (scal (V := X) (snd x k) (scal (V := X) (nu ex) (u (p - k)%nat))) (scal (V := X) (snd y k) (scal (V := X) (nu ex) (u (p - k)%nat))))).
      * rewrite vsum_plus. vec.
      * intros k _. change (snd (plus x y) k) with (snd x k + snd y k). vec.
    + apply FunctionalExtensionality.functional_extensionality. intro k. unfold shift. cbv beta. cbn -[Nat.ltb]. unfold co_plus. destruct (k <? p - 1)%nat; match goal with |- ?a = ?b => change (@eq R a b) end; ring.
  - intros a x. unfold augmented_product. apply injective_projections; cbn [fst snd].
    + change (fst (scal (V := row) a x)) with (scal (V := X) a (fst x)). rewrite (proj2 L).
      rewrite (vsum_ext p _ (fun k => scal (V := X) a (scal (V := X) (snd x k) (scal (V := X) (nu ex) (u (p - k)%nat))))).
      * rewrite vsum_scal. change (fst (scal (V := row) ?a ?b)) with (scal (V := X) a (fst b)). cbn [fst]. vec.
      * intros k _. change (snd (scal (V := row) a x) k) with (a * snd x k). vec.
    + apply FunctionalExtensionality.functional_extensionality. intro k. unfold shift. cbn -[Nat.ltb]. unfold co_scal. destruct (k <? p - 1)%nat; match goal with |- ?a = ?b => change (@eq R a b) end; ring.
Qed.

(** the norm of the first vector is positive: the last augmented entry is mu *)
Lemma start_pos : forall x now, 0 < ad (start_row p ex x now) (start_row p ex x now).
Proof.
  intros x now. unfold adot, start_row. cbn [fst snd]. pose proof (dot_pos dot D x). destruct p as [|q] eqn:P; [lia|]. cbn [rsum]. rewrite <- P in *.
  pose proof (rsum_pos q (fun k => augmented p now (mu ex) k * augmented p now (mu ex) k) (fun k _ => Rle_0_sqr _)).
  assert (M : augmented p now (mu ex) q = mu ex). { unfold augmented. replace (q <? p - 1)%nat with false by (symmetry; apply Nat.ltb_ge; lia). reflexivity. }
  rewrite M. assert (0 < mu ex) by (apply powerRZ_lt; lra). nra.
Qed.

Lemma ad_sub : forall x y z : row, ad (plus x (opp y)) z = ad x z - ad y z.
Proof. intros. rewrite ad_plus, ad_opp. ring. Qed.
Lemma rsum_one : forall n k (f : nat -> R), (k < n)%nat -> rsum n (fun i => f i * (if Nat.eqb i k then 1 else 0)) = f k.
Proof.
  intros n k f K. rewrite (rsum_delta n k) by (auto; intros i _ N; apply Nat.eqb_neq in N; rewrite N; ring). rewrite Nat.eqb_refl. ring.
Qed.
(** removing the components along an orthonormal family *)
Lemma project : forall j (q : nat -> row) (x : row), (forall i k, (i < j)%nat -> (k < j)%nat -> ad (q i) (q k) = if Nat.eqb i k then 1 else 0) ->
  let r := plus x (opp (vsum j (fun i => scal (V := row) (ad (q i) x) (q i)))) in
  (forall k, (k < j)%nat -> ad r (q k) = 0) /\ ad r r = ad x x - rsum j (fun i => ad (q i) x ^ 2).
Proof.
  intros j q x O r.
  assert (P : forall z, ad r z = ad x z - rsum j (fun i => ad (q i) x * ad (q i) z)).
  { intros z. unfold r. rewrite ad_sub, ad_vsum. f_equal. apply rsum_ext. intros i _. apply ad_scal. }
  assert (Q : forall k, (k < j)%nat -> ad r (q k) = 0).
  { intros k K. rewrite P. rewrite (rsum_ext j _ (fun i => ad (q i) x * (if Nat.eqb i k then 1 else 0))) by (intros i I; now rewrite O). rewrite rsum_one by exact K. rewrite (ad_sym x). ring. }
  split; [exact Q|]. rewrite P. rewrite (ad_sym x r), P.
  rewrite (rsum_ext j (fun i => ad (q i) x * ad (q i) r) (fun _ => 0)) by (intros i I; rewrite (ad_sym (q i) r), Q by exact I; ring).
  rewrite (rsum_zero j (fun _ => 0)) by reflexivity. rewrite (rsum_ext j (fun i => ad (q i) x ^ 2) (fun i => ad (q i) x * ad (q i) x)) by (intros; ring). ring.
Qed.

Definition ok (x : row) (K : @kry X) (j : nat) : Prop :=
  scal (V := row) (beta K) (vs K 0%nat) = x /\
  (forall k, (k < j)%nat -> At (vs K k) = vsum (k + 2) (fun q => scal (V := row) (hm K q k) (vs K q))) /\
  (forall i k, (k < j)%nat -> (k + 1 < i)%nat -> hm K i k = 0) /\
  (forall i k, (j <= k)%nat -> hm K i k = 0) /\
  (forall i k, (i <= j)%nat -> (k <= j)%nat -> ad (vs K i) (vs K k) = if Nat.eqb i k then 1 else 0).
Definition clean (K : @kry X) : Prop := (forall i k, nm K i k = 0) /\ (forall i k, mi K i k = if Nat.eqb i k then 1 else 0).

(** the result of one orthogonalisation on an orthonormal basis: the matrices N and Minv change nothing *)
Lemma orth_shape : forall t x K j, ok x K j -> clean K ->
  let v := At (vs K j) in let c i := ad (vs K i) v in let r := plus v (opp (vsum (S j) (fun i => scal (V := row) (c i) (vs K i)))) in let nr := sqrt (ad r r) in
  (forall i, (i <= j)%nat -> ad r (vs K i) = 0) /\
  exists N1 I1, (forall i k, N1 i k = 0) /\ (forall i k, I1 i k = if Nat.eqb i k then 1 else 0) /\
  orth dot A u p ex t K (S j) =
    if Rlt_dec nr t then (Kry (set1 (vs K) (S j) r) (hm K) N1 I1 (PmexModel.beta K), true)
    else (Kry (set1 (vs K) (S j) (scal (V := row) (/ nr) r)) (fun i k => if Nat.eqb k j then if Nat.ltb i (S j) then c i else if Nat.eqb i (S j) then nr else hm K i k else hm K i k) N1 I1 (PmexModel.beta K), false).
Proof.
  intros t x K j (O1 & O2 & O3 & O4 & O5) (C1 & C2) v c r nr. unfold orth. rewrite Nat.sub_succ, Nat.sub_0_r.
  set (v1 := set1 (vs K) (S j) (augmented_product A u p ex (vs K j))).
  assert (E1 : forall i, (i <= j)%nat -> v1 i = vs K i) by (intros i I; unfold v1, set1; replace (i =? S j)%nat with false by (symmetry; apply Nat.eqb_neq; lia); reflexivity).
  assert (E2 : v1 (S j) = v) by (unfold v1, set1; now rewrite Nat.eqb_refl).
  assert (E3 : forall y, set1 v1 (S j) y = set1 (vs K) (S j) y) by (intros y; apply FunctionalExtensionality.functional_extensionality; intros i; unfold v1, set1; now destruct (i =? S j)%nat).
  rewrite !Nat.add_0_r, Nat.add_1_r. cbv beta zeta.
  set (N1 := if (1 <? S j)%nat then set_col _ _ _ _ else nm K).
  set (I1 := if (1 <? S j)%nat then _ else mi K).
  assert (HN : forall i k, N1 i k = 0).
  { intros i k. unfold N1. destruct (1 <? S j)%nat; [|apply C1]. unfold set_col. destruct (Nat.eqb_spec k j) as [->|]; cbn [andb]; [|apply C1]. destruct (Nat.ltb_spec i j) as [G|G]; [|apply C1].
    rewrite !E1 by lia. rewrite O5 by lia. replace (i =? j)%nat with false by (symmetry; apply Nat.eqb_neq; lia). ring. }
  assert (HI : forall i k, I1 i k = if Nat.eqb i k then 1 else 0).
  { intros i k. unfold I1. destruct (1 <? S j)%nat; [|apply C2]. destruct (Nat.eqb_spec i j) as [->|]; cbn [andb]; [|apply C2]. destruct (Nat.ltb_spec k j) as [G|G]; [|apply C2].
    replace (j =? k)%nat with false by (symmetry; apply Nat.eqb_neq; lia). rewrite rsum_zero; [ring|]. intros q Q. rewrite !E1 by lia. rewrite O5 by lia. replace (q =? j)%nat with false by (symmetry; apply Nat.eqb_neq; lia). ring. }
  assert (HS : forall i, (i <= j)%nat -> ad (v1 i) (v1 (S j)) + rsum (S j) (fun k => rsum (S j) (fun q => N1 i q * I1 q k) * ad (v1 k) (v1 (S j))) = c i).
  { intros i I. rewrite (rsum_zero (S j)); [rewrite E1, E2 by lia; unfold c; ring|]. intros k _. rewrite (rsum_zero (S j)); [ring|]. intros q _. rewrite HN. ring. }
  set (r' := plus (v1 (S j)) (opp (vsum (S j) _))).
  assert (Hr : r' = r).
  { unfold r', r. rewrite E2. do 2 f_equal. apply vsum_ext. intros i I. rewrite <- E2, HS, E1 by lia. reflexivity. }
  destruct (project (S j) (vs K) v) as [P1 P2]; [intros i k I I'; apply O5; lia|]. fold c in P1, P2. change (ad r r = ad v v - rsum (S j) (fun i => c i ^ 2)) in P2.
  split; [intros i I; apply P1; lia|]. exists N1, I1. split; [exact HN|]. split; [exact HI|].
  set (nr' := if Rlt_dec (ad (v1 (S j)) (v1 (S j))) _ then _ else _).
  assert (Hn : nr' = nr).
  { unfold nr', nr. rewrite Hr, P2, E2. rewrite (rsum_ext (S j) (fun i => ad (v1 i) v ^ 2) (fun i => c i ^ 2)) by (intros i I; rewrite E1 by lia; reflexivity). match goal with |- (if ?d then _ else _) = _ => destruct d end; reflexivity. }
  rewrite Hn, Hr, !E3. destruct (Rlt_dec nr t); [reflexivity|]. do 2 f_equal. apply FunctionalExtensionality.functional_extensionality. intros i. apply FunctionalExtensionality.functional_extensionality. intros k.
  destruct (k =? j)%nat; [|reflexivity]. destruct (Nat.ltb_spec i (S j)); [|reflexivity]. now rewrite HS by lia.
Qed.
Lemma orth_ok : forall t x K j K' b, 0 < t -> ok x K j -> clean K -> orth dot A u p ex t K (S j) = (K', b) -> ok x K' (if b then j else S j) /\ clean K' /\
  (b = true -> exists c, let r := plus (At (vs K' j)) (opp (vsum (S j) (fun i => scal (V := row) (c i) (vs K' i)))) in sqrt (ad r r) < t).
Proof.
  intros t x K j K' b T O C H. destruct (orth_shape t x K j O C) as [P1 (N1 & I1 & HN & HI & E)]. rewrite E in H. clear E.
  set (v := At (vs K j)) in *. set (c := fun i => ad (vs K i) v) in *. cbv zeta beta in P1. set (r := plus v _) in *. set (nr := sqrt (ad r r)) in *.
  assert (E3 : forall i y, (i <= j)%nat -> set1 (vs K) (S j) y i = vs K i) by (intros i y I; unfold set1; replace (i =? S j)%nat with false by (symmetry; apply Nat.eqb_neq; lia); reflexivity).
  assert (E4 : forall y, set1 (vs K) (S j) y (S j) = y) by (intros y; unfold set1; now rewrite Nat.eqb_refl).
  destruct O as (O1 & O2 & O3 & O4 & O5).
  destruct (Rlt_dec nr t) as [G|G]; apply pair_equal_spec in H as [<- <-].
  - split; [|split; [split; assumption|]].
    + unfold ok. lazy beta iota delta [vs hm PmexModel.beta].
      split; [rewrite E3 by lia; exact O1|]. split; [|split; [exact O3|split; [exact O4|intros i k I I'; rewrite !E3 by lia; now apply O5]]].
      intros k I. rewrite E3 by lia. rewrite O2 by exact I. apply vsum_ext. intros q Q. rewrite E3 by lia. reflexivity.
    + intros _. exists c. lazy beta iota zeta delta [vs]. rewrite E3 by lia. fold v. rewrite (vsum_ext (S j) _ (fun i => scal (V := row) (c i) (vs K i))) by (intros i I; rewrite E3 by lia; reflexivity). exact G.
  - assert (NP : 0 < nr) by lra. split; [|split; [split; assumption|discriminate]].
    unfold ok. lazy beta iota delta [vs hm PmexModel.beta].
    assert (RR : ad r r = nr * nr) by (symmetry; apply sqrt_sqrt, ad_pos).
    split; [rewrite E3 by lia; exact O1|]. split; [|split; [|split]].
    + intros k I. rewrite (E3 k) by lia. destruct (Nat.eq_dec k j) as [->|N].
      * fold v. replace (j + 2)%nat with (S (S j)) by lia. rewrite vsum_S. rewrite E4, Nat.eqb_refl by lia.
        replace (S j <? S j)%nat with false by (symmetry; apply Nat.ltb_ge; lia). rewrite Nat.eqb_refl.
        rewrite (vsum_ext (S j) _ (fun i => scal (V := row) (c i) (vs K i))).
        2: { intros i I'. rewrite E3 by lia. replace (i <? S j)%nat with true by (symmetry; apply Nat.ltb_lt; lia). reflexivity. }
        unfold r. set (S0 := vsum (S j) _). clearbody S0. rewrite <- scal_Rmult. replace (nr * / nr) with 1 by (field; lra). vec.
      * rewrite O2 by lia. apply vsum_ext. intros q Q. rewrite E3 by lia. apply Nat.eqb_neq in N. now rewrite N.
    + intros i k I I'. destruct (Nat.eqb_spec k j) as [->|N]; [|apply O3; lia]. replace (i <? S j)%nat with false by (symmetry; apply Nat.ltb_ge; lia). replace (i =? S j)%nat with false by (symmetry; apply Nat.eqb_neq; lia). apply O4. lia.
    + intros i k I. replace (k =? j)%nat with false by (symmetry; apply Nat.eqb_neq; lia). apply O4. lia.
    + assert (Q1 : forall i, (i <= j)%nat -> ad (scal (V := row) (/ nr) r) (vs K i) = 0) by (intros i I; rewrite ad_scal; rewrite P1 by lia; ring).
      intros i k I I'. destruct (Nat.eq_dec i (S j)) as [->|N1'], (Nat.eq_dec k (S j)) as [->|N2'].
      * rewrite E4, Nat.eqb_refl, ad_scal, ad_sym, ad_scal, RR. field. lra.
      * rewrite E4, E3, Q1 by lia. replace (S j =? k)%nat with false by (symmetry; apply Nat.eqb_neq; lia). reflexivity.
      * rewrite E4, E3, ad_sym, Q1 by lia. replace (i =? S j)%nat with false by (symmetry; apply Nat.eqb_neq; lia). reflexivity.
      * rewrite !E3 by lia. apply O5; lia.
Qed.

Lemma orths_ok : forall t x rest K j K' h b, 0 < t -> ok x K j -> clean K -> orths dot A u p ex t rest K j = (K', h, b) ->
  ok x K' (if b then h - 1 else h)%nat /\ clean K' /\ (b = false -> h = (j + rest)%nat) /\ (b = true -> (j < h <= j + rest)%nat /\
    exists c, let r := plus (At (vs K' (h - 1)%nat)) (opp (vsum h (fun i => scal (V := row) (c i) (vs K' i)))) in sqrt (ad r r) < t).
Proof.
  intros t x rest. induction rest as [|rest IH]; intros K j K' h b T O C H; cbn [orths] in H.
  - apply pair_equal_spec in H as [H <-]. apply pair_equal_spec in H as [<- <-]. split; [exact O|split; [exact C|split; [intros; lia|discriminate]]].
  - destruct (orth dot A u p ex t K (S j)) as [K1 b1] eqn:E. destruct (orth_ok t x K j K1 b1 T O C E) as (O' & C' & B'). destruct b1.
    + apply pair_equal_spec in H as [H <-]. apply pair_equal_spec in H as [<- <-]. rewrite Nat.sub_succ, Nat.sub_0_r. split; [exact O'|split; [exact C'|split; [discriminate|]]]. intros _. split; [lia|]. now apply B'.
    + destruct (IH K1 (S j) K' h b T O' C' H) as (P1 & P2 & P3 & P4). split; [exact P1|split; [exact P2|split; [intros B; rewrite P3 by exact B; lia|]]].
      intros B. destruct (P4 B) as [P5 P6]. split; [lia|exact P6].
Qed.
Lemma first_ok : forall K x now, clean K -> ok (start_row p ex x now) (first_row dot p ex K x now) 0 /\ clean (first_row dot p ex K x now).
Proof.
  intros K x now C. split; [|exact C]. unfold first_row. set (v := start_row p ex x now). pose proof (start_pos x now) as P. fold v in P. set (b := sqrt (ad v v)). assert (B : 0 < b) by (now apply sqrt_lt_R0).
  assert (BB : b * b = ad v v) by (apply sqrt_sqrt; lra).
  unfold ok. lazy beta iota delta [vs hm PmexModel.beta]. assert (E : forall y, set1 (vs K) 0%nat y 0%nat = y) by reflexivity. rewrite E. split; [|split; [lia|split; [lia|split; [reflexivity|]]]].
  - rewrite <- scal_Rmult. replace (b * / b) with 1 by (field; lra). exact (scal_one v).
  - intros i k I J. replace i with 0%nat by lia. replace k with 0%nat by lia. rewrite E. rewrite ad_scal, ad_sym, ad_scal, <- BB. cbn. field. lra.
Qed.

Lemma iter_scal : forall (B : row -> row), linear_map B -> forall k b v, scal (V := row) b (Nat.iter k B v) = Nat.iter k B (scal (V := row) b v).
Proof. intros B LB. induction k as [|k IH]; intros b v; [reflexivity|]. change (scal (V := row) b (B (Nat.iter k B v)) = B (Nat.iter k B (scal (V := row) b v))). rewrite <- IH. symmetry. apply LB. Qed.
(** the arrays reproduce the powers below h, for every matrix that agrees with H in the first h - 1 columns *)
Lemma ok_reproduces : forall x K j h n G, ok x K j -> (1 <= h <= n)%nat -> (h <= j + 1)%nat -> (forall i k, (k < h - 1)%nat -> G i k = hm K i k) -> reproduces At x h (PmexModel.beta K) n G h (vs K).
Proof.
  intros x K j h n G (O1 & O2 & O3 & O4 & O5) N J E k I. rewrite vec_sum_vsum.
  rewrite (vsum_ext h _ (fun i => scal (V := row) (PmexModel.beta K) (scal (V := row) (mat_pow n G k i 0) (vs K i)))) by (intros; apply scal_Rmult).
  rewrite vsum_scal. destruct (powers_low At At_linear (vs K) h n N G) with (k := k) as [_ P]; [| |exact I|].
  - intros q Q. rewrite O2 by lia. rewrite (vsum_low _ (q + 2) h); [|lia|intros i I'; rewrite E by lia; rewrite O3 by lia; exact (scal_zero_l _)].
    apply vsum_ext. intros i _. now rewrite E by lia.
  - intros i q Q I'. rewrite E by lia. apply O3; lia.
  - rewrite P. rewrite iter_scal by exact At_linear. now rewrite O1.
Qed.

Variable expm : nat -> (nat -> nat -> R) -> nat -> nat -> R.
Notation fp := (f_pass dot A u p ex expm).
Notation fr := (f_run dot A u p ex expm).
Notation fst0 := (start_row p ex).
Definition finv (a : args) (f : @fstate X) : Prop := inv a (ctl f) /\ clean (kr f) /\ ((0 < j (ctl f))%Z -> ok (fst0 (w f (l (ctl f))) (tau_now (ctl f))) (kr f) (Z.to_nat (j (ctl f)))).

Lemma basis_ok : forall a f K h b, good a -> finv a f -> basis_of dot A u p ex a f = (K, h, b) ->
  ok (fst0 (w f (l (ctl f))) (tau_now (ctl f))) K (if b then h - 1 else h)%nat /\ clean K /\ (1 <= h)%nat /\ arnoldi (ctl f) (if b then Some (Z.of_nat h) else None) = (Z.of_nat h, b) /\
  (b = false -> Z.of_nat h = m (ctl f)) /\ (b = true -> (Z.of_nat h <= m (ctl f))%Z /\ exists c, let r := plus (At (vs K (h - 1)%nat)) (opp (vsum h (fun i => scal (V := row) (c i) (vs K i)))) in sqrt (ad r r) < tol a).
Proof.
  intros a f K h b (GN & GT & GM) (I & C & O) H. destruct I as (IN & IT & IM & IJ & _). unfold basis_of in H. set (s := ctl f) in *.
  set (K0 := if (j s =? 0)%Z then _ else _) in H.
  assert (O0 : ok (fst0 (w f (l s)) (tau_now s)) K0 (Z.to_nat (j s)) /\ clean K0).
  { unfold K0. destruct (Z.eqb_spec (j s) 0) as [E|E]; [rewrite E; now apply first_ok|split; [apply O; lia|exact C]]. }
  destruct O0 as [O0 C0]. destruct (orths_ok (tol a) _ _ K0 _ K h b GT O0 C0 H) as (P1 & P2 & P3 & P4). split; [exact P1|]. split; [exact P2|].
  unfold arnoldi. destruct b.
  - destruct (P4 eq_refl) as [P5 P6]. split; [lia|]. split; [|split; [discriminate|intros _; split; [lia|exact P6]]]. replace ((j s <? Z.of_nat h) && (Z.of_nat h <=? m s))%Z with true; [reflexivity|]. symmetry. apply andb_true_intro. split; [apply Z.ltb_lt|apply Z.leb_le]; lia.
  - specialize (P3 eq_refl). split; [lia|]. split; [f_equal; lia|split; [intros; lia|discriminate]].
Qed.

Lemma ok_compress : forall x K j i k, ok x K j -> (k < j)%nat -> (i <= j)%nat -> hm K i k = ad (vs K i) (At (vs K k)).
Proof.
  intros x K j i k (O1 & O2 & O3 & O4 & O5) K1 I1. rewrite O2 by exact K1. rewrite ad_sym, ad_vsum.
  rewrite (rsum_ext _ _ (fun q => hm K q k * (if Nat.eqb q i then 1 else 0))) by (intros q Q; rewrite ad_scal, O5 by lia; reflexivity).
  destruct (le_lt_dec (k + 2) i) as [G|G].
  - rewrite O3 by lia. symmetry. apply rsum_zero. intros q Q. replace (q =? i)%nat with false by (symmetry; apply Nat.eqb_neq; lia). ring.
  - now rewrite rsum_one.
Qed.

Lemma p_pass_cases : forall a delta s q s' j1 b, 1 <= delta -> p_pass a delta s q = Some s' -> arnoldi s (p_breakdown q) = (j1, b) ->
  (tau_now s' = tau_now s /\ step s' = step s /\ j s' = j1 /\ l s' = l s /\ b = false) \/
  (tau_now s' = tau_now s + tau s /\ step s' = S (step s) /\ j s' = 0%Z /\ l s' = (l s + blown a s)%nat).
Proof.
  intros a delta s q s' j1 b DL H E. unfold p_pass in H. rewrite E in H. destruct (p_decide a delta s j1 b q) as [d|] eqn:P; [|discriminate].
  destruct (ltR delta (d_omega d)) eqn:LT; injection H as <-; cbn [tau_now step j l]; [left|right; auto].
  repeat split. destruct b; [|reflexivity]. unfold p_decide in P. injection P as <-. cbn [d_omega] in LT. apply ltR_true in LT. lra.
Qed.

Lemma f_pass_shape : forall a delta f f', 1 <= delta -> good a -> finv a f -> fp a delta f = Some f' ->
  exists K h b q, basis_of dot A u p ex a f = (K, h, b) /\ p_pass a delta (ctl f) q = Some (ctl f') /\
  ((tau_now (ctl f') = tau_now (ctl f) /\ j (ctl f') = Z.of_nat h /\ l (ctl f') = l (ctl f) /\ b = false /\ w f' = w f /\ kr f' = Kry (vs K) (fun i k => if Nat.eqb i 0 && Nat.eqb k h then 0 else hm K i k) (nm K) (mi K) (PmexModel.beta K)) \/
   (tau_now (ctl f') = tau_now (ctl f) + tau (ctl f) /\ j (ctl f') = 0%Z /\ l (ctl f') = (l (ctl f) + blown a (ctl f))%nat /\ nm (kr f') = nm K /\ mi (kr f') = mi K /\
    (forall k, w f' k = if Nat.eqb k (l (ctl f')) then combine_rows K h (mat_mul (S h) (expm (S h) (fun i k => sgn a * 0.5 * tau (ctl f) * with_phi (hm K) h i k)) (expm (S h) (fun i k => sgn a * 0.5 * tau (ctl f) * with_phi (hm K) h i k)))
       else if (Nat.leb (l (ctl f)) k && Nat.ltb k (l (ctl f')))%bool then combine_rows K h (expm h (fun i q => sgn a * (nth k (tau_out a) 0 - tau_now (ctl f)) * hm K i q)) else w f k))).
Proof.
  intros a delta f f' DL G I H. unfold f_pass in H. destruct (basis_of dot A u p ex a f) as [[K h] b] eqn:B. destruct (basis_ok a f K h b G I B) as (P1 & P2 & P3 & P4 & P5 & P6).
  exists K, h, b. match type of H with (match p_pass _ _ _ ?q with _ => _ end = _) => exists q; destruct (p_pass a delta (ctl f) q) as [s'|] eqn:E; [|discriminate] end.
  split; [reflexivity|]. destruct (p_pass_cases _ _ _ _ _ _ _ DL E P4) as [(C1 & C2 & C3 & C4 & C5)|(C1 & C2 & C3 & C4)].
  - rewrite C2, Nat.ltb_irrefl in H. injection H as <-. cbn [ctl w kr]. split; [reflexivity|]. left. repeat split; auto.
  - rewrite C2 in H. replace (step (ctl f) <? S (step (ctl f)))%nat with true in H by (symmetry; apply Nat.ltb_lt; lia). apply (f_equal (fun o => match o with Some y => y | None => f' end)) in H. rewrite <- H. cbn [ctl w kr nm mi]. split; [reflexivity|]. right.
    rewrite C4. repeat split; auto.
Qed.

Lemma finv_start : forall a, good a -> finv a (f_start u a).
Proof. intros a G. split; [now apply inv_start|]. split; [split; reflexivity|]. cbn. lia. Qed.
Lemma finv_pass : forall a delta f f', 1 <= delta -> good a -> finv a f -> tau_now (ctl f) < tau_end a -> fp a delta f = Some f' -> finv a f'.
Proof.
  intros a delta f f' DL G I T H. destruct (f_pass_shape a delta f f' DL G I H) as (K & h & b & q & B & P & R). destruct (basis_ok a f K h b G I B) as (P1 & P2 & P3 & P4 & P5 & P6).
  split; [apply (p_inv_pass a delta (ctl f) q); auto; apply I|]. destruct R as [(R1 & R2 & R3 & R4 & R5 & R6)|(R1 & R2 & R3 & R4 & R5 & R6)].
  - subst b. rewrite R6. split; [exact P2|]. intros _. rewrite R1, R2, R3, R5, Nat2Z.id. destruct P1 as (O1 & O2 & O3 & O4 & O5). unfold ok. lazy beta iota delta [vs hm PmexModel.beta].
    assert (E : forall i k, (if (i =? 0)%nat && (k =? h)%nat then 0 else hm K i k) = hm K i k).
    { intros i k. destruct (Nat.eqb_spec k h) as [->|]; [rewrite O4 by lia; now destruct (_ && _)%bool|now rewrite andb_false_r]. }
    split; [exact O1|]. split; [intros k I'; rewrite O2 by exact I'; apply vsum_ext; intros; now rewrite E|]. split; [intros; rewrite E; now apply O3|]. split; [intros; rewrite E; now apply O4|exact O5].
  - split; [unfold clean; rewrite R4, R5; exact P2|]. rewrite R2. lia.
Qed.
Lemma finv_run : forall a delta n f f', 1 <= delta -> good a -> finv a f -> fr a delta n f = Some f' -> finv a f' /\ exists ps, p_run a delta ps (ctl f) = Some (ctl f').
Proof.
  intros a delta n. induction n as [|n IH]; intros f f' DL G I H; cbn [f_run] in H.
  - injection H as <-. split; [exact I|]. now exists [].
  - destruct (Rlt_dec (tau_now (ctl f)) (tau_end a)) as [T|T]; [|injection H as <-; split; [exact I|now exists []]].
    destruct (fp a delta f) as [f1|] eqn:P; [|discriminate]. destruct (IH f1 f' DL G (finv_pass _ _ _ _ DL G I T P) H) as [J [ps E]]. split; [exact J|].
    destruct (f_pass_shape a delta f f1 DL G I P) as (K & h & b & q & _ & Q & _). exists (q :: ps). cbn [p_run]. destruct (Rlt_dec _ _) as [_|]; [|contradiction]. now rewrite Q.
Qed.

Lemma fst_combination : forall h b (F : nat -> R) (V : nat -> row), fst (vec_sum h (fun i => scal (V := row) (b * F i) (V i))) = vsum h (fun i => scal (V := X) (b * F i) (fst (V i))).
Proof. induction h as [|h IH]; intros b F V; [reflexivity|]. cbn [vec_sum vsum]. rewrite <- IH. reflexivity. Qed.

Theorem krylov_ok : forall a delta n f f', 1 <= delta -> good a -> (forall n M, is_expm n M (expm n M)) -> fr a delta n (f_start u a) = Some f -> tau_now (ctl f) < tau_end a -> fp a delta f = Some f' ->
  tau_now (ctl f) < tau_now (ctl f') ->
  exists h b V H, (1 <= h)%nat /\
    (forall i k, (i < h)%nat -> (k < h)%nat -> ad (V i) (V k) = if Nat.eqb i k then 1 else 0) /\
    reproduces At (fst0 (w f (l (ctl f))) (tau_now (ctl f))) h b h H h V /\
    (Z.of_nat h = m (ctl f) /\ (forall i k, (i < h)%nat -> (k < h)%nat -> H i k = ad (V i) (At (V k))) \/
     (Z.of_nat h <= m (ctl f))%Z /\ exists c, let r := plus (At (V (h - 1)%nat)) (opp (vec_sum h (fun i => scal (V := row) (c i) (V i)))) in sqrt (ad r r) < tol a) /\
    (exists F, exp_column h (fun i k => sgn a * tau (ctl f) * H i k) F /\ w f' (l (ctl f')) = fst (vec_sum h (fun i => scal (V := row) (b * F i) (V i)))) /\
    (forall k, (l (ctl f) <= k < l (ctl f'))%nat -> exists F, exp_column h (fun i q => sgn a * (nth k (tau_out a) 0 - tau_now (ctl f)) * H i q) F /\ w f' k = fst (vec_sum h (fun i => scal (V := row) (b * F i) (V i)))) /\
    (forall k, (k < l (ctl f))%nat -> w f' k = w f k).
Proof.
  intros a delta n f f' DL G XM R T P LT. destruct (finv_run a delta n _ _ DL G (finv_start a G) R) as [I _].
  destruct (f_pass_shape a delta f f' DL G I P) as (K & h & b & q & B & Q & W). destruct (basis_ok a f K h b G I B) as (P1 & P2 & P3 & P4 & P5 & P6).
  destruct W as [(W1 & _)|(W1 & W2 & W3 & _ & _ & W)]; [lra|].
  assert (HB : forall i k, (i < h)%nat -> (k < h)%nat -> with_phi (hm K) h i k = hm K i k).
  { intros i k I1 I2. unfold with_phi. replace (i =? h)%nat with false by (symmetry; apply Nat.eqb_neq; lia). replace (k =? h)%nat with false by (symmetry; apply Nat.eqb_neq; lia). now rewrite andb_false_r. }
  exists h, (PmexModel.beta K), (vs K), (hm K). split; [exact P3|]. split; [|split; [|split; [|split; [|split]]]].
  - intros i k I1 I2. destruct P1 as (_ & _ & _ & _ & O5). apply O5; destruct b; lia.
  - apply ok_reproduces with (if b then h - 1 else h)%nat; auto; destruct b; lia.
  - destruct b; [right|left].
    + destruct (P6 eq_refl) as [M [c C]]. split; [exact M|]. exists c. rewrite vec_sum_vsum. exact C.
    + split; [now apply P5|]. intros i k I1 I2. apply ok_compress with (1 := P1); lia.
  - specialize (W (l (ctl f'))). rewrite Nat.eqb_refl in W. set (M := fun i k => sgn a * tau (ctl f) * with_phi (hm K) h i k).
    match type of W with _ = combine_rows K h ?F => exists (fun i => F i 0%nat) end. split.
    + intros i I1. apply is_series_ext with (fun k => / INR (fact k) * mat_pow h M k i 0).
      { intros k. f_equal. apply mat_pow_ext; [|exact I1]. intros; unfold M; now rewrite HB. }
      apply (is_expm_block h M (mat_mul (S h) _ _) P3); [| |exact I1].
      * intros k Hk. unfold M, with_phi. rewrite Nat.eqb_refl. cbn [andb]. destruct P1 as (_ & _ & O3 & O4 & _). destruct (Nat.eqb_spec k (h - 1)); [ring|]. replace (h =? 0)%nat with false by (symmetry; apply Nat.eqb_neq; lia). cbn [andb].
        destruct (le_lt_dec (h - 1) k) as [G1|G1]; [rewrite O4 by (destruct b; lia); ring|rewrite O3 by (destruct b; lia); ring].
      * apply expm_square. apply is_expm_ext with (2 := XM (S h) _). intros; unfold M; replace 0.5 with (1 / 2) by lra; ring.
    + rewrite W. unfold combine_rows. now rewrite fst_combination.
  - intros k Hk. specialize (W k). replace (k =? l (ctl f'))%nat with false in W by (symmetry; apply Nat.eqb_neq; lia).
    replace (Nat.leb (l (ctl f)) k) with true in W by (symmetry; apply Nat.leb_le; lia). replace (Nat.ltb k (l (ctl f'))) with true in W by (symmetry; apply Nat.ltb_lt; lia). cbn [andb] in W.
    match type of W with _ = combine_rows K h ?F => exists (fun i => F i 0%nat) end. split; [intros i I1; apply XM; lia|]. rewrite W. unfold combine_rows. now rewrite fst_combination.
  - intros k Hk. specialize (W k). replace (k =? l (ctl f'))%nat with false in W by (symmetry; apply Nat.eqb_neq; lia).
    replace (Nat.leb (l (ctl f)) k) with false in W by (symmetry; apply Nat.leb_gt; lia). exact W.
Qed.
End Basis.
