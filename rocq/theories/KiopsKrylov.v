(** The Krylov relation of kiops, with incomplete orthogonalisation *)
From Coq Require Import Reals ZArith List Bool Arith Lra Lia.
From Coquelicot Require Import Coquelicot.
From Verif Require Import InnerSpec InnerFacts FgmresModel FgmresFacts VecTac KiopsModel PmexSpec PmexModel KiopsSpec KiopsProofs PmexProofs ExpmFacts ExpmMore PmexKrylov KiopsLinear KiopsStats.
Import ListNotations.
Local Open Scope R_scope.

Lemma vsum_window : forall (V : ModuleSpace R_Ring) lo d (f : nat -> V), (forall i, (i < lo)%nat -> f i = zero) -> vsum d (fun i => f (lo + i)%nat) = vsum (lo + d) f.
Proof.
  intros V lo d f Z. induction d as [|d IH].
  - rewrite Nat.add_0_r. cbn [vsum]. clear -Z. induction lo as [|lo IH]; [reflexivity|]. cbn [vsum]. rewrite <- IH by (intros; apply Z; lia). rewrite Z by lia. symmetry. apply plus_zero_l.
  - rewrite Nat.add_succ_r. cbn [vsum]. now rewrite IH.
Qed.
(** a relation with a remainder in the last column *)
Lemma defect_rest : forall (V : ModuleSpace R_Ring) (A : V -> V), linear_map A -> forall (v : nat -> V) h H r, (1 <= h)%nat -> (forall k, (k < h - 1)%nat -> A (v k) = vsum h (fun q => scal (V := V) (H q k) (v q))) ->
  A (v (h - 1)%nat) = plus (vsum h (fun q => scal (V := V) (H q (h - 1)%nat) (v q))) r -> forall c : nat -> R,
  A (vsum h (fun i => scal (V := V) (c i) (v i))) = plus (vsum h (fun i => scal (V := V) (sum_to h (fun k => H i k * c k)) (v i))) (scal (V := V) (c (h - 1)%nat) r).
Proof.
  intros V A L v h H r Hh Rel Last c. rewrite linear_vsum by exact L.
  rewrite (vsum_ext h (fun i => A _) (fun i => plus (scal (V := V) (c i) (vsum h (fun q => scal (V := V) (H q i) (v q)))) (if Nat.eqb i (h - 1) then scal (V := V) (c i) r else zero))).
  2: { intros i I. rewrite (proj2 L). destruct (Nat.eqb_spec i (h - 1)) as [->|N]; [rewrite Last; apply scal_distr_l|]. rewrite Rel by lia. symmetry. apply plus_zero_r. }
  rewrite vsum_plus. rewrite (vsum_swap h h c (fun j l => H l j) v). f_equal.
  - apply vsum_ext. intros i I. f_equal. change (sum_to h ?f) with (rsum h f). apply rsum_ext. intros; apply Rmult_comm.
  - destruct h as [|h']; [lia|]. rewrite Nat.sub_succ, Nat.sub_0_r. cbn [vsum]. rewrite Nat.eqb_refl.
    rewrite (vsum_ext h' _ (fun _ => zero)) by (intros i I; replace (i =? h')%nat with false by (symmetry; apply Nat.eqb_neq; lia); reflexivity).
    rewrite (vsum_low _ 0 h' (fun _ => zero)) by (auto; lia). apply plus_zero_l.
Qed.

Section Basis.
Context {X : ModuleSpace R_Ring}.
Variable dot : X -> X -> R.
Hypothesis D : scalar_product dot.
Variable A : X -> X.
Hypothesis L : linear_map A.
Variable u : nat -> X.
Variable p : nat.
Hypothesis Hp : (1 <= p)%nat.
Variable ex : Z.
Variable iop : nat.
Notation row := (@row X).
Notation ad := (adot dot p).
Notation At := (augmented_product A u p ex).

Definition kok (t : R) (x : row) (K : @basis X) (j : nat) : Prop :=
  scal (V := row) (bb K) (bv K 0%nat) = x /\
  (forall k, (k < j)%nat -> At (bv K k) = vsum (k + 2) (fun q => scal (V := row) (bh K q k) (bv K q))) /\
  (forall i k, (i <= j)%nat -> (k <= j)%nat -> (i <= k + iop)%nat -> (k <= i + iop)%nat -> ad (bv K i) (bv K k) = if Nat.eqb i k then 1 else 0) /\
  (forall k, (k < j)%nat -> t <= bh K (S k) k).
Definition low (K : @basis X) : Prop := forall i k, (k + 1 < i)%nat -> bh K i k = 0.
Definition high (mx : nat) (K : @basis X) : Prop := forall i k, (i + iop <= k)%nat -> (k < mx)%nat -> bh K i k = 0.
(** the remainder of a breakdown at size S j *)
Definition broken (t : R) (K : @basis X) (j : nat) : Prop :=
  exists r, At (bv K j) = plus (vsum (S j) (fun i => scal (V := row) (bh K i j) (bv K i))) r /\ sqrt (ad r r) < t /\ forall i, (i <= j)%nat -> (S j <= i + iop)%nat -> ad (bv K i) r = 0.

Lemma k_orth_ok : forall mx t x K j K' b, 0 < t -> (j < mx)%nat -> kok t x K j -> low K -> high mx K -> k_orth dot A u p ex iop t K (S j) = (K', b) ->
  low K' /\ high mx K' /\ (forall i k, k <> j -> bh K' i k = bh K i k) /\ (b = false -> kok t x K' (S j)) /\ (b = true -> kok t x K' j /\ broken t K' j).
Proof.
  intros mx t x K j K' b T J (O1 & O2 & O5 & O6) LO HI H. unfold k_orth in H. rewrite Nat.sub_succ, Nat.sub_0_r in H. cbv zeta in H.
  set (v1 := set1 (bv K) (S j) (At (bv K j))) in H. set (lo := (S j - iop)%nat) in H.
  assert (E1 : forall i, (i <= j)%nat -> v1 i = bv K i) by (intros i I; unfold v1, set1; replace (i =? S j)%nat with false by (symmetry; apply Nat.eqb_neq; lia); reflexivity).
  assert (E2 : v1 (S j) = At (bv K j)) by (unfold v1, set1; now rewrite Nat.eqb_refl).
  assert (E3 : forall y i, (i <= j)%nat -> set1 v1 (S j) y i = bv K i) by (intros y i I; unfold v1, set1; replace (i =? S j)%nat with false by (symmetry; apply Nat.eqb_neq; lia); reflexivity).
  assert (E4 : forall y, set1 v1 (S j) y (S j) = y) by (intros y; unfold set1; now rewrite Nat.eqb_refl).
  set (H1 := fun i k => if ((k =? j)%nat && (lo <=? i)%nat && (i <? S j)%nat)%bool then ad (v1 i) (v1 (S j)) else bh K i k) in H.
  assert (HW : forall i, (lo <= i)%nat -> (i <= j)%nat -> H1 i j = ad (bv K i) (At (bv K j))).
  { intros i I1 I2. unfold H1. rewrite Nat.eqb_refl. replace (lo <=? i)%nat with true by (symmetry; apply Nat.leb_le; lia). replace (i <? S j)%nat with true by (symmetry; apply Nat.ltb_lt; lia). cbn [andb]. now rewrite E1, E2. }
  assert (HZ : forall i, (i < lo)%nat -> H1 i j = 0).
  { intros i I. unfold H1. rewrite Nat.eqb_refl. replace (lo <=? i)%nat with false by (symmetry; apply Nat.leb_gt; lia). cbn [andb]. apply HI; lia. }
  assert (HB : forall i, (S j <= i)%nat -> H1 i j = bh K i j).
  { intros i I. unfold H1. replace (i <? S j)%nat with false by (symmetry; apply Nat.ltb_ge; lia). now rewrite andb_false_r. }
  assert (HO : forall i k, k <> j -> H1 i k = bh K i k).
  { intros i k N. unfold H1. apply Nat.eqb_neq in N. now rewrite N. }
  set (v := plus (v1 (S j)) _) in H.
  assert (EV : v = plus (At (bv K j)) (opp (vsum (S j - lo) (fun i => scal (V := row) (ad (bv K (lo + i)%nat) (At (bv K j))) (bv K (lo + i)%nat))))).
  { unfold v. f_equal; [exact E2|]. f_equal. apply vsum_ext. intros i I. match goal with |- _ = ?b => change (scal (V := row) (H1 (lo + i)%nat j) (v1 (lo + i)%nat) = b) end. rewrite HW, E1 by lia. reflexivity. }
  assert (EA : At (bv K j) = plus (vsum (S j) (fun i => scal (V := row) (H1 i j) (bv K i))) v).
  { rewrite EV. replace (vsum (S j) (fun i => scal (V := row) (H1 i j) (bv K i))) with (vsum (S j - lo) (fun i => scal (V := row) (ad (bv K (lo + i)%nat) (At (bv K j))) (bv K (lo + i)%nat))).
    - set (s := vsum _ _). clearbody s. vec.
    - transitivity (vsum (lo + (S j - lo)) (fun i => scal (V := row) (H1 i j) (bv K i))); [|f_equal; lia]. rewrite <- (vsum_window _ lo (S j - lo) (fun i => scal (V := row) (H1 i j) (bv K i))) by (intros i I; rewrite HZ by exact I; exact (scal_zero_l _)).
      apply vsum_ext. intros i I. now rewrite HW by lia. }
  destruct (project dot D p (S j - lo) (fun i => bv K (lo + i)%nat) (At (bv K j))) as [P1 _].
  { intros i k I1 I2. rewrite O5 by lia. destruct (Nat.eqb_spec i k) as [->|N]; [now rewrite Nat.eqb_refl|]. replace (lo + i =? lo + k)%nat with false by (symmetry; apply Nat.eqb_neq; lia). reflexivity. }
  cbv beta zeta in P1. rewrite <- EV in P1.
  assert (P : forall i, (lo <= i)%nat -> (i <= j)%nat -> ad v (bv K i) = 0) by (intros i I1 I2; replace i with (lo + (i - lo))%nat by lia; apply P1; lia). clear P1.
  assert (HIG : forall i k, (i + iop <= k)%nat -> (k < mx)%nat -> H1 i k = 0).
  { intros i k I1 I2. destruct (Nat.eq_dec k j) as [->|N]; [apply HZ; lia|]. rewrite HO by exact N. now apply HI. }
  assert (LOW : forall i k, (k + 1 < i)%nat -> H1 i k = 0).
  { intros i k I. destruct (Nat.eq_dec k j) as [->|N]; [rewrite HB by lia; apply LO; lia|]. rewrite HO by exact N. now apply LO. }
  set (nr := sqrt (ad v v)) in H. destruct (Rlt_dec nr t) as [G|G]; apply pair_equal_spec in H as [<- <-].
  - split; [exact LOW|]. split; [exact HIG|]. split; [exact HO|]. split; [discriminate|]. intros _. split.
    + unfold kok. lazy beta iota delta [bv bh bb]. split; [rewrite E3 by lia; exact O1|]. split; [|split; [intros i k I1 I2; rewrite !E3 by lia; now apply O5|intros k I; rewrite HO by lia; now apply O6]].
      intros k I. rewrite E3 by lia. rewrite O2 by exact I. apply vsum_ext. intros q Q. rewrite E3, HO by lia. reflexivity.
    + exists v. lazy beta iota delta [bv bh bb]. rewrite E3 by lia. split; [|split; [exact G|]].
      * rewrite EA at 1. f_equal. apply vsum_ext. intros i I. now rewrite E3 by lia.
      * intros i I1 I2. rewrite E3 by exact I1. rewrite (ad_sym dot D p). apply P; lia.
  - assert (NP : 0 < nr) by lra. assert (RR : ad v v = nr * nr) by (symmetry; apply sqrt_sqrt, (ad_pos dot D p)).
    set (H2 := fun i k => if ((i =? S j)%nat && (k =? j)%nat)%bool then nr else H1 i k). repeat match goal with |- context [Basis ?a ?g ?b] => lazymatch g with H2 => fail | _ => change (Basis a g b) with (Basis a H2 b) end end.
    assert (H2O : forall i k, i <> S j \/ k <> j -> H2 i k = H1 i k).
    { intros i k N. unfold H2. destruct N as [N|N]; apply Nat.eqb_neq in N; rewrite N; [reflexivity|now rewrite andb_false_r]. }
    assert (H2S : H2 (S j) j = nr) by (unfold H2; now rewrite !Nat.eqb_refl).
    split; [intros i k I; cbn [bh]; rewrite H2O by lia; now apply LOW|]. split; [intros i k I1 I2; cbn [bh]; rewrite H2O by lia; now apply HIG|].
    split; [intros i k N; cbn [bh]; rewrite H2O by (right; exact N); now apply HO|]. split; [intros _|discriminate].
    unfold kok. lazy beta iota delta [bv bh bb]. split; [rewrite E3 by lia; exact O1|]. split; [|split].
    + intros k I. rewrite E3 by lia. destruct (Nat.eq_dec k j) as [->|N].
      * replace (j + 2)%nat with (S (S j)) by lia. rewrite vsum_S, E4, H2S. rewrite EA at 1. f_equal.
        -- apply vsum_ext. intros i I'. rewrite E3, H2O by lia. reflexivity.
        -- rewrite <- scal_Rmult. replace (nr * / nr) with 1 by (field; lra). symmetry. exact (scal_one _).
      * rewrite O2 by lia. apply vsum_ext. intros q Q. rewrite E3, H2O, HO by lia. reflexivity.
    + assert (Q1 : forall i, (lo <= i)%nat -> (i <= j)%nat -> ad (scal (V := row) (/ nr) v) (bv K i) = 0) by (intros i I1 I2; rewrite (ad_scal dot D p); rewrite P by lia; ring).
      intros i k I1 I2 W1 W2. destruct (Nat.eq_dec i (S j)) as [->|N1], (Nat.eq_dec k (S j)) as [->|N2].
      * rewrite E4, Nat.eqb_refl, (ad_scal dot D p), (ad_sym dot D p), (ad_scal dot D p), RR. field. lra.
      * rewrite E4, E3, Q1 by lia. replace (S j =? k)%nat with false by (symmetry; apply Nat.eqb_neq; lia). reflexivity.
      * rewrite E4, E3, (ad_sym dot D p), Q1 by lia. replace (i =? S j)%nat with false by (symmetry; apply Nat.eqb_neq; lia). reflexivity.
      * rewrite !E3 by lia. apply O5; lia.
    + intros k I. destruct (Nat.eq_dec k j) as [->|N]; [rewrite H2S; lra|]. rewrite H2O, HO by lia. apply O6. lia.
Qed.

Lemma k_orths_ok : forall mx t x rest K j K' h b, 0 < t -> (j + rest <= mx)%nat -> kok t x K j -> low K -> high mx K -> k_orths dot A u p ex iop t rest K j = (K', h, b) ->
  low K' /\ high mx K' /\ (forall i k, (j + rest <= k)%nat -> bh K' i k = bh K i k) /\
  (b = false -> h = (j + rest)%nat /\ kok t x K' h) /\ (b = true -> (j < h <= j + rest)%nat /\ kok t x K' (h - 1)%nat /\ broken t K' (h - 1)%nat).
Proof.
  intros mx t x rest. induction rest as [|rest IH]; intros K j K' h b T J O LO HI H; cbn [k_orths] in H.
  - apply pair_equal_spec in H as [H <-]. apply pair_equal_spec in H as [<- <-]. split; [exact LO|]. split; [exact HI|]. split; [reflexivity|]. split; [|discriminate]. intros _. split; [lia|exact O].
  - destruct (k_orth dot A u p ex iop t K (S j)) as [K1 b1] eqn:E. destruct (k_orth_ok mx t x K j K1 b1 T ltac:(lia) O LO HI E) as (L1 & H1 & S1 & F1 & T1). destruct b1.
    + apply pair_equal_spec in H as [H <-]. apply pair_equal_spec in H as [<- <-]. rewrite Nat.sub_succ, Nat.sub_0_r. split; [exact L1|]. split; [exact H1|]. split; [intros i k I; apply S1; lia|]. split; [discriminate|]. intros _. split; [lia|]. now apply T1.
    + destruct (IH K1 (S j) K' h b T ltac:(lia) (F1 eq_refl) L1 H1 H) as (P1 & P2 & P3 & P4 & P5). split; [exact P1|]. split; [exact P2|]. split; [intros i k I; rewrite P3 by lia; apply S1; lia|].
      split; [intros B; destruct (P4 B); split; [lia|assumption]|]. intros B. destruct (P5 B) as (Q1 & Q2). split; [lia|exact Q2].
Qed.
Lemma k_first_ok : forall t K x now, kok t (start_row p ex x now) (k_first dot p ex K x now) 0.
Proof.
  intros t K x now. unfold k_first. set (v := start_row p ex x now). pose proof (start_pos dot D p Hp ex x now) as P. fold v in P. set (b := sqrt (ad v v)). assert (B : 0 < b) by (now apply sqrt_lt_R0).
  assert (BB : b * b = ad v v) by (apply sqrt_sqrt; lra).
  unfold kok. lazy beta iota delta [bv bh bb]. assert (E : forall y, set1 (bv K) 0%nat y 0%nat = y) by reflexivity. rewrite E. split; [|split; [lia|split; [|lia]]].
  - rewrite <- scal_Rmult. replace (b * / b) with 1 by (field; lra). exact (scal_one v).
  - intros i k I J _ _. replace i with 0%nat by lia. replace k with 0%nat by lia. rewrite E. rewrite (ad_scal dot D p), (ad_sym dot D p), (ad_scal dot D p), <- BB. cbn. field. lra.
Qed.

(** what a pass does to the control *)
Lemma pass_cases : forall a s h (b : bool) e s', good a -> inv a s -> tau_now s < tau_end a -> pass a s (Probe (if b then Some h else None) e) = Some s' -> (b = true -> (j s < h <= m s)%Z) ->
  ((tau_now s' = tau_now s /\ step s' = step s /\ j s' = m s /\ l s' = l s /\ conv s' = conv s /\ b = false /\ 1.4 < tau_end a * Rabs e / (tau s * tol a)) \/
   (tau_now s' = tau_now s + tau s /\ step s' = S (step s) /\ j s' = 0%Z /\ l s' = (l s + blown a s)%nat /\ conv s' = conv s + (if b then 0 else Rabs e) /\ (b = false -> tau_end a * Rabs e / (tau s * tol a) <= 1.4))) /\
  (m s = mmax a -> m s' = mmax a) /\ (m s <> mmax a -> tau_now s' = tau_now s -> tau s' = Rmin (tau_end a - tau_now s) (tau s)).
Proof.
  intros a s h b e s' G I T H B. pose proof I as (_ & _ & IM & IJ & _). unfold pass, arnoldi in H. cbn [breakdown estimate] in H.
  assert (MX : Z.max (j s) (m s) = m s) by lia. assert (TP : 0 < tau s) by (destruct I as (_ & IT & _); apply (IT T)). destruct b.
  - specialize (B eq_refl). replace ((j s <? h) && (h <=? m s))%Z with true in H by (symmetry; apply andb_true_intro; split; [apply Z.ltb_lt|apply Z.leb_le]; lia).
    unfold decide in H. cbn [d_omega d_err d_tau d_m] in H. destruct (ltR delta 0) eqn:LT; [apply ltR_true in LT; unfold delta in LT; lra|]. injection H as <-. cbn. split; [right; repeat split; try lra; try discriminate|]. split; [auto|]. intros _ Q. lra.
  - rewrite MX in H. destruct (decide a s (m s) false e) as [d|] eqn:E; [|discriminate]. unfold decide in E. cbv zeta in E. destruct (estimate_order _ _ _) as [[o oo]|]; [|discriminate]. destruct (estimate_k _ _).
    destruct (if (m s =? mmax a)%Z then _ else _) as [mn tn] eqn:MT. injection E as <-. cbn [d_omega d_err d_tau d_m] in H. destruct (ltR delta _) eqn:LT; injection H as <-; cbn [tau_now step j l conv m tau].
    + apply ltR_true in LT. split; [left; repeat split; auto|]. split; intros M.
      * apply Z.eqb_eq in M. rewrite M in MT. apply pair_equal_spec in MT as [<- _]. now apply Z.eqb_eq.
      * intros _. apply Z.eqb_neq in M. rewrite M in MT. apply pair_equal_spec in MT as [_ <-]. reflexivity.
    + apply ltR_false in LT. split; [right; repeat split; auto|]. split; intros M.
      * pose proof M as M'. apply Z.eqb_eq in M. rewrite M in MT. apply pair_equal_spec in MT as [<- _]. exact M'.
      * intros Q. lra.
Qed.

Variable expm : nat -> (nat -> nat -> R) -> nat -> nat -> R.
Notation kp := (k_pass dot A u p ex iop expm).
Notation kr := (k_run dot A u p ex iop expm).
Notation kbasis := (k_basis dot A u p ex iop).
Notation fst0 := (start_row p ex).
Definition mx (a : args) : nat := Z.to_nat (mmax a).
Definition kinv (a : args) (f : @kstate X) : Prop := inv a (kctl f) /\ low (kbs f) /\ (forall i, (1 <= i)%nat -> bh (kbs f) i (mx a) = 0) /\
  ((0 < j (kctl f))%Z -> kok (tol a) (fst0 (kw f (l (kctl f))) (tau_now (kctl f))) (kbs f) (Z.to_nat (j (kctl f)))) /\
  (tau_now (kctl f) < tau_end a -> high (mx a) (kbs f) /\
    (m (kctl f) = mmax a \/ (tau_now (kctl f) + tau (kctl f) = tau_end a /\ forall i k, (Z.to_nat (j (kctl f)) <= k)%nat -> bh (kbs f) i k = 0))).
(** a breakdown after which a later substep may meet the entry left in the first row *)
Definition harmless (a : args) (f : @kstate X) : Prop := forall K h, kbasis a f = (K, h, true) -> ~ (iop <= h < mx a)%nat.

Lemma kbasis_ok : forall a f K h b, good a -> kinv a f -> tau_now (kctl f) < tau_end a -> kbasis a f = (K, h, b) ->
  let x := fst0 (kw f (l (kctl f))) (tau_now (kctl f)) in
  low K /\ high (mx a) K /\ (1 <= h <= mx a)%nat /\ (forall i, (1 <= i)%nat -> bh K i (mx a) = 0) /\
  (b = false -> Z.of_nat h = m (kctl f) /\ kok (tol a) x K h /\ (forall i, (1 <= i)%nat -> bh K i h = 0) /\
    (m (kctl f) <> mmax a -> forall i k, (h <= k)%nat -> bh K i k = 0)) /\
  (b = true -> (j (kctl f) < Z.of_nat h <= m (kctl f))%Z /\ kok (tol a) x K (h - 1) /\ broken (tol a) K (h - 1)).
Proof.
  intros a f K h b G (I & LO & CM & OK & HT) T B x. destruct (HT T) as [HI MT]. pose proof I as (_ & _ & IM & IJ & _). assert (GM : (1 <= mmin a <= mmax a)%Z) by apply G. assert (TL : 0 < tol a) by apply G.
  unfold k_basis in B. set (K0 := if (j (kctl f) =? 0)%Z then _ else _) in B.
  assert (H0 : bh K0 = bh (kbs f)) by (unfold K0; destruct (_ =? _)%Z; reflexivity).
  assert (O0 : kok (tol a) x K0 (Z.to_nat (j (kctl f)))).
  { unfold K0. destruct (Z.eqb_spec (j (kctl f)) 0) as [E|N]; [rewrite E; apply k_first_ok|apply OK; lia]. }
  assert (L0 : low K0) by (unfold low; rewrite H0; exact LO). assert (HI0 : high (mx a) K0) by (unfold high; rewrite H0; exact HI).
  destruct (k_orths_ok (mx a) (tol a) x (Z.to_nat (m (kctl f) - j (kctl f))) K0 (Z.to_nat (j (kctl f))) K h b TL ltac:(unfold mx; lia) O0 L0 HI0 B) as (P1 & P2 & P3 & P4 & P5). rewrite H0 in P3.
  assert (MM : (Z.to_nat (j (kctl f)) + Z.to_nat (m (kctl f) - j (kctl f)))%nat = Z.to_nat (m (kctl f))) by lia. rewrite MM in *.
  split; [exact P1|]. split; [exact P2|]. split; [destruct b; [destruct (P5 eq_refl); unfold mx; lia|destruct (P4 eq_refl); unfold mx; lia]|]. split; [intros i I1; rewrite P3 by (unfold mx; lia); now apply CM|]. split; intros E; subst b.
  - destruct (P4 eq_refl) as [Q1 Q2]. split; [lia|]. split; [exact Q2|]. split.
    + intros i I1. rewrite P3 by lia. destruct MT as [M|[_ Z]]; [replace h with (mx a) by (unfold mx; lia); now apply CM|apply Z; lia].
    + intros NM i k HK. rewrite P3 by lia. destruct MT as [M|[_ Z]]; [contradiction|apply Z; lia].
  - destruct (P5 eq_refl) as (Q1 & Q2). split; [lia|exact Q2].
Qed.

Lemma kinv_start : forall a, good a -> kinv a (k_start u a).
Proof. intros a G. split; [now apply inv_start|]. split; [easy|]. split; [easy|]. split; [cbn; lia|]. intros _. split; [easy|]. right. split; [cbn; lra|easy]. Qed.

Lemma kpass_shape : forall a f f', good a -> kinv a f -> tau_now (kctl f) < tau_end a -> kp a f = Some f' -> exists K h b, kbasis a f = (K, h, b) /\
  let F := expm (S h) (fun i k => sgn a * tau (kctl f) * with_phi (bh K) h i k) in let e := bb K * bh K h (h - 1)%nat * F (h - 1)%nat h in
  pass a (kctl f) (Probe (if b then Some (Z.of_nat h) else None) e) = Some (kctl f') /\
  (m (kctl f) = mmax a -> m (kctl f') = mmax a) /\ (m (kctl f) <> mmax a -> tau_now (kctl f') = tau_now (kctl f) -> tau (kctl f') = Rmin (tau_end a - tau_now (kctl f)) (tau (kctl f))) /\
  ((tau_now (kctl f') = tau_now (kctl f) /\ j (kctl f') = m (kctl f) /\ l (kctl f') = l (kctl f) /\ conv (kctl f') = conv (kctl f) /\ b = false /\ 1.4 < tau_end a * Rabs e / (tau (kctl f) * tol a) /\
    kw f' = kw f /\ kbs f' = Basis (bv K) (fun i k => if Nat.eqb i 0 && Nat.eqb k h then 0 else bh K i k) (bb K)) \/
   (tau_now (kctl f') = tau_now (kctl f) + tau (kctl f) /\ j (kctl f') = 0%Z /\ l (kctl f') = (l (kctl f) + blown a (kctl f))%nat /\ conv (kctl f') = conv (kctl f) + (if b then 0 else Rabs e) /\ (b = false -> tau_end a * Rabs e / (tau (kctl f) * tol a) <= 1.4) /\
    kbs f' = Basis (bv K) (fun i k => if Nat.eqb i 0 && Nat.eqb k h then 1 else bh K i k) (bb K) /\
    (forall k, kw f' k = if Nat.eqb k (l (kctl f')) then k_combine K h F
       else if (Nat.leb (l (kctl f)) k && Nat.ltb k (l (kctl f')))%bool then k_combine K h (expm h (fun i q => sgn a * (nth k (tau_out a) 0 - tau_now (kctl f)) * bh K i q)) else kw f k))).
Proof.
  intros a f f' G I T H. unfold k_pass in H. destruct (kbasis a f) as [[K h] b] eqn:B. destruct (kbasis_ok a f K h b G I T B) as (P1 & P2 & P3 & P4 & P5 & P6).
  exists K, h, b. split; [reflexivity|]. cbv zeta. set (F := expm (S h) _) in *. set (e := bb K * bh K h (h - 1)%nat * F (h - 1)%nat h) in *.
  destruct (pass a (kctl f) _) as [s'|] eqn:E; [|discriminate].
  assert (IC : inv a (kctl f)) by apply I. destruct (pass_cases _ _ _ _ _ _ G IC T E (fun Q => proj1 (P6 Q))) as (C & M1 & M2).
  destruct C as [(C1 & C2 & C3 & C4 & C5 & C6 & C7)|(C1 & C2 & C3 & C4 & C5 & C6)].
  - rewrite C2, Nat.ltb_irrefl in H. apply (f_equal (fun o => match o with Some y => y | None => f' end)) in H. rewrite <- H. cbn [kctl kw kbs]. split; [reflexivity|]. split; [exact M1|]. split; [exact M2|]. left. repeat split; auto.
  - rewrite C2 in H. replace (step (kctl f) <? S (step (kctl f)))%nat with true in H by (symmetry; apply Nat.ltb_lt; lia). apply (f_equal (fun o => match o with Some y => y | None => f' end)) in H. rewrite <- H. cbn [kctl kw kbs].
    split; [reflexivity|]. split; [exact M1|]. split; [exact M2|]. right. rewrite C4. repeat split; auto.
Qed.

Lemma kok_ext : forall t x K j H, kok t x K j -> (forall i k, (k < j)%nat -> H i k = bh K i k) -> kok t x (Basis (bv K) H (bb K)) j.
Proof.
  intros t x K j0 H (O1 & O2 & O3 & O4) E. unfold kok. lazy beta iota delta [bv bh bb]. split; [exact O1|]. split; [intros k I; rewrite O2 by exact I; apply vsum_ext; intros; now rewrite E|]. split; [exact O3|]. intros k I. rewrite E by exact I. now apply O4.
Qed.
Lemma kinv_pass : forall a f f', good a -> kinv a f -> tau_now (kctl f) < tau_end a -> harmless a f -> kp a f = Some f' -> kinv a f'.
Proof.
  intros a f f' G I T NB H. destruct (kpass_shape a f f' G I T H) as (K & h & b & B & S1 & M1 & M2 & C). destruct (kbasis_ok a f K h b G I T B) as (P1 & P2 & P3 & P4 & P5 & P6).
  assert (IC : inv a (kctl f)) by apply I. assert (IP : inv a (kctl f')) by (now apply (inv_pass a (kctl f) _ (kctl f') G IC T S1)).
  assert (HE : forall y i k, (1 <= i)%nat \/ k <> h -> (if ((i =? 0)%nat && (k =? h)%nat)%bool then y else bh K i k) = bh K i k).
  { intros y i k [N|N]; [replace (i =? 0)%nat with false by (symmetry; apply Nat.eqb_neq; lia); reflexivity|apply Nat.eqb_neq in N; now rewrite N, andb_false_r]. }
  destruct I as (_ & _ & _ & _ & HT). destruct (HT T) as [_ MT].
  destruct C as [(C1 & C2 & C3 & C4 & C5 & C6 & C7 & C8)|(C1 & C2 & C3 & C4 & C5 & C6 & C7)].
  - subst b. destruct (P5 eq_refl) as (Q1 & Q2 & Q3 & Q4). split; [exact IP|]. rewrite C8. cbn [bh]. split; [intros i k I1; cbn [bh]; rewrite HE by lia; now apply P1|]. split; [intros i I1; rewrite HE by lia; now apply P4|].
    split.
    + intros _. rewrite C1, C2, C3, C7, <- Q1, Nat2Z.id. apply kok_ext; [exact Q2|]. intros i k I1. apply HE. lia.
    + intros _. rewrite C1. split.
      * intros i k I1 I2. cbn [bh]. destruct (((i =? 0)%nat && (k =? h)%nat)%bool); [reflexivity|now apply P2].
      * destruct (Z.eq_dec (m (kctl f)) (mmax a)) as [E|N]; [left; now apply M1|]. right. destruct MT as [E|[E Z]]; [contradiction|]. rewrite M2, C2 by auto. split.
        -- rewrite Rmin_right; lra.
        -- intros i k I1. cbn [bh]. destruct (((i =? 0)%nat && (k =? h)%nat)%bool); [reflexivity|]. apply Q4; [exact N|lia].
  - split; [exact IP|]. rewrite C6. cbn [bh]. split; [intros i k I1; cbn [bh]; rewrite HE by lia; now apply P1|]. split; [intros i I1; rewrite HE by lia; now apply P4|]. split; [rewrite C2; lia|].
    intros T'. destruct MT as [E|[E Z]]; [|rewrite C1 in T'; lra]. split; [|left; now apply M1].
    intros i k I1 I2. cbn [bh]. destruct (Nat.eqb_spec i 0) as [->|N]; [|now apply P2]. destruct (Nat.eqb_spec k h) as [->|N]; [|now apply P2]. exfalso.
    destruct b; [apply (NB K h B); lia|]. destruct (P5 eq_refl) as (Q1 & _). unfold mx in I2. lia.
Qed.
(** no earlier pass has met a breakdown that leaves an entry *)
Definition all_harmless (a : args) (n : nat) (f0 : @kstate X) : Prop := forall i f, (i < n)%nat -> kr a i f0 = Some f -> tau_now (kctl f) < tau_end a -> harmless a f.
Lemma kinv_run : forall a n f f', good a -> kinv a f -> all_harmless a n f -> kr a n f = Some f' -> kinv a f'.
Proof.
  intros a n. induction n as [|n IH]; intros f f' G I NB H; cbn [k_run] in H; [now injection H as <-|].
  destruct (Rlt_dec (tau_now (kctl f)) (tau_end a)) as [T|T]; [|now injection H as <-]. destruct (kp a f) as [f1|] eqn:P; [|discriminate].
  apply (IH f1 f' G); [|intros i g Hi R1; apply (NB (S i)); [lia|]; cbn [k_run]; destruct (Rlt_dec _ _); [now rewrite P|contradiction]|exact H].
  apply (kinv_pass a f f1 G I T); [|exact P]. apply (NB 0%nat f); [lia|reflexivity|exact T].
Qed.

(** ** The approximation *)
Theorem k_krylov : forall a n f f', good a -> (forall n M, is_expm n M (expm n M)) -> all_harmless a n (k_start u a) -> kr a n (k_start u a) = Some f -> tau_now (kctl f) < tau_end a -> kp a f = Some f' ->
  exists h b V H r c, (1 <= h)%nat /\
    (forall i k, (i < h)%nat -> (k < h)%nat -> (i <= k + iop)%nat -> (k <= i + iop)%nat -> ad (V i) (V k) = if Nat.eqb i k then 1 else 0) /\
    (forall k, (k < h - 1)%nat -> At (V k) = vec_sum h (fun i => scal (V := row) (H i k) (V i))) /\
    At (V (h - 1)%nat) = plus (vec_sum h (fun i => scal (V := row) (H i (h - 1)%nat) (V i))) r /\
    (forall i k, (i < h)%nat -> (k < h)%nat -> (k + 1 < i \/ i + iop <= k)%nat -> H i k = 0) /\
    (forall i, (i < h)%nat -> (h <= i + iop)%nat -> ad (V i) r = 0) /\
    reproduces At (fst0 (kw f (l (kctl f))) (tau_now (kctl f))) h b h H h V /\
    (r = zero -> forall d, reproduces At (fst0 (kw f (l (kctl f))) (tau_now (kctl f))) d b h H h V) /\
    (forall t, exp_column h (fun i k => t * H i k) (c t)) /\
    let y t := vec_sum h (fun i => scal (V := row) (b * c t i) (V i)) in
    y 0 = fst0 (kw f (l (kctl f))) (tau_now (kctl f)) /\
    (exists c', (forall t i, (i < h)%nat -> is_derive (fun t => c t i) t (c' t i)) /\
      forall t, At (y t) = plus (vec_sum h (fun i => scal (V := row) (b * c' t i) (V i))) (scal (V := row) (b * c t (h - 1)%nat) r)) /\
    ((exists G, is_RInt (fun t => b * sqrt (ad r r) * c t (h - 1)%nat) 0 (sgn a * tau (kctl f)) G /\ Z.of_nat h = m (kctl f) /\ tol a <= sqrt (ad r r) /\
       ((tau_now (kctl f') = tau_now (kctl f) + tau (kctl f) /\ conv (kctl f') = conv (kctl f) + Rabs G /\ tau_end a * Rabs G / (tau (kctl f) * tol a) <= 1.4) \/
        (tau_now (kctl f') = tau_now (kctl f) /\ kw f' = kw f /\ conv (kctl f') = conv (kctl f) /\ 1.4 < tau_end a * Rabs G / (tau (kctl f) * tol a)))) \/
     ((Z.of_nat h <= m (kctl f))%Z /\ sqrt (ad r r) < tol a /\ tau_now (kctl f') = tau_now (kctl f) + tau (kctl f) /\ conv (kctl f') = conv (kctl f))) /\
    (tau_now (kctl f) < tau_now (kctl f') -> kw f' (l (kctl f')) = fst (y (sgn a * tau (kctl f))) /\
      (forall k, (l (kctl f) <= k < l (kctl f'))%nat -> kw f' k = fst (y (sgn a * (nth k (tau_out a) 0 - tau_now (kctl f))))) /\ (forall k, (k < l (kctl f))%nat -> kw f' k = kw f k)).
Proof.
  intros a n f f' G XM NB RN T P. pose proof (kinv_run a n _ _ G (kinv_start a G) NB RN) as I. assert (TL : 0 < tol a) by apply G. assert (TP : 0 < tau (kctl f)) by (destruct I as ((_ & IT & _) & _); apply (IT T)).
  destruct (kpass_shape a f f' G I T P) as (K & h & b & B & S1 & _ & _ & C). destruct (kbasis_ok a f K h b G I T B) as (P1 & P2 & P3 & P4 & P5 & P6). set (x := fst0 _ _) in *.
  assert (OK : kok (tol a) x K (if b then h - 1 else h)%nat) by (destruct b; [apply P6|apply P5]; reflexivity).
  assert (RR : exists r, At (bv K (h - 1)%nat) = plus (vsum h (fun i => scal (V := row) (bh K i (h - 1)%nat) (bv K i))) r /\ (forall i, (i < h)%nat -> (h <= i + iop)%nat -> ad (bv K i) r = 0) /\
    (if b then sqrt (ad r r) < tol a else sqrt (ad r r) = bh K h (h - 1)%nat /\ tol a <= sqrt (ad r r))).
  { destruct b.
    - destruct (P6 eq_refl) as (_ & _ & r & R1 & R2 & R3). replace (S (h - 1)) with h in R1, R3 by lia. exists r. split; [exact R1|]. split; [|exact R2]. intros i I1 I2. apply R3; lia.
    - destruct OK as (O1 & O2 & O3 & O4). exists (scal (V := row) (bh K h (h - 1)%nat) (bv K h)). split; [|split].
      + rewrite O2 by lia. replace (h - 1 + 2)%nat with (S h) by lia. reflexivity.
      + intros i I1 I2. rewrite (ad_sym dot D p), (ad_scal dot D p), (O3 h i) by lia. replace (h =? i)%nat with false by (symmetry; apply Nat.eqb_neq; lia). ring.
      + specialize (O4 (h - 1)%nat ltac:(lia)). replace (S (h - 1)) with h in O4 by lia. assert (E : sqrt (ad (scal (V := row) (bh K h (h - 1)%nat) (bv K h)) (scal (V := row) (bh K h (h - 1)%nat) (bv K h))) = bh K h (h - 1)%nat).
        { rewrite (ad_scal dot D p), (ad_sym dot D p), (ad_scal dot D p), (O3 h h), Nat.eqb_refl by lia. rewrite Rmult_1_r. apply sqrt_square. lra. }
        rewrite E. split; [reflexivity|exact O4]. }
  destruct RR as (r & R1 & R2 & R3).
  assert (W1 : forall i k, (i < h)%nat -> (k < h)%nat -> with_phi (bh K) h i k = bh K i k).
  { intros i k I1 I2. unfold with_phi. replace (i =? h)%nat with false by (symmetry; apply Nat.eqb_neq; lia). replace (k =? h)%nat with false by (symmetry; apply Nat.eqb_neq; lia). now rewrite andb_false_r. }
  assert (W2 : forall k, (k < h)%nat -> with_phi (bh K) h h k = 0).
  { intros k Hk. unfold with_phi. rewrite Nat.eqb_refl. cbn [andb]. destruct (Nat.eqb_spec k (h - 1)); [reflexivity|]. replace (h =? 0)%nat with false by (symmetry; apply Nat.eqb_neq; lia). cbn [andb]. apply P1. lia. }
  assert (Rel : forall k, (k < h - 1)%nat -> At (bv K k) = vsum h (fun q => scal (V := row) (bh K q k) (bv K q))).
  { intros k HK. destruct OK as (_ & O2 & _). rewrite O2 by (destruct b; lia). symmetry. apply vsum_low; [lia|]. intros i I1. rewrite P1 by lia. exact (scal_zero_l _). }
  assert (O1 : scal (V := row) (bb K) (bv K 0%nat) = x) by apply OK.
  assert (RP : forall d, (forall k, (k < d)%nat -> vsum h (fun i => scal (V := row) (mat_pow h (bh K) k i 0) (bv K i)) = Nat.iter k At (bv K 0%nat)) -> reproduces At x d (bb K) h (bh K) h (bv K)).
  { intros d Q k I1. rewrite vec_sum_vsum. rewrite (vsum_ext h _ (fun i => scal (V := row) (bb K) (scal (V := row) (mat_pow h (bh K) k i 0) (bv K i)))) by (intros; apply scal_Rmult).
    rewrite vsum_scal, Q by exact I1. rewrite iter_scal by (exact (At_linear A L u p ex)). now rewrite O1. }
  set (c := column h (bh K)). exists h, (bb K), (bv K), (bh K), r, c.
  split; [lia|]. split; [intros i k I1 I2 I3 I4; apply OK; destruct b; lia|]. split; [intros k HK; rewrite vec_sum_vsum; now apply Rel|]. split; [rewrite vec_sum_vsum; exact R1|].
  split; [intros i k I1 I2 [I3|I3]; [apply P1; exact I3|apply P2; [exact I3|lia]]|]. split; [exact R2|].
  split. { apply RP. intros k HK. apply (powers_low At (At_linear A L u p ex) (bv K) h h ltac:(lia) (bh K) Rel); [intros i q _ I2; now apply P1|exact HK]. }
  split. { intros RZ d. apply RP. intros k _. apply (powers_all At (At_linear A L u p ex) (bv K) h h ltac:(lia) (bh K)); [|lia]. intros q Q. destruct (Nat.eq_dec q (h - 1)) as [->|N]; [rewrite R1, RZ; apply plus_zero_r|apply Rel; lia]. }
  split; [intros t; apply column_ok|]. cbv zeta.
  assert (SC : forall (y : nat -> R), vec_sum h (fun i => scal (V := row) (bb K * y i) (bv K i)) = scal (V := row) (bb K) (vsum h (fun i => scal (V := row) (y i) (bv K i)))).
  { intros y. rewrite vec_sum_vsum, <- vsum_scal. apply vsum_ext. intros. apply scal_Rmult. }
  set (F := expm (S h) (fun i k => sgn a * tau (kctl f) * with_phi (bh K) h i k)) in *. cbv zeta in C. set (M := fun i k => sgn a * tau (kctl f) * with_phi (bh K) h i k).
  assert (EF : is_expm (S h) M F) by apply XM.
  assert (C1 : forall i, (i < h)%nat -> F i 0%nat = c (sgn a * tau (kctl f)) i).
  { intros i I1. apply (column_unique h (bh K) (sgn a * tau (kctl f)) (fun i => F i 0%nat) i); [|exact I1]. intros q Q. apply is_series_ext with (2 := is_expm_corner h M F (proj1 P3) (fun q Q => eq_trans (f_equal (Rmult _) (W2 q Q)) (Rmult_0_r _)) EF q Q).
    intros k. f_equal. apply mat_pow_ext; [|exact Q]. intros; unfold M; now rewrite W1. }
  split; [|split; [|split]].
  - rewrite SC, <- O1. f_equal. rewrite (vsum_more h 1); [|lia|].
    + cbn [vsum]. rewrite plus_zero_l. rewrite <- (scal_one (V := row) (bv K 0%nat)) at 2. f_equal. unfold c, column. rewrite PSeries_0. unfold coefficient. cbn. unfold one. cbn. lra.
    + intros i I1. unfold c, column. rewrite PSeries_0. unfold coefficient. cbn. replace (i =? 0)%nat with false by (symmetry; apply Nat.eqb_neq; lia). rewrite Rmult_0_r. exact (scal_zero_l _).
  - exists (fun t i => sum_to h (fun k => bh K i k * c t k)). split; [intros t i I1; now apply column_derive|]. intros t. rewrite !SC. rewrite (proj2 (At_linear A L u p ex)).
    rewrite (defect_rest _ At (At_linear A L u p ex) (bv K) h (bh K) r ltac:(lia) Rel R1 (c t)). rewrite scal_distr_l, <- scal_Rmult. reflexivity.
  - destruct b.
    + right. destruct (P6 eq_refl) as (Q1 & _). split; [lia|]. split; [exact R3|]. destruct C as [(_ & _ & _ & _ & Q & _)|(C2 & _ & _ & C5 & _)]; [discriminate|]. split; [exact C2|]. rewrite C5. apply Rplus_0_r.
    + left. destruct (P5 eq_refl) as (Q1 & _ & Q3 & _). exists (bb K * bh K h (h - 1)%nat * F (h - 1)%nat h). destruct R3 as [R3 R4].
      assert (W3 : forall i, (i <= h)%nat -> with_phi (bh K) h i h = if Nat.eqb i 0 then 1 else 0).
      { intros i I1. unfold with_phi. replace (h =? h - 1)%nat with false by (symmetry; apply Nat.eqb_neq; lia). rewrite andb_false_r, Nat.eqb_refl, andb_true_r. destruct (Nat.eqb_spec i 0); [reflexivity|]. apply Q3. lia. }
      split; [|split; [exact Q1|split; [exact R4|]]].
      * assert (E : is_RInt (fun t => c t (h - 1)%nat) 0 (sgn a * tau (kctl f)) (F (h - 1)%nat h)).
        { apply (is_expm_last h (bh K) M (sgn a * tau (kctl f)) F ltac:(lia)); [| | |exact EF|lia].
          - intros q Q. unfold M. destruct (Nat.eq_dec q h) as [->|N]; [rewrite W3 by lia; replace (h =? 0)%nat with false by (symmetry; apply Nat.eqb_neq; lia)|rewrite W2 by lia]; ring.
          - intros i I1. unfold M. rewrite W3 by lia. destruct (i =? 0)%nat; ring.
          - intros i k I1 I2. unfold M. now rewrite W1. }
        apply (is_RInt_scal (V := R_NormedModule) _ _ _ (bb K * bh K h (h - 1)%nat)) in E. rewrite R3. exact E.
      * destruct C as [(C2 & _ & _ & C5 & _ & C6 & C7 & _)|(C2 & _ & _ & C5 & C6 & _)]; [right|left]; repeat split; auto.
  - intros LT. destruct C as [(C2 & _)|(C2 & _ & C4 & _ & _ & _ & W)]; [lra|]. split; [|split].
    + rewrite W, Nat.eqb_refl. rewrite fst_combination. unfold k_combine. apply vsum_ext. intros i I1. now rewrite C1.
    + intros k Hk. rewrite W. replace (k =? l (kctl f'))%nat with false by (symmetry; apply Nat.eqb_neq; lia).
      replace (Nat.leb (l (kctl f)) k) with true by (symmetry; apply Nat.leb_le; lia). replace (Nat.ltb k (l (kctl f'))) with true by (symmetry; apply Nat.ltb_lt; lia). cbn [andb].
      rewrite fst_combination. unfold k_combine. apply vsum_ext. intros i I1. f_equal. f_equal. apply (column_unique h (bh K) _ (fun i => expm h _ i 0%nat) i); [|exact I1]. intros q Q. apply XM; lia.
    + intros k Hk. rewrite W. replace (k =? l (kctl f'))%nat with false by (symmetry; apply Nat.eqb_neq; lia). replace (Nat.leb (l (kctl f)) k) with false by (symmetry; apply Nat.leb_gt; lia). reflexivity.
Qed.
(** when the hypothesis holds *)
Lemma k_pass_probe : forall a f f', kp a f = Some f' -> exists q, pass a (kctl f) q = Some (kctl f').
Proof.
  intros a f f' H. unfold k_pass in H. destruct (kbasis a f) as [[K h] b]. match type of H with (match pass _ _ ?q with _ => _ end = _) => exists q; destruct (pass a (kctl f) q) as [s'|]; [|discriminate] end.
  destruct (step (kctl f) <? step s')%nat; injection H as <-; reflexivity.
Qed.
Lemma k_run_control : forall a n f f', kr a n f = Some f' -> exists ps, run a ps (kctl f) = Some (kctl f').
Proof.
  intros a n. induction n as [|n IH]; intros f f' H; cbn [k_run] in H; [injection H as <-; now exists []|].
  destruct (Rlt_dec (tau_now (kctl f)) (tau_end a)) as [T|T]; [|injection H as <-; now exists []]. destruct (kp a f) as [f1|] eqn:P; [|discriminate]. destruct (k_pass_probe a f f1 P) as [q Q].
  destruct (IH f1 f' H) as [ps E]. exists (q :: ps). cbn [run]. destruct (Rlt_dec _ _); [|contradiction]. now rewrite Q.
Qed.
Lemma k_run_mono : forall a n f f', good a -> inv a (kctl f) -> kr a n f = Some f' -> tau_now (kctl f) <= tau_now (kctl f').
Proof.
  intros a n. induction n as [|n IH]; intros f f' G I H; cbn [k_run] in H; [injection H as <-; lra|].
  destruct (Rlt_dec (tau_now (kctl f)) (tau_end a)) as [T|T]; [|injection H as <-; lra]. destruct (kp a f) as [f1|] eqn:P; [|discriminate]. destruct (k_pass_probe a f f1 P) as [q Q].
  pose proof (IH f1 f' G (inv_pass a _ q _ G I T Q) H) as M. destruct (pass_error a _ q _ G I T Q) as [[E _]|[E _]]; [lra|]. assert (0 < tau (kctl f)) by (destruct I as (_ & IT & _); apply (IT T)). lra.
Qed.
Lemma first_harmless : forall a n f f', good a -> kinv a f -> kr a n f = Some f' -> tau_now (kctl f') <= tau_now (kctl f) -> all_harmless a n f.
Proof.
  intros a n. induction n as [|n IH]; intros f f' G I H TN i g Hi R1 TG; [lia|]. cbn [k_run] in H. destruct (Rlt_dec (tau_now (kctl f)) (tau_end a)) as [T|T].
  2: { assert (g = f) by (destruct i; cbn [k_run] in R1; [now injection R1|destruct (Rlt_dec _ _); [contradiction|now injection R1]]). subst g. contradiction. }
  destruct (kp a f) as [f1|] eqn:P; [|discriminate]. destruct (kpass_shape a f f1 G I T P) as (K & h & b & B & S1 & _ & _ & C). assert (IC : inv a (kctl f)) by apply I.
  assert (TP : 0 < tau (kctl f)) by (destruct IC as (_ & IT & _); apply (IT T)). pose proof (k_run_mono a n f1 f' G (inv_pass a _ _ _ G IC T S1) H) as M.
  assert (HF : harmless a f). { intros K' h' B'. destruct C as [(_ & _ & _ & _ & C5 & _)|(C1 & _)]; [rewrite B in B'; subst b; discriminate|lra]. }
  destruct i as [|i]; [injection R1 as <-; exact HF|]. cbn [k_run] in R1. destruct (Rlt_dec _ _) in R1; [|contradiction]. rewrite P in R1.
  destruct C as [(C1 & _)|(C1 & _)]; [|lra]. apply (IH f1 f' G (kinv_pass a f f1 G I T HF P) H ltac:(lra) i g ltac:(lia) R1 TG).
Qed.
Lemma full_harmless : forall a n f, (mmax a <= Z.of_nat iop)%Z -> all_harmless a n f.
Proof. intros a n f M i g _ _ _ K h _ B. unfold mx in B. lia. Qed.
End Basis.
