(** Incomplete orthogonalisation against two vectors; the sizes that the control of the substeps asks for *)
From Coq Require Import Reals ZArith List Bool Arith Lra Lia FunctionalExtensionality.
From Coquelicot Require Import Coquelicot.
From Verif Require Import InnerSpec InnerFacts FgmresModel FgmresFacts FgmresProofs VecTac KiopsModel KiopsProofs PmexSpec PmexModel PmexProofs PmexKrylov KiopsLinear KiopsKrylov LowsyncModel LowsyncSpec LowsyncProofs LowsyncFacts LowsyncFiles.
Import ListNotations.
Local Open Scope R_scope.

Section Pairs.
Context {X : ModuleSpace R_Ring}.
Variable dot : X -> X -> R.
Hypothesis D : scalar_product dot.
Variable A : X -> X.
Hypothesis L : linear_map A.
Variable u : nat -> X.
Variable p : nat.
Hypothesis Hp : (1 <= p)%nat.
Variable ex : Z.
Notation row := (@row X).
Notation At := (augmented_product A u p ex).
Notation ad := (adot dot p).

Definition base_of (S : @pair_basis row) : @basis X := Basis (pv S) (ph S) (pb S).
Definition local (V : nat -> row) (j : nat) : Prop := forall i k, (i <= j)%nat -> (k <= j)%nat -> (i <= k + 2)%nat -> (k <= i + 2)%nat -> ad (V i) (V k) = if Nat.eqb i k then 1 else 0.
(** the norm and its estimate *)
Lemma estimate_ok : forall V j a, local V j -> let lo := (S j - 2)%nat in let v := plus a (opp (vsum (S j - lo) (fun i => scal (V := row) (ad (V (lo + i)%nat) a) (V (lo + i)%nat)))) in
  ad v v = ad a a - rsum (S j - lo) (fun i => ad (V (lo + i)%nat) a ^ 2).
Proof.
  intros V j a O lo v. destruct (project dot D p (S j - lo) (fun i => V (lo + i)%nat) a) as [_ E].
  - intros i k I K. rewrite O by lia. destruct (Nat.eqb_spec i k) as [->|N]; [now rewrite Nat.eqb_refl|]. replace (lo + i =? lo + k)%nat with false by (symmetry; apply Nat.eqb_neq; lia). reflexivity.
  - exact E.
Qed.
Definition same (S : @pair_basis row) (K : @basis X) : Prop := pv S = bv K /\ ph S = bh K /\ pb S = bb K.
Lemma nest_step : forall t S K j, same S K -> local (bv K) j -> exists S1 K1 b, step_nest At ad ad t S (Datatypes.S j) = (S1, b) /\ k_orth dot A u p ex 2 t K (Datatypes.S j) = (K1, b) /\ same S1 K1.
Proof.
  intros t S K j (E1 & E2 & E3) O. unfold step_nest, k_orth. rewrite E1, E2, E3. rewrite Nat.sub_succ, Nat.sub_0_r. cbv zeta.
  set (v1 := set1 (bv K) (Datatypes.S j) (At (bv K j))). set (lo := (Datatypes.S j - 2)%nat).
  assert (EH : (fun i k => if ((k =? j)%nat && (lo <=? i)%nat && (i <? Datatypes.S j)%nat)%bool then ad (v1 (lo + (i - lo))%nat) (v1 (Datatypes.S j)) else bh K i k) = (fun i k => if ((k =? j)%nat && (lo <=? i)%nat && (i <? Datatypes.S j)%nat)%bool then ad (v1 i) (v1 (Datatypes.S j)) else bh K i k)).
  { apply functional_extensionality. intro i. apply functional_extensionality. intro k. destruct (Nat.leb_spec lo i); [replace (lo + (i - lo))%nat with i by lia; reflexivity|]. rewrite andb_false_r. reflexivity. }
  rewrite EH. clear EH. set (H1 := fun i k => if ((k =? j)%nat && (lo <=? i)%nat && (i <? Datatypes.S j)%nat)%bool then ad (v1 i) (v1 (Datatypes.S j)) else bh K i k).
  match goal with |- context [sqrt (ad ?y ?y)] => set (v0 := y) end.
  match goal with |- exists S1 K1 b, _ = _ /\ (if Rlt_dec (sqrt (ad ?y ?y)) t then _ else _) = _ /\ _ => set (v := y) end.
  assert (VW : v0 = v).
  { unfold v0, v. do 2 f_equal. apply vsum_ext. intros i I. unfold H1. replace (lo + (lo + i - lo))%nat with (lo + i)%nat by lia. reflexivity. }
  rewrite VW. clear VW.
  assert (V1 : forall i, (i <= j)%nat -> v1 i = bv K i) by (intros i I; unfold v1; apply set1_other; lia).
  assert (NE : ad v v = ad (v1 (Datatypes.S j)) (v1 (Datatypes.S j)) - rsum (Nat.min 1 j + 1) (fun i => ad (v1 (lo + i)%nat) (v1 (Datatypes.S j)) ^ 2)).
  { pose proof (estimate_ok (bv K) j (v1 (Datatypes.S j)) O) as E. cbv zeta in E. fold lo in E. replace (Nat.min 1 j + 1)%nat with (Datatypes.S j - lo)%nat by (unfold lo; lia).
    rewrite (rsum_ext _ _ (fun i => ad (bv K (lo + i)%nat) (v1 (Datatypes.S j)) ^ 2)) by (intros i I; rewrite (V1 (lo + i)%nat) by lia; reflexivity). rewrite <- E.
    replace v with (plus (v1 (Datatypes.S j)) (opp (vsum (Datatypes.S j - lo) (fun i => scal (V := row) (ad (bv K (lo + i)%nat) (v1 (Datatypes.S j))) (bv K (lo + i)%nat))))); [reflexivity|].
    unfold v. do 2 f_equal. apply vsum_ext. intros i I. unfold H1. rewrite Nat.eqb_refl. replace (lo <=? lo + i)%nat with true by (symmetry; apply Nat.leb_le; lia). replace (lo + i <? Datatypes.S j)%nat with true by (symmetry; apply Nat.ltb_lt; lia). cbn [andb]. now rewrite (V1 (lo + i)%nat) by lia. }
  assert (NN : (if Rlt_dec (ad (v1 (Datatypes.S j)) (v1 (Datatypes.S j))) (rsum (Nat.min 1 j + 1) (fun i => ad (v1 (lo + i)%nat) (v1 (Datatypes.S j)) ^ 2)) then sqrt (ad v v) else sqrt (ad (v1 (Datatypes.S j)) (v1 (Datatypes.S j)) - rsum (Nat.min 1 j + 1) (fun i => ad (v1 (lo + i)%nat) (v1 (Datatypes.S j)) ^ 2))) = sqrt (ad v v)).
  { rewrite NE. destruct (Rlt_dec _ _); reflexivity. }
  rewrite NN. destruct (Rlt_dec (sqrt (ad v v)) t); do 3 eexists; (split; [reflexivity|]); (split; [reflexivity|]); repeat split.
Qed.
Lemma neiop_step : forall t S K j, pv S = bv K -> ph S = bh K -> pb S = bb K -> local (bv K) j -> exists S1 K1 b, step_neiop At ad t S (Datatypes.S j) = (S1, b) /\ k_orth dot A u p ex 2 t K (Datatypes.S j) = (K1, b) /\
  pv S1 = bv K1 /\ pb S1 = bb K1 /\ ph S1 = (if b then ph S else bh K1).
Proof.
  intros t S K j E1 E2 E3 O. unfold step_neiop, k_orth. rewrite E1, E2, E3. rewrite Nat.sub_succ, Nat.sub_0_r. cbv zeta.
  set (v1 := set1 (bv K) (Datatypes.S j) (At (bv K j))). set (lo := (Datatypes.S j - 2)%nat).
  assert (V1 : forall i, (i <= j)%nat -> v1 i = bv K i) by (intros i I; unfold v1; apply set1_other; lia).
  pose (c := fun i => (if (1 <? Datatypes.S j)%nat then if (i =? 0)%nat then ad (v1 (lo + 0)%nat) (v1 (j + 1)%nat) else (if (1 <? Datatypes.S j)%nat then - ad (v1 (lo + 0)%nat) (v1 (j + 0)%nat) else pt S) * ad (v1 (lo + 0)%nat) (v1 (j + 1)%nat) + ad (v1 (lo + 1)%nat) (v1 (j + 1)%nat) else ad (v1 (lo + 0)%nat) (v1 (j + 1)%nat))).
  assert (C : forall i, (i < Datatypes.S j - lo)%nat -> c i = ad (v1 (lo + i)%nat) (v1 (Datatypes.S j))).
  { intros i I. unfold c. replace (j + 1)%nat with (Datatypes.S j) by lia. destruct (Nat.ltb_spec 1 (Datatypes.S j)) as [G|G].
    - destruct (Nat.eqb_spec i 0) as [->|N]; [reflexivity|]. replace i with 1%nat by lia. rewrite (V1 (lo + 0)%nat), (V1 (j + 0)%nat) by lia. rewrite (O (lo + 0)%nat (j + 0)%nat) by lia. replace (lo + 0 =? j + 0)%nat with false by (symmetry; apply Nat.eqb_neq; unfold lo; lia). ring.
    - replace i with 0%nat by (unfold lo in I; lia). reflexivity. }
  set (H1 := fun i k => if ((k =? j)%nat && (lo <=? i)%nat && (i <? Datatypes.S j)%nat)%bool then ad (v1 i) (v1 (Datatypes.S j)) else bh K i k).
  assert (EH : (fun i k => if ((k =? j)%nat && (lo <=? i)%nat && (i <? Datatypes.S j)%nat)%bool then c (i - lo)%nat else bh K i k) = H1).
  { apply functional_extensionality. intro i. apply functional_extensionality. intro k. unfold H1. destruct (Nat.eqb_spec k j), (Nat.leb_spec lo i), (Nat.ltb_spec i (Datatypes.S j)); cbn [andb]; try reflexivity. rewrite C by lia. replace (lo + (i - lo))%nat with i by lia. reflexivity. }
  match goal with |- context [sqrt (ad ?y ?y)] => set (v := y) end.
  match goal with |- exists S1 K1 b, _ = _ /\ (if Rlt_dec (sqrt (ad ?y ?y)) t then _ else _) = _ /\ _ => set (w := y) end.
  assert (VW : v = w).
  { unfold v, w. do 2 f_equal. apply vsum_ext. intros i I. change (scal (V := row) (c i) (v1 (lo + i)%nat) = scal (V := row) (H1 (lo + i)%nat j) (v1 (lo + i)%nat)). rewrite C by exact I. unfold H1. rewrite Nat.eqb_refl. replace (lo <=? lo + i)%nat with true by (symmetry; apply Nat.leb_le; lia). replace (lo + i <? Datatypes.S j)%nat with true by (symmetry; apply Nat.ltb_lt; lia). reflexivity. }
  rewrite VW. clear VW.
  assert (NE : ad w w = ad (v1 (Datatypes.S j)) (v1 (Datatypes.S j)) - rsum (Nat.min 1 j + 1) (fun i => ad (v1 (lo + i)%nat) (v1 (j + 1)%nat) ^ 2)).
  { pose proof (estimate_ok (bv K) j (v1 (Datatypes.S j)) O) as E. cbv zeta in E. fold lo in E. replace (Nat.min 1 j + 1)%nat with (Datatypes.S j - lo)%nat by (unfold lo; lia). replace (j + 1)%nat with (Datatypes.S j) by lia.
    rewrite (rsum_ext _ _ (fun i => ad (bv K (lo + i)%nat) (v1 (Datatypes.S j)) ^ 2)) by (intros i I; rewrite (V1 (lo + i)%nat) by lia; reflexivity). rewrite <- E.
    replace w with (plus (v1 (Datatypes.S j)) (opp (vsum (Datatypes.S j - lo) (fun i => scal (V := row) (ad (bv K (lo + i)%nat) (v1 (Datatypes.S j))) (bv K (lo + i)%nat))))); [reflexivity|].
    unfold w. do 2 f_equal. apply vsum_ext. intros i I. unfold H1. rewrite Nat.eqb_refl. replace (lo <=? lo + i)%nat with true by (symmetry; apply Nat.leb_le; lia). replace (lo + i <? Datatypes.S j)%nat with true by (symmetry; apply Nat.ltb_lt; lia). cbn [andb]. now rewrite (V1 (lo + i)%nat) by lia. }
  assert (NN : (if Rlt_dec (ad (v1 (Datatypes.S j)) (v1 (Datatypes.S j))) (rsum (Nat.min 1 j + 1) (fun i => ad (v1 (lo + i)%nat) (v1 (j + 1)%nat) ^ 2)) then sqrt (ad w w) else sqrt (ad (v1 (Datatypes.S j)) (v1 (Datatypes.S j)) - rsum (Nat.min 1 j + 1) (fun i => ad (v1 (lo + i)%nat) (v1 (j + 1)%nat) ^ 2))) = sqrt (ad w w)).
  { rewrite NE. destruct (Rlt_dec _ _); reflexivity. }
  rewrite NN. destruct (Rlt_dec (sqrt (ad w w)) t); do 3 eexists; (split; [reflexivity|]); (split; [reflexivity|]); repeat split; try exact E2. exact (f_equal (fun h => set_entry h (Datatypes.S j) j (sqrt (ad w w))) EH).
Qed.
Lemma kok_local : forall t x K j, kok dot A u p ex 2 t x K j -> local (bv K) j.
Proof. intros t x K j (_ & _ & O & _). exact O. Qed.
(** the loops *)
Lemma nest_loop : forall t x mx, 0 < t -> forall rest S K j, same S K -> (j + rest <= mx)%nat -> kok dot A u p ex 2 t x K j -> low K -> high 2 mx K ->
  exists S1 K1 h b, pairs_loop (step_nest At ad ad t) rest S j = (S1, h, b) /\ k_orths dot A u p ex 2 t rest K j = (K1, h, b) /\ same S1 K1.
Proof.
  intros t x mx T. induction rest as [|r IH]; intros S K j E J O LO HI; cbn [pairs_loop k_orths]; [exists S, K, j, false; auto|].
  destruct (nest_step t S K j E (kok_local t x K j O)) as (S1 & K1 & b & E1 & E2 & E3). rewrite E1, E2.
  destruct (k_orth_ok dot D A u p Hp ex 2 mx t x K j K1 b T ltac:(lia) O LO HI E2) as (L1 & H1 & _ & F1 & _). destruct b; [exists S1, K1, (Datatypes.S j), true; auto|].
  apply IH; auto. lia.
Qed.
Lemma neiop_loop : forall t x mx, 0 < t -> forall rest S K j, same S K -> (j + rest <= mx)%nat -> kok dot A u p ex 2 t x K j -> low K -> high 2 mx K ->
  exists S1 K1 h b, pairs_loop (step_neiop At ad t) rest S j = (S1, h, b) /\ k_orths dot A u p ex 2 t rest K j = (K1, h, b) /\
    pv S1 = bv K1 /\ pb S1 = bb K1 /\ forall i k, b = false \/ (k <> h - 1)%nat -> ph S1 i k = bh K1 i k.
Proof.
  intros t x mx T. induction rest as [|r IH]; intros S K j (Q1 & Q2 & Q3) J O LO HI; cbn [pairs_loop k_orths]; [exists S, K, j, false; repeat split; auto; now rewrite Q2|].
  destruct (neiop_step t S K j Q1 Q2 Q3 (kok_local t x K j O)) as (S1 & K1 & b & E1 & E2 & E3 & E4 & E5). rewrite E1, E2.
  destruct (k_orth_ok dot D A u p Hp ex 2 mx t x K j K1 b T ltac:(lia) O LO HI E2) as (L1 & H1 & SM & F1 & _). destruct b.
  - exists S1, K1, (Datatypes.S j), true. repeat split; auto. intros i k [N|N]; [discriminate|]. rewrite E5, Q2. symmetry. apply SM. lia.
  - apply IH; auto; [repeat split; auto|lia].
Qed.
Definition cleared (S : @pair_basis row) : @basis X := Basis (pv S) (fun _ _ => 0) 0.
Lemma begin_same : forall fp S x now, fp = ad -> same (pairs_begin fp S (start_row p ex x now)) (k_first dot p ex (cleared S) x now).
Proof. intros fp S x now ->. repeat split. Qed.
Theorem nest_ok : forall t m S x now, 0 < t -> exists S1 K1 h b, pairs_loop (step_nest At (each dot p 1) (once dot p) t) m (pairs_begin (once dot p) S (start_row p ex x now)) 0 = (S1, h, b) /\
  k_orths dot A u p ex 2 t m (k_first dot p ex (cleared S) x now) 0 = (K1, h, b) /\ same S1 K1.
Proof.
  intros t m S x now T. rewrite (each_one dot p). unfold once. apply (nest_loop t (start_row p ex x now) m T); auto.
  - now apply begin_same.
  - now apply k_first_ok.
  - intros i k I. reflexivity.
  - intros i k I1 I2. reflexivity.
Qed.
Theorem neiop_ok : forall t m S x now, 0 < t -> exists S1 K1 h b, pairs_loop (step_neiop At (once dot p) t) m (pairs_begin (once dot p) S (start_row p ex x now)) 0 = (S1, h, b) /\
  k_orths dot A u p ex 2 t m (k_first dot p ex (cleared S) x now) 0 = (K1, h, b) /\
  pv S1 = bv K1 /\ pb S1 = bb K1 /\ forall i k, b = false \/ (k <> h - 1)%nat -> ph S1 i k = bh K1 i k.
Proof.
  intros t m S x now T. unfold once. apply (neiop_loop t (start_row p ex x now) m T); auto.
  - now apply begin_same.
  - now apply k_first_ok.
  - intros i k I. reflexivity.
  - intros i k I1 I2. reflexivity.
Qed.
End Pairs.

(** ** the sizes *)
Definition may_grow (a : args) (s : state) : Prop := (j s < m s)%Z \/ (j s = mmax a /\ m s = mmax a /\ j s <> 0%Z).
Lemma grow_step : forall a s, (0 <= j s)%Z -> (m s <= mmax a)%Z -> may_grow a s ->
  ((Z.to_nat (j s) < Z.to_nat (m s) <= Z.to_nat (mmax a))%nat \/ (Z.to_nat (j s) = Z.to_nat (mmax a) /\ Z.to_nat (m s) = Z.to_nat (mmax a) /\ Z.to_nat (j s) <> 0%nat)).
Proof. intros a s J M [G|G]; lia. Qed.
Lemma p_sizes_grow : forall a delta, 1 <= delta -> good a -> forall ps s, inv a s -> tau_now s < tau_end a -> may_grow a s -> growing (Z.to_nat (mmax a)) (Z.to_nat (j s)) (map Z.to_nat (p_sizes a delta ps s)).
Proof.
  intros a delta DL G. induction ps as [|p ps IH]; intros s I Lt W; pose proof I as (IN & IT & IM & IJ & _); pose proof G as (GN & GT & GM); cbn [p_sizes map growing]; (split; [apply grow_step; auto; lia|]); [exact Logic.I|].
  destruct (p_pass a delta s p) as [s'|] eqn:H; [|exact Logic.I]. destruct (Nat.eqb_spec (KiopsModel.step s') (KiopsModel.step s)) as [E|E]; [|exact Logic.I].
  assert (JM : j s' = m s /\ may_grow a s' /\ tau_now s' = tau_now s).
  { unfold p_pass in H. destruct (arnoldi s (p_breakdown p)) as [j1 h] eqn:A. destruct (arnoldi_spec s _ j1 h IJ ltac:(lia) A) as [J JH]. destruct (p_decide a delta s j1 h p) as [d|] eqn:D; [|discriminate].
    destruct (p_decide_spec a delta s j1 h _ d DL G I Lt J JH D) as (DM & DR & _). destruct (ltR delta (d_omega d)) eqn:F; injection H as <-; cbn [KiopsModel.step] in E; [|lia]. apply ltR_true in F. destruct (DR F) as (HF & _ & Q1 & Q2).
    specialize (JH HF). cbn [j m tau_now]. unfold may_grow. cbn [j m]. split; [exact JH|]. split; [|reflexivity]. destruct (Z.lt_ge_cases j1 (mmax a)) as [Z|Z]; [left; apply Q2; exact Z|right; lia]. }
  destruct JM as (J1 & W1 & N1). rewrite <- J1. apply IH; [now apply p_inv_pass with delta s p|lra|exact W1].
Qed.
Lemma sizes_grow : forall a, good a -> forall ps s, inv a s -> tau_now s < tau_end a -> may_grow a s -> growing (Z.to_nat (mmax a)) (Z.to_nat (j s)) (map Z.to_nat (sizes a ps s)).
Proof.
  intros a G. induction ps as [|p ps IH]; intros s I Lt W; pose proof I as (IN & IT & IM & IJ & _); pose proof G as (GN & GT & GM); cbn [sizes map growing]; (split; [apply grow_step; auto; lia|]); [exact Logic.I|].
  destruct (pass a s p) as [s'|] eqn:H; [|exact Logic.I]. destruct (Nat.eqb_spec (KiopsModel.step s') (KiopsModel.step s)) as [E|E]; [|exact Logic.I].
  assert (JM : j s' = m s /\ may_grow a s' /\ tau_now s' = tau_now s).
  { unfold pass in H. destruct (arnoldi s (breakdown p)) as [j1 h] eqn:A. destruct (arnoldi_spec s _ j1 h IJ ltac:(lia) A) as [J JH]. destruct (decide a s j1 h (estimate p)) as [d|] eqn:D; [|discriminate].
    destruct (decide_spec a s j1 h _ d G I Lt J JH D) as (DM & DR & _). destruct (ltR delta (d_omega d)) eqn:F; injection H as <-; cbn [KiopsModel.step] in E; [|lia]. apply ltR_true in F. destruct (DR F) as (HF & _ & Q1 & Q2).
    specialize (JH HF). cbn [j m tau_now]. unfold may_grow. cbn [j m]. split; [exact JH|]. split; [|reflexivity]. destruct (Z.lt_ge_cases j1 (mmax a)) as [Z|Z]; [left; apply Q2; exact Z|right; lia]. }
  destruct JM as (J1 & W1 & N1). rewrite <- J1. apply IH; [now apply inv_pass with s p|lra|exact W1].
Qed.
Theorem sizes_ok : forall a ps0 ps s, good a -> run a ps0 (start a) = Some s -> tau_now s < tau_end a -> j s = 0%Z -> growing (Z.to_nat (mmax a)) 0 (map Z.to_nat (sizes a ps s)).
Proof.
  intros a ps0 ps s G H Lt J. pose proof (inv_run a ps0 _ _ G (inv_start a G) H) as I. pose proof (sizes_grow a G ps s I Lt) as Q. rewrite J in Q. apply Q. left. destruct I as (_ & _ & IM & _). destruct G as (_ & _ & GM). lia.
Qed.
Theorem p_sizes_ok : forall a delta ps0 ps s, 1 <= delta -> good a -> p_run a delta ps0 (start a) = Some s -> tau_now s < tau_end a -> j s = 0%Z -> growing (Z.to_nat (mmax a)) 0 (map Z.to_nat (p_sizes a delta ps s)).
Proof.
  intros a delta ps0 ps s DL G H Lt J. pose proof (p_inv_run a delta ps0 _ _ DL G (inv_start a G) H) as I. pose proof (p_sizes_grow a delta DL G ps s I Lt) as Q. rewrite J in Q. apply Q. left. destruct I as (_ & _ & IM & _). destruct G as (_ & _ & GM). lia.
Qed.
