(** The bases of the solvers with fewer synchronisations: every step preserves the Arnoldi decomposition *)
From Coq Require Import Reals ZArith List Bool Arith Lra Lia FunctionalExtensionality.
From Coquelicot Require Import Coquelicot.
From Verif Require Import InnerSpec InnerFacts FgmresModel FgmresFacts FgmresProofs VecTac PmexSpec PmexModel PmexKrylov LowsyncModel LowsyncSpec.
Import ListNotations.
Local Open Scope R_scope.

Definition lower (H : nat -> nat -> R) : Prop := forall i k, (k + 1 < i)%nat -> H i k = 0.
Definition clean_t (n : nat) (T : nat -> nat -> R) : Prop := unit_lower T /\ forall i k, (k < i < n)%nat -> T i k = 0.
Definition clean_n (n : nat) (N : nat -> nat -> R) : Prop := strictly_upper N /\ forall i k, (k < n)%nat -> N i k = 0.
Lemma set_entry_same : forall H r c x, set_entry H r c x r c = x.
Proof. intros. unfold set_entry. now rewrite !Nat.eqb_refl. Qed.
Lemma set_entry_other : forall H r c x i k, i <> r \/ k <> c -> set_entry H r c x i k = H i k.
Proof. intros H r c x i k N. unfold set_entry. destruct (Nat.eqb_spec i r), (Nat.eqb_spec k c); cbn; try reflexivity. lia. Qed.
Lemma set_col_in : forall H n c x i, (i < n)%nat -> set_col H n c x i c = x i.
Proof. intros. unfold set_col. rewrite Nat.eqb_refl. replace (i <? n)%nat with true by (symmetry; apply Nat.ltb_lt; lia). reflexivity. Qed.
Lemma set_col_out : forall H n c x i k, (n <= i)%nat \/ k <> c -> set_col H n c x i k = H i k.
Proof. intros H n c x i k N. unfold set_col. destruct (Nat.eqb_spec k c), (Nat.ltb_spec i n); cbn; try reflexivity. lia. Qed.

Lemma new_row_clean : forall k T j g, clean_t j T -> (forall r, (r < j)%nat -> g r = 0) -> clean_t (S j) (new_row k T (S j) g).
Proof.
  intros k T j g [U C] G. unfold new_row. destruct (Nat.ltb_spec 1 (S j)) as [J|J].
  2: { split; [exact U|]. intros i q I. lia. }
  rewrite Nat.sub_succ, Nat.sub_0_r. split.
  - intros i q I. destruct (Nat.eqb_spec i j) as [->|]; cbn [andb]; [|now apply U]. destruct (Nat.ltb_spec q j); [lia|]. now apply U.
  - intros i q I. destruct (Nat.eqb_spec i j) as [->|]; cbn [andb]; [|apply C; lia]. replace (q <? j)%nat with true by (symmetry; apply Nat.ltb_lt; lia).
    assert (E : - rsum j (fun r => g r * T r q) = 0) by (rewrite rsum_zero; [ring|]; intros r R; rewrite G by lia; ring).
    destruct k; [exact E| |exact E]. rewrite G by lia. ring.
Qed.
Lemma new_col_clean : forall N j g, clean_n j N -> (forall r, (r < j)%nat -> g r = 0) -> clean_n (S j) (new_col N (S j) g).
Proof.
  intros N j g [U C] G. unfold new_col. destruct (Nat.ltb_spec 1 (S j)) as [J|J].
  2: { split; [exact U|]. intros i q I. apply U. lia. }
  rewrite Nat.sub_succ, Nat.sub_0_r. split.
  - intros i q I. rewrite set_col_out by lia. now apply U.
  - intros i q I. destruct (Nat.eq_dec q j) as [->|]; [|rewrite set_col_out by lia; apply C; lia].
    destruct (Nat.lt_ge_cases i j); [rewrite set_col_in by lia; rewrite G by lia; ring|rewrite set_col_out by lia; now apply U].
Qed.
Lemma coefficients_clean : forall k T N I j g i, clean_t j T -> clean_n j N -> (i < j)%nat -> coefficients k T N I j g i = g i.
Proof.
  intros k T N I j g i [TU TC] [NU NC] L.
  assert (E : rsum j (fun q => T i q * g q) = g i).
  { rewrite (rsum_delta j i) by (first [lia|intros q Q D; destruct (Nat.lt_ge_cases q i); [rewrite TC by lia; ring|rewrite TU by lia; replace (i =? q)%nat with false by (symmetry; apply Nat.eqb_neq; lia); ring]]).
    rewrite TU, Nat.eqb_refl by lia. ring. }
  destruct k; [|exact E|exact E]. cbn [coefficients]. rewrite rsum_zero; [ring|]. intros q Q. rewrite rsum_zero; [ring|]. intros r R. rewrite NC by lia. ring.
Qed.

Section Steps.
Context {W : ModuleSpace R_Ring}.
Variable op : W -> W.
Hypothesis OL : linear_map op.
Variable lp fp : W -> W -> R.
Hypothesis lp_sym : forall x y, lp x y = lp y x.
Hypothesis lp_plus : forall x y z, lp (plus x y) z = lp x z + lp y z.
Hypothesis lp_scal : forall a x z, lp (scal (V := W) a x) z = a * lp x z.
Hypothesis lp_pos : forall x, 0 <= lp x x.
Variable tol : R.
Hypothesis tol_pos : 0 < tol.

Lemma lp_scal_r : forall a x z, lp x (scal (V := W) a z) = a * lp x z.
Proof. intros. rewrite lp_sym, lp_scal, lp_sym. reflexivity. Qed.
Lemma lp_opp : forall x z, lp (opp x) z = - lp x z.
Proof. intros x z. replace (opp x) with (scal (V := W) (-1) x) by (exact (scal_opp_one x)). rewrite lp_scal. ring. Qed.
Lemma lp_zero : forall z, lp zero z = 0.
Proof. intros z. replace (zero : W) with (scal (V := W) 0 (zero : W)) by (exact (scal_zero_l _)). rewrite lp_scal. ring. Qed.
Lemma lp_vsum : forall n (f : nat -> W) z, lp (vsum n f) z = rsum n (fun i => lp (f i) z).
Proof. induction n as [|n IH]; intros f z; cbn [vsum rsum]; [apply lp_zero|]. rewrite lp_plus, IH. reflexivity. Qed.

(** removing the components along an orthonormal family *)
Lemma lp_project : forall j (q : nat -> W) (x : W), (forall i k, (i < j)%nat -> (k < j)%nat -> lp (q i) (q k) = if Nat.eqb i k then 1 else 0) ->
  let r := plus x (opp (vsum j (fun i => scal (V := W) (lp (q i) x) (q i)))) in
  (forall k, (k < j)%nat -> lp r (q k) = 0) /\ lp r r = lp x x - rsum j (fun i => lp (q i) x ^ 2).
Proof.
  intros j q x O r.
  assert (P : forall z, lp r z = lp x z - rsum j (fun i => lp (q i) x * lp (q i) z)).
  { intros z. unfold r. rewrite lp_plus, lp_opp, lp_vsum. unfold Rminus. do 2 f_equal. apply rsum_ext. intros i _. apply lp_scal. }
  assert (Q : forall k, (k < j)%nat -> lp r (q k) = 0).
  { intros k K. rewrite P. rewrite (rsum_ext j _ (fun i => lp (q i) x * (if Nat.eqb i k then 1 else 0))) by (intros i I; now rewrite O). rewrite rsum_one by exact K. rewrite (lp_sym x). ring. }
  split; [exact Q|]. rewrite P. rewrite (lp_sym x r), P.
  rewrite (rsum_ext j (fun i => lp (q i) x * lp (q i) r) (fun _ => 0)) by (intros i I; rewrite (lp_sym (q i) r), Q by exact I; ring).
  rewrite (rsum_zero j (fun _ => 0)) by reflexivity. rewrite (rsum_ext j (fun i => lp (q i) x ^ 2) (fun i => lp (q i) x * lp (q i) x)) by (intros; ring). ring.
Qed.

Notation dec := (decomposition lp op).
(** the vector number j before it is divided by its norm *)
Definition semi (x : W) (j : nat) (b : R) (V : nat -> W) (H : nat -> nat -> R) (w : W) : Prop :=
  match j with
  | O => w = x
  | S i => dec x i b V H /\ remainder lp op j V H w
  end.

Lemma dec_ext : forall x m b V H V' H', dec x m b V H -> (forall i, (i <= m)%nat -> V' i = V i) -> (forall i k, (i <= m)%nat -> (k < m)%nat -> H' i k = H i k) -> lower H' -> dec x m b V' H'.
Proof.
  intros x m b V H V' H' (D0 & D1 & D2 & D3 & D4 & D5) EV EH LO. repeat split.
  - exact D0.
  - rewrite EV by lia. exact D1.
  - intros i k I K. rewrite !EV by lia. now apply D2.
  - intros k K. rewrite EV by lia. rewrite D3 by exact K. rewrite !vec_sum_vsum. apply vsum_ext. intros i I. rewrite EV, EH by lia. reflexivity.
  - intros k K. rewrite EH by lia. now apply D4.
  - intros i k I K. apply LO. lia.
Qed.
Lemma remainder_ext : forall h V H V' H' r, (1 <= h)%nat -> remainder lp op h V H r -> (forall i, (i < h)%nat -> V' i = V i) -> (forall i, (i < h)%nat -> H' i (h - 1)%nat = H i (h - 1)%nat) -> remainder lp op h V' H' r.
Proof.
  intros h V H V' H' r L [R1 R2] EV EH. split.
  - rewrite EV by lia. rewrite R1. f_equal. rewrite !vec_sum_vsum. apply vsum_ext. intros i I. rewrite EV, EH by lia. reflexivity.
  - intros i I. rewrite EV by lia. now apply R2.
Qed.
(** dividing by the norm *)
Lemma close : forall x j b V H w b' V' H', semi x j b V H w -> sqrt (lp w w) <> 0 ->
  (forall i, (i < j)%nat -> V' i = V i) -> V' j = scal (V := W) (/ sqrt (lp w w)) w ->
  (forall i k, (i <= j)%nat -> (k < j)%nat -> ~ (i = j /\ k = j - 1)%nat -> H' i k = H i k) -> ((0 < j)%nat -> H' j (j - 1)%nat = sqrt (lp w w)) -> lower H' ->
  b' = (if Nat.eqb j 0 then sqrt (lp w w) else b) -> dec x j b' V' H'.
Proof.
  intros x j b V H w b' V' H' SM NZ EV EJ EH HJ LO ->. set (n := sqrt (lp w w)) in *. assert (NP : 0 < n) by (pose proof (sqrt_pos (lp w w)); fold n in H0; lra).
  assert (NN : lp w w = n * n) by (symmetry; apply sqrt_sqrt, lp_pos).
  assert (UN : lp (V' j) (V' j) = 1) by (rewrite EJ, lp_scal, lp_scal_r, NN; field; lra).
  destruct j as [|j]; cbn [semi] in SM; cbn [Nat.eqb].
  - subst w. split; [exact NP|split; [|split; [|split; [|split]]]]; try (intros; lia).
    + rewrite EJ. rewrite <- scal_Rmult. replace (n * / n) with 1 by (field; lra). exact (scal_one x).
    + intros i k I K. replace i with 0%nat by lia. replace k with 0%nat by lia. exact UN.
  - destruct SM as [(D0 & D1 & D2 & D3 & D4 & D5) [R1 R2]]. rewrite Nat.sub_succ, Nat.sub_0_r in R1. repeat split.
    + exact D0.
    + rewrite EV by lia. exact D1.
    + assert (Z : forall i, (i <= j)%nat -> lp (V' (S j)) (V' i) = 0) by (intros i I; rewrite EJ, lp_scal, EV by lia; rewrite R2 by lia; ring).
      intros i k I K. destruct (Nat.eq_dec i (S j)) as [->|Ni], (Nat.eq_dec k (S j)) as [->|Nk].
      * rewrite Nat.eqb_refl. exact UN.
      * rewrite Z by lia. replace (S j =? k)%nat with false by (symmetry; apply Nat.eqb_neq; lia). reflexivity.
      * rewrite lp_sym, Z by lia. replace (i =? S j)%nat with false by (symmetry; apply Nat.eqb_neq; lia). reflexivity.
      * rewrite !EV by lia. apply D2; lia.
    + intros k K. rewrite vec_sum_vsum. destruct (Nat.eq_dec k j) as [->|Nk].
      * rewrite EV by lia. rewrite R1. replace (j + 2)%nat with (S (S j)) by lia. rewrite (vsum_S W (S j)). rewrite vec_sum_vsum. f_equal.
        -- apply vsum_ext. intros i I. rewrite EV, EH by lia. reflexivity.
        -- specialize (HJ ltac:(lia)). rewrite Nat.sub_succ, Nat.sub_0_r in HJ. rewrite HJ, EJ. rewrite <- scal_Rmult. replace (n * / n) with 1 by (field; lra). symmetry. exact (scal_one w).
      * rewrite EV by lia. rewrite D3 by lia. rewrite vec_sum_vsum. apply vsum_ext. intros i I. rewrite EV, EH by lia. reflexivity.
    + intros k K. destruct (Nat.eq_dec k j) as [->|Nk]; [specialize (HJ ltac:(lia)); rewrite Nat.sub_succ, Nat.sub_0_r in HJ; replace (j + 1)%nat with (S j) by lia; rewrite HJ; exact NP|].
      rewrite EH by lia. apply D4. lia.
    + intros i k I K. apply LO. lia.
Qed.
(** taking the next product *)
Lemma next : forall x j b V H V' H' w, dec x j b V H -> (forall i, (i <= j)%nat -> V' i = V i) -> (forall i k, (i <= j)%nat -> (k < j)%nat -> H' i k = H i k) ->
  (forall i, (i <= j)%nat -> H' i j = lp (V i) (op (V j))) -> lower H' -> w = plus (op (V j)) (opp (vsum (S j) (fun i => scal (V := W) (lp (V i) (op (V j))) (V i)))) ->
  semi x (S j) b V' H' w /\ lp w w = lp (op (V j)) (op (V j)) - rsum (S j) (fun i => lp (V i) (op (V j)) ^ 2).
Proof.
  intros x j b V H V' H' w D EV EH HJ LO ->. destruct (lp_project (S j) V (op (V j))) as [P1 P2]; [intros i k I K; apply D; lia|].
  split; [|exact P2]. split; [eapply dec_ext; eauto|]. split.
  - rewrite Nat.sub_succ, Nat.sub_0_r, vec_sum_vsum. rewrite EV by lia. rewrite (vsum_ext (S j) (fun i => scal (V := W) (H' i j) (V' i)) (fun i => scal (V := W) (lp (V i) (op (V j))) (V i))) by (intros i I; rewrite HJ, EV by lia; reflexivity).
    set (s := vsum _ _). clearbody s. vec.
  - intros i I. rewrite EV by lia. now apply P1.
Qed.

Definition tidy (j : nat) (S : @arrays W) : Prop := lower (ah S) /\ clean_t j (at_ S) /\ clean_n j (an S).
Definition full (x : W) (S : @arrays W) (j : nat) : Prop := dec x j (ab S) (av S) (ah S) /\ tidy j S.

(** ** norm estimate *)
Lemma step_ne_ok : forall k last x S j, full x S j -> exists S1 hb, step_ne op lp tol k last S (Datatypes.S j) = Some (S1, hb) /\
  (if hb then dec x j (ab S1) (av S1) (ah S1) /\ exists c r, op (av S1 j) = plus (vec_sum (Datatypes.S j) (fun i => scal (V := W) (c i) (av S1 i))) r /\ sqrt (lp r r) < tol else full x S1 (Datatypes.S j)).
Proof.
  intros k last x S j [D (LO & CT & CN)]. unfold step_ne. rewrite Nat.sub_succ, Nat.sub_0_r. rewrite Nat.add_0_r, Nat.add_1_r.
  set (v1 := set1 (av S) (Datatypes.S j) (op (av S j))).
  assert (E1 : forall i, (i <= j)%nat -> v1 i = av S i) by (intros i I; unfold v1; apply set1_other; lia).
  assert (E2 : v1 (Datatypes.S j) = op (av S j)) by apply set1_same.
  set (T1 := new_row k (at_ S) (Datatypes.S j) (fun i => lp (v1 i) (v1 j))).
  set (g := fun i => lp (v1 i) (v1 (Datatypes.S j))).
  assert (GE : forall i, (i <= j)%nat -> g i = lp (av S i) (op (av S j))) by (intros i I; unfold g; now rewrite E1, E2 by lia).
  assert (C1 : clean_t (Datatypes.S j) T1).
  { apply new_row_clean; [exact CT|]. intros r R. rewrite !E1 by lia. destruct D as (_ & _ & D2 & _). rewrite D2 by lia. replace (r =? j)%nat with false by (symmetry; apply Nat.eqb_neq; lia). reflexivity. }
  set (N1 := new_col (an S) (Datatypes.S j) (fun i => lp (v1 i) (v1 j))).
  assert (C2 : clean_n (Datatypes.S j) N1).
  { apply new_col_clean; [exact CN|]. intros r R. rewrite !E1 by lia. destruct D as (_ & _ & D2 & _). rewrite D2 by lia. replace (r =? j)%nat with false by (symmetry; apply Nat.eqb_neq; lia). reflexivity. }
  set (I1 := new_row k (ai S) (Datatypes.S j) (fun i => lp (v1 i) (v1 j))).
  set (c := coefficients k T1 N1 I1 (Datatypes.S j) g).
  assert (CE : forall i, (i <= j)%nat -> c i = lp (av S i) (op (av S j))).
  { intros i I. unfold c. rewrite <- GE by lia. apply coefficients_clean; try assumption; lia. }
  set (w := reduce v1 (Datatypes.S j) c).
  assert (WE : w = plus (op (av S j)) (opp (vsum (Datatypes.S j) (fun i => scal (V := W) (lp (av S i) (op (av S j))) (av S i))))).
  { unfold w, reduce. rewrite E2. do 2 f_equal. apply vsum_ext. intros i I. rewrite CE, E1 by lia. reflexivity. }
  set (H1 := set_col (ah S) (Datatypes.S j) j c).
  assert (LO1 : lower H1) by (intros i q I; unfold H1; rewrite set_col_out by lia; now apply LO).
  destruct (next x j (ab S) (av S) (ah S) (set1 v1 (Datatypes.S j) w) H1 w D) as [SM P2]; try assumption.
  { intros i I. rewrite set1_other by lia. now apply E1. }
  { intros i q I Q. unfold H1. now rewrite set_col_out by lia. }
  { intros i I. unfold H1. rewrite set_col_in by lia. now apply CE. }
  set (sum := rsum (Datatypes.S j) (fun i => g i ^ 2)).
  assert (SE : g (Datatypes.S j) - sum = lp w w). { rewrite P2. unfold g at 1. rewrite E2. unfold Rminus. do 2 f_equal. apply rsum_ext. intros i I. rewrite GE by lia. reflexivity. }
  change (rsum (Datatypes.S j) (fun i => lp (v1 i) (v1 (Datatypes.S j)) ^ 2)) with sum. change (lp (v1 (Datatypes.S j)) (v1 (Datatypes.S j))) with (g (Datatypes.S j)).
  destruct (Rlt_dec (g (Datatypes.S j)) sum) as [B|B]; [exfalso; pose proof (lp_pos w); lra|]. rewrite SE.
  destruct (Rlt_dec (sqrt (lp w w)) tol) as [G|G].
  - eexists _, true. split; [reflexivity|]. lazy beta iota delta [ab av ah]. split.
    + eapply dec_ext; [exact D|..]; auto. intros i I. rewrite set1_other by lia. now apply E1.
    + exists (fun i => lp (av S i) (op (av S j))), w. split; [|exact G]. rewrite set1_other, E1 by lia. rewrite vec_sum_vsum.
      rewrite (vsum_ext (Datatypes.S j) _ (fun i => scal (V := W) (lp (av S i) (op (av S j))) (av S i))) by (intros i I; rewrite set1_other, E1 by lia; reflexivity). rewrite WE. set (s := vsum _ _). clearbody s. vec.
  - eexists _, false. split; [reflexivity|]. split.
    + lazy beta iota delta [ab av ah]. eapply (close x (Datatypes.S j) (ab S) (set1 v1 (Datatypes.S j) w) H1 w); try eassumption.
      * lra.
      * intros i I. rewrite !set1_other by lia. reflexivity.
      * now rewrite set1_same.
      * intros i q I Q N. rewrite set_entry_other by lia. reflexivity.
      * intros _. rewrite Nat.sub_succ, Nat.sub_0_r. apply set_entry_same.
      * intros i q I. rewrite set_entry_other by lia. now apply LO1.
      * reflexivity.
    + split; [|exact (conj C1 C2)]; lazy beta iota delta [ah at_].
      intros i q I. rewrite set_entry_other by lia. now apply LO1.
Qed.

(** ** lagged normalisation *)
Definition current (est : bool) (S : @arrays W) (j : nat) : W := if est && Nat.ltb 0 j then scal (V := W) (aest S) (av S j) else av S j.
Definition lag_state (w : W) (x : W) (S : @arrays W) (j : nat) : Prop := lower (ah S) /\ clean_t j (at_ S) /\ clean_n j (an S) /\
  if anormal S then (1 <= j)%nat /\ dec x j (ab S) (av S) (ah S) else semi x j (ab S) (av S) (ah S) w.
Lemma lag_scale_ok : forall est x S j q, lag_state (current est S j) x S j -> lag_scale op lp est S (Datatypes.S j) = Some q ->
  dec x j (sb q) (sv q) (sh q) /\ lower (sh q) /\ sv q (Datatypes.S j) = op (sv q j) /\ (forall i, (i < j)%nat -> s0 q i = 0) /\
  (forall i, (i <= Datatypes.S j)%nat -> s1 q i = lp (sv q i) (sv q (Datatypes.S j))) /\ sn q = (if anormal S then 1 else if Nat.eqb j 0 then sb q else sh q j (j - 1)%nat).
Proof.
  intros est x S j q (LO & CT & CN & ST) E. unfold lag_scale in E. rewrite Nat.sub_succ, Nat.sub_0_r in E. destruct (anormal S) eqn:AN.
  - destruct ST as [J D]. cbn [negb] in E. rewrite andb_false_r in E. injection E as <-. cbn [sv s0 s1 sh sb sn].
    assert (E1 : forall i, (i <= j)%nat -> set1 (av S) (Datatypes.S j) (op (av S j)) i = av S i) by (intros i I; apply set1_other; lia).
    change (Datatypes.S j =? 1)%nat with (j =? 0)%nat. replace (j =? 0)%nat with false by (symmetry; apply Nat.eqb_neq; lia).
    split; [eapply dec_ext; eauto|]. split; [exact LO|]. split; [now rewrite set1_same, E1 by lia|]. destruct D as (_ & _ & D2 & _). split; [|split; [intros; reflexivity|]].
    + intros i I. rewrite !E1, D2 by lia. replace (i =? j)%nat with false by (symmetry; apply Nat.eqb_neq; lia). reflexivity.
    + rewrite !E1, D2, Nat.eqb_refl by lia. apply sqrt_1.
  - set (v0 := set1 (av S) (Datatypes.S j) (op (av S j))) in *. set (w := current est S j) in *.
    set (v1 := if est && _ && negb false then _ else v0) in E.
    assert (B1 : forall i, (i < j)%nat -> v1 i = av S i).
    { intros i I. assert (v0 i = av S i) by (unfold v0; apply set1_other; lia). unfold v1. destruct (_ && _); [|assumption]. replace (i =? j)%nat with false by (symmetry; apply Nat.eqb_neq; lia). replace (i =? Datatypes.S j)%nat with false by (symmetry; apply Nat.eqb_neq; lia). assumption. }
    assert (B2 : v1 j = w).
    { assert (v0 j = av S j) by (unfold v0; apply set1_other; lia). unfold v1, w, current. cbn [negb]. rewrite andb_true_r. change (1 <? Datatypes.S j)%nat with (0 <? j)%nat. destruct (est && _); [|assumption]. rewrite Nat.eqb_refl. cbn [orb]. now rewrite H. }
    assert (B3 : v1 (Datatypes.S j) = op w).
    { assert (v0 (Datatypes.S j) = op (av S j)) by apply set1_same. unfold v1, w, current. cbn [negb]. rewrite andb_true_r. change (1 <? Datatypes.S j)%nat with (0 <? j)%nat. destruct (est && _); [|assumption]. rewrite Nat.eqb_refl, orb_true_r. rewrite H. symmetry. apply OL. }
    clearbody v1. rewrite B2 in E. set (n := sqrt (lp w w)) in *. destruct (Req_EM_T n 0) as [Z|Z]; [discriminate|]. injection E as <-. cbn [sv s0 s1 sh sb sn].
    assert (O1 : forall i, (i < j)%nat -> (i =? j)%nat || (i =? Datatypes.S j)%nat = false) by (intros i I; apply orb_false_iff; split; apply Nat.eqb_neq; lia).
    assert (O2 : (Datatypes.S j =? j)%nat || (Datatypes.S j =? Datatypes.S j)%nat = true) by (rewrite Nat.eqb_refl; apply orb_true_r).
    change (1 <? Datatypes.S j)%nat with (0 <? j)%nat. change (Datatypes.S j =? 1)%nat with (j =? 0)%nat. change (Datatypes.S j - 2)%nat with (j - 1)%nat.
    set (H1 := if (0 <? j)%nat then set_entry (ah S) j (j - 1) n else ah S).
    assert (LO1 : lower H1) by (unfold H1; destruct (0 <? j)%nat; [|exact LO]; intros i k I; rewrite set_entry_other by lia; now apply LO).
    assert (HJ : (0 < j)%nat -> H1 j (j - 1)%nat = n) by (intros J; unfold H1; replace (0 <? j)%nat with true by (symmetry; apply Nat.ltb_lt; lia); apply set_entry_same).
    split; [|split; [exact LO1|split; [|split; [|split]]]].
    + apply (close x j (ab S) (av S) (ah S) w); try assumption.
      * intros i I. rewrite O1 by exact I. now apply B1.
      * cbv beta. rewrite Nat.eqb_refl. cbn [orb]. now rewrite B2.
      * intros i k I K N. unfold H1. destruct (0 <? j)%nat; [|reflexivity]. rewrite set_entry_other by lia. reflexivity.
      * reflexivity.
    + cbv beta. rewrite O2, Nat.eqb_refl. cbn [orb]. rewrite B3, B2. symmetry. apply OL.
    + intros i I. replace (i <? j)%nat with true by (symmetry; apply Nat.ltb_lt; lia). rewrite B1 by lia. replace (lp (av S i) w) with 0; [field; assumption|].
      destruct j as [|j]; [lia|]. destruct ST as [_ [_ R2]]. rewrite lp_sym. symmetry. apply R2. lia.
    + intros i I. cbv beta. rewrite O2, B3. destruct (Nat.lt_ge_cases i j).
      * replace (i <? j)%nat with true by (symmetry; apply Nat.ltb_lt; lia). rewrite O1 by lia. rewrite B1, lp_scal_r by lia. unfold Rdiv. ring.
      * replace (i <? j)%nat with false by (symmetry; apply Nat.ltb_ge; lia). replace ((i =? j)%nat || (i =? Datatypes.S j)%nat) with true by (symmetry; apply orb_true_iff; rewrite !Nat.eqb_eq; lia). rewrite lp_scal, lp_scal_r. unfold Rdiv. ring.
    + destruct j as [|j]; [reflexivity|]. cbn [Nat.eqb]. symmetry. apply HJ. lia.
Qed.
Lemma lag_project_ok : forall k est last x S j q, lag_state (current est S j) x S j -> lag_scale op lp est S (Datatypes.S j) = Some q ->
  forall S1 hb, lag_project lp tol k est last S (Datatypes.S j) q = (S1, hb) ->
  (if hb then dec x j (ab S1) (av S1) (ah S1) /\
     (if est then last = false /\ remainder lp op (Datatypes.S j) (av S1) (ah S1) (av S1 (Datatypes.S j)) /\ sqrt (lp (av S1 (Datatypes.S j)) (av S1 (Datatypes.S j))) < tol
      else (if anormal S then 1 else if Nat.eqb j 0 then ab S1 else ah S1 j (j - 1)%nat) < tol)
   else anormal S1 = false /\ lag_state (if est && negb last then scal (V := W) (aest S1) (av S1 (Datatypes.S j)) else av S1 (Datatypes.S j)) x S1 (Datatypes.S j)).
Proof.
  intros k est last x S j q ST E S1 hb P. destruct (lag_scale_ok est x S j q ST E) as (D & LO & SJ & Z0 & G1 & NR). destruct ST as (_ & CT & CN & _). clear E.
  unfold lag_project in P. rewrite Nat.sub_succ, Nat.sub_0_r in P.
  pose proof (new_row_clean k (at_ S) j (s0 q) CT Z0) as CT1. pose proof (new_col_clean (an S) j (s0 q) CN Z0) as CN1.
  set (T1 := new_row k (at_ S) _ _) in *. set (N1 := new_col (an S) _ _) in *. set (I1 := new_row k (ai S) _ _) in *.
  set (c := coefficients k T1 N1 I1 (Datatypes.S j) (s1 q)) in *.
  assert (CE : forall i, (i <= j)%nat -> c i = lp (sv q i) (op (sv q j))) by (intros i I; unfold c; rewrite coefficients_clean by (try assumption; lia); rewrite G1, SJ by lia; reflexivity).
  set (w := reduce (sv q) (Datatypes.S j) c) in *.
  assert (WE : w = plus (op (sv q j)) (opp (vsum (Datatypes.S j) (fun i => scal (V := W) (lp (sv q i) (op (sv q j))) (sv q i))))).
  { unfold w, reduce. rewrite SJ. do 2 f_equal. apply vsum_ext. intros i I. rewrite CE by lia. reflexivity. }
  set (H2 := set_col (sh q) (Datatypes.S j) j c) in *.
  assert (LO2 : lower H2) by (intros i r I; unfold H2; rewrite set_col_out by lia; now apply LO).
  assert (NX : forall y, let V' := set1 (sv q) (Datatypes.S j) y in semi x (Datatypes.S j) (sb q) V' H2 w /\ lp w w = lp (op (sv q j)) (op (sv q j)) - rsum (Datatypes.S j) (fun i => lp (sv q i) (op (sv q j)) ^ 2)).
  { intros y V'. apply (next x j (sb q) (sv q) (sh q)); try assumption.
    - intros i I. unfold V'. now rewrite set1_other by lia.
    - intros i r I Q. unfold H2. now rewrite set_col_out by lia.
    - intros i I. unfold H2. rewrite set_col_in by lia. now apply CE. }
  assert (DE : forall y, dec x j (sb q) (set1 (sv q) (Datatypes.S j) y) (sh q)) by (intros y; eapply dec_ext; eauto; intros i I; now rewrite set1_other by lia).
  destruct est; cbn [andb].
  - destruct last; cbn [negb].
    + injection P as <- <-. split; [reflexivity|]. unfold lag_state. lazy beta iota delta [av ah at_ an ab anormal]. rewrite set1_same. exact (conj LO2 (conj CT1 (conj CN1 (proj1 (NX w))))).
    + set (sum := rsum (Datatypes.S j) (fun i => s1 q i ^ 2)) in *.
      assert (SE : s1 q (Datatypes.S j) - sum = lp w w). { rewrite (proj2 (NX w)). rewrite G1, SJ by lia. unfold Rminus. do 2 f_equal. apply rsum_ext. intros i I. rewrite G1, SJ by lia. reflexivity. }
      rewrite SE in P. destruct (Rlt_dec (s1 q (Datatypes.S j)) sum) as [B|B]; [exfalso; pose proof (lp_pos w); lra|].
      destruct (Rlt_dec (sqrt (lp w w)) tol) as [G|G]; injection P as <- <-.
      * lazy beta iota delta [av ah at_ an ab anormal]. rewrite set1_same. destruct (NX w) as [[X1 X2] _]. split; [exact X1|]. split; [reflexivity|]. split; [exact X2|exact G].
      * split; [reflexivity|]. unfold lag_state. lazy beta iota delta [av ah at_ an ab anormal aest]. rewrite set1_same. rewrite <- scal_Rmult. replace (sqrt (lp w w) * / sqrt (lp w w)) with 1 by (field; lra).
        replace (scal (V := W) 1 w) with w by (symmetry; exact (scal_one w)). exact (conj LO2 (conj CT1 (conj CN1 (proj1 (NX (scal (V := W) (/ sqrt (lp w w)) w)))))).
  - destruct (Rlt_dec (sn q) tol) as [G|G]; injection P as <- <-.
    + lazy beta iota delta [av ah at_ an ab anormal]. split; [apply DE|]. rewrite NR in G. exact G.
    + split; [reflexivity|]. unfold lag_state. lazy beta iota delta [av ah at_ an ab anormal]. rewrite set1_same. exact (conj LO2 (conj CT1 (conj CN1 (proj1 (NX w))))).
Qed.

(** ** loops and passes *)
Definition scheme_lag (est : bool) (k : projection) : scheme := if est then NE_OneSync k else OneSync k.
(** the Krylov space has at most n dimensions *)
Definition exhausted (n : nat) (x : W) : Prop := exists h b V H r, (1 <= h <= n)%nat /\ dec x (h - 1) b V H /\ remainder lp op h V H r /\ lp r r = 0.
Definition broken (s : scheme) (h : nat) (S : @arrays W) : Prop :=
  match s with
  | NE _ => exists c r, op (av S (h - 1)%nat) = plus (vec_sum h (fun i => scal (V := W) (c i) (av S i))) r /\ sqrt (lp r r) < tol
  | NE_OneSync _ => exists r, remainder lp op h (av S) (ah S) r /\ sqrt (lp r r) < tol
  | OneSync _ => (if Nat.eqb h 1 then ab S else ah S (h - 1)%nat (h - 2)%nat) < tol \/ 1 < tol
  end.
Lemma exhausted_more : forall n n' x, (n <= n')%nat -> exhausted n x -> exhausted n' x.
Proof. intros n n' x L (h & b & V & H & r & I & Q). exists h, b, V, H, r. split; [lia|exact Q]. Qed.
Lemma lag_none : forall est x S j, 0 < lp x x -> lag_state (current est S j) x S j -> (est = true -> anormal S = false -> (0 < j)%nat -> lp (current est S j) (current est S j) <> 0) ->
  lag_scale op lp est S (Datatypes.S j) = None -> exhausted j x.
Proof.
  intros est x S j XP (LO & CT & CN & ST) NE E. unfold lag_scale in E. rewrite Nat.sub_succ, Nat.sub_0_r in E. destruct (anormal S) eqn:AN; [discriminate|]. cbn [negb] in E. rewrite andb_true_r in E.
  set (v1 := if est && _ then _ else _) in E. assert (B2 : v1 j = current est S j).
  { unfold v1, current. change (1 <? Datatypes.S j)%nat with (0 <? j)%nat. destruct (est && _); [rewrite Nat.eqb_refl; cbn [orb]|]; rewrite set1_other by lia; reflexivity. }
  rewrite B2 in E. set (w := current est S j) in *. destruct (Req_EM_T (sqrt (lp w w)) 0) as [Z|Z]; [|discriminate]. apply sqrt_eq_0 in Z; [|apply lp_pos].
  destruct j as [|j]; cbn [semi] in ST; [rewrite ST in Z; lra|]. exists (Datatypes.S j), (ab S), (av S), (ah S), w. rewrite Nat.sub_succ, Nat.sub_0_r. split; [lia|]. destruct ST as [D R]. split; [exact D|split; [exact R|exact Z]].
Qed.
Lemma loop_lag : forall k est x, 0 < lp x x -> forall rest S j, lag_state (current est S j) x S j -> (est = true -> anormal S = false -> (0 < j)%nat -> lp (current est S j) (current est S j) <> 0) ->
  match loop op lp tol (scheme_lag est k) rest S j with
  | None => exhausted (j + rest) x
  | Some (S', h, false) => h = (j + rest)%nat /\ (rest = 0%nat -> S' = S) /\ ((0 < rest)%nat -> anormal S' = false /\ lag_state (av S' h) x S' h)
  | Some (S', h, true) => (j < h <= j + rest)%nat /\ dec x (h - 1) (ab S') (av S') (ah S') /\ broken (scheme_lag est k) h S'
  end.
Proof.
  intros k est x XP. induction rest as [|rest IH]; intros S j ST NZ.
  - cbn [loop]. split; [lia|]. split; [reflexivity|lia].
  - cbn [loop]. assert (ES : step op lp tol (scheme_lag est k) = step_lag op lp tol k est) by (destruct est; reflexivity). rewrite ES. unfold step_lag.
    destruct (lag_scale op lp est S (Datatypes.S j)) as [q|] eqn:SC; [|apply (exhausted_more j); [lia|now apply (lag_none est x S j)]].
    destruct (lag_project lp tol k est (rest =? 0)%nat S (Datatypes.S j) q) as [S1 hb] eqn:PR.
    pose proof (lag_project_ok k est (rest =? 0)%nat x S j q ST SC S1 hb PR) as OK. destruct hb.
    + destruct OK as [D B]. rewrite Nat.sub_succ, Nat.sub_0_r. split; [lia|]. split; [exact D|]. destruct est; cbn [scheme_lag broken].
      * destruct B as (_ & B1 & B2). eexists. split; [exact B1|exact B2].
      * change (Datatypes.S j =? 1)%nat with (j =? 0)%nat. rewrite Nat.sub_succ, Nat.sub_0_r. change (Datatypes.S j - 2)%nat with (j - 1)%nat. destruct (anormal S); [right; exact B|left; exact B].
    + destruct OK as [AN ST1]. destruct rest as [|rest].
      * cbn [loop]. split; [lia|]. split; [lia|]. intros _. split; [exact AN|]. cbn [Nat.eqb negb] in ST1. rewrite andb_false_r in ST1. exact ST1.
      * cbn [Nat.eqb negb] in ST1, PR. rewrite andb_true_r in ST1.
        assert (CU : current est S1 (Datatypes.S j) = if est then scal (V := W) (aest S1) (av S1 (Datatypes.S j)) else av S1 (Datatypes.S j)) by (unfold current; now rewrite andb_true_r).
        specialize (IH S1 (Datatypes.S j)). rewrite CU in IH. specialize (IH ST1).
        assert (NZ1 : est = true -> anormal S1 = false -> (0 < Datatypes.S j)%nat -> lp (if est then scal (V := W) (aest S1) (av S1 (Datatypes.S j)) else av S1 (Datatypes.S j)) (if est then scal (V := W) (aest S1) (av S1 (Datatypes.S j)) else av S1 (Datatypes.S j)) <> 0).
        { intros -> _ _ Z. unfold lag_project in PR. set (w := reduce _ _ _) in PR. set (sum := rsum _ (fun i => s1 q i ^ 2)) in PR.
          destruct (lag_scale_ok true x S j q ST SC) as (D & LO & SJ & Z0 & G1 & NR). 
          set (cur := if Rlt_dec (s1 q (Datatypes.S j)) sum then _ else _) in PR. destruct (Rlt_dec cur tol) as [G|G]; [discriminate|]. injection PR as <-. cbn [av aest] in Z. rewrite set1_same in Z.
          assert (CP : 0 < cur) by lra. rewrite <- scal_Rmult in Z. replace (cur * / cur) with 1 in Z by (field; lra). replace (scal (V := W) 1 w) with w in Z by (symmetry; exact (scal_one w)).
          destruct ST as (_ & CT & CN & _).
          pose proof (new_row_clean k (at_ S) j (s0 q) CT Z0) as CT1. pose proof (new_col_clean (an S) j (s0 q) CN Z0) as CN1.
          assert (WE : lp w w = s1 q (Datatypes.S j) - sum).
          { destruct (lp_project (Datatypes.S j) (sv q) (op (sv q j))) as [_ P2]; [intros i r I R; apply D; lia|].
            assert (W1 : w = plus (op (sv q j)) (opp (vsum (Datatypes.S j) (fun i => scal (V := W) (lp (sv q i) (op (sv q j))) (sv q i))))).
            { unfold w, reduce. rewrite SJ. do 2 f_equal. apply vsum_ext. intros i I. rewrite coefficients_clean by (try assumption; lia). rewrite G1, SJ by lia. reflexivity. }
            rewrite W1, P2, G1, SJ by lia. unfold Rminus. do 2 f_equal. unfold sum. apply rsum_ext. intros i I. rewrite G1, SJ by lia. reflexivity. }
          unfold cur in CP. destruct (Rlt_dec (s1 q (Datatypes.S j)) sum) as [B|B]; [pose proof (lp_pos w); lra|]. rewrite <- WE, Z, sqrt_0 in CP. lra. }
        specialize (IH NZ1). destruct (loop op lp tol (scheme_lag est k) (Datatypes.S rest) S1 (Datatypes.S j)) as [[[S' h] hb]|]; [|replace (j + Datatypes.S (Datatypes.S rest))%nat with (Datatypes.S j + Datatypes.S rest)%nat by lia; exact IH]. destruct hb.
        -- destruct IH as (I1 & I2 & I3). split; [lia|]. split; assumption.
        -- destruct IH as (I1 & I2 & I3). split; [lia|]. split; [lia|]. intros _. apply I3. lia.
Qed.
Lemma loop_ne : forall k x rest S j, full x S j -> exists S' h hb, loop op lp tol (NE k) rest S j = Some (S', h, hb) /\
  if hb then (j < h <= j + rest)%nat /\ dec x (h - 1) (ab S') (av S') (ah S') /\ broken (NE k) h S' else h = (j + rest)%nat /\ full x S' h.
Proof.
  intros k x. induction rest as [|rest IH]; intros S j F; cbn [loop].
  - exists S, j, false. split; [reflexivity|]. split; [lia|exact F].
  - cbn [step]. destruct (step_ne_ok k (rest =? 0)%nat x S j F) as (S1 & hb & E & OK). rewrite E. destruct hb.
    + exists S1, (Datatypes.S j), true. split; [reflexivity|]. rewrite Nat.sub_succ, Nat.sub_0_r. split; [lia|]. split; [apply OK|]. cbn [broken]. rewrite Nat.sub_succ, Nat.sub_0_r. apply OK.
    + destruct (IH S1 (Datatypes.S j) OK) as (S' & h & hb & E' & R). exists S', h, hb. split; [exact E'|]. destruct hb; [destruct R as (R1 & R2); split; [lia|exact R2]|destruct R; split; [lia|assumption]].
Qed.
Hypothesis same_norm : forall x, fp x x = lp x x.
Definition pass_start (s : scheme) (x : W) (S : @arrays W) (j : nat) : Prop :=
  match s with
  | NE k => full x S j
  | _ => lower (ah S) /\ clean_t j (at_ S) /\ clean_n j (an S) /\ if anormal S then (1 <= j)%nat /\ dec x j (ab S) (av S) (ah S) else j = 0%nat /\ av S 0%nat = x
  end.
Definition outcome (s : scheme) (x : W) (top : nat) (r : option (@arrays W * nat * bool)) : Prop :=
  match r with
  | None => (forall k, s <> NE k) /\ exhausted top x
  | Some (K, h, false) => h = top /\ dec x h (ab K) (av K) (ah K)
  | Some (K, h, true) => (1 <= h <= top)%nat /\ dec x (h - 1) (ab K) (av K) (ah K) /\ broken s h K
  end.
Lemma finish_ok : forall x S m, (1 <= m)%nat -> lag_state (av S m) x S m -> anormal S = false ->
  match finish fp S m with None => exhausted m x | Some S2 => anormal S2 = true /\ lower (ah S2) /\ clean_t m (at_ S2) /\ clean_n m (an S2) /\ dec x m (ab S2) (av S2) (ah S2) end.
Proof.
  intros x S m M (LO & CT & CN & ST) AN. rewrite AN in ST. unfold finish. rewrite same_norm. set (w := av S m) in *. destruct (Req_EM_T (sqrt (lp w w)) 0) as [Z|Z].
  - apply sqrt_eq_0 in Z; [|apply lp_pos]. destruct m as [|m]; [lia|]. exists (Datatypes.S m), (ab S), (av S), (ah S), w. rewrite Nat.sub_succ, Nat.sub_0_r. split; [lia|]. destruct ST as [D R]. split; [exact D|split; [exact R|exact Z]].
  - lazy beta iota delta [ab av ah at_ an anormal]. split; [reflexivity|]. assert (LO2 : lower (set_entry (ah S) m (m - 1) (sqrt (lp w w)))) by (intros i k I; rewrite set_entry_other by lia; now apply LO).
    split; [exact LO2|]. split; [exact CT|]. split; [exact CN|]. apply (close x m (ab S) (av S) (ah S) w); try assumption.
    + intros i I. now rewrite set1_other by lia.
    + now rewrite set1_same.
    + intros i k I K N. now rewrite set_entry_other by lia.
    + intros _. apply set_entry_same.
    + replace (m =? 0)%nat with false by (symmetry; apply Nat.eqb_neq; lia). reflexivity.
Qed.
Lemma last_default : forall (l : list nat) a b c, last (a :: l) b = last (a :: l) c.
Proof. induction l as [|z l IH]; intros; [reflexivity|]. change (last (z :: l) b = last (z :: l) c). apply IH. Qed.
Lemma growing_last : forall mmax ms j, growing mmax j ms -> (j <= last ms j)%nat.
Proof.
  intros mmax. induction ms as [|m ms IH]; intros j G; [cbn; lia|]. destruct G as [G1 G2]. specialize (IH m G2). destruct ms as [|m' ms]; [cbn; lia|]. change (last (m :: m' :: ms) j) with (last (m' :: ms) j).
  rewrite (last_default ms m' j m). lia.
Qed.
Lemma passes_ok : forall s x mmax, 0 < lp x x -> forall ms S j reached, growing mmax j ms -> pass_start s x S j -> (ms = [] -> dec x j (ab S) (av S) (ah S)) -> (reached = true -> j = mmax /\ j <> 0%nat) -> (j = mmax -> j <> 0%nat -> reached = true) ->
  outcome s x (last ms j) (passes op lp fp tol s mmax ms S j reached).
Proof.
  intros s x mmax XP. induction ms as [|m ms IH]; intros S j reached G ST EM R1 R2.
  - cbn. split; [reflexivity|now apply EM].
  - destruct G as [G1 G2]. cbn [passes]. set (S0 := Arrays _ _ _ _ _ _ _ 0).
    assert (LA : last (m :: ms) j = last ms m) by (destruct ms as [|m' ms]; [reflexivity|]; change (last (m' :: ms) j = last (m' :: ms) m); apply last_default). rewrite LA.
    pose proof (growing_last mmax ms m G2) as GL.
    assert (RB : forall S2, pass_start s x S2 m -> dec x m (ab S2) (av S2) (ah S2) -> outcome s x (last ms m) (passes op lp fp tol s mmax ms S2 m (reached || (m =? mmax)%nat))).
    { intros S2 P D. apply IH; auto.
      - intros Q. apply orb_true_iff in Q as [Q|Q]; [destruct (R1 Q); lia|apply Nat.eqb_eq in Q; lia].
      - intros -> _. rewrite Nat.eqb_refl. apply orb_true_r. }
    assert (LAG : forall est k, s = scheme_lag est k -> outcome s x (last ms m)
      match loop op lp tol s (m - j) S0 j with None => None | Some (S1, j1, true) => Some (S1, j1, true)
      | Some (S1, j1, false) => match (if reached then Some S1 else finish fp S1 m) with None => None | Some S2 => passes op lp fp tol s mmax ms S2 j1 (reached || (j1 =? mmax)%nat) end end).
    { intros est k ->. assert (PS : pass_start (scheme_lag est k) x S j <-> (lower (ah S) /\ clean_t j (at_ S) /\ clean_n j (an S) /\ if anormal S then (1 <= j)%nat /\ dec x j (ab S) (av S) (ah S) else j = 0%nat /\ av S 0%nat = x)) by (destruct est; reflexivity).
      apply PS in ST as (LO & CT & CN & ST).
      assert (L0 : lag_state (current est S0 j) x S0 j).
      { change (lower (ah S) /\ clean_t j (at_ S) /\ clean_n j (an S) /\ if anormal S then (1 <= j)%nat /\ dec x j (ab S) (av S) (ah S) else semi x j (ab S) (av S) (ah S) (current est S0 j)). split; [exact LO|split; [exact CT|split; [exact CN|]]]. destruct (anormal S); [exact ST|]. destruct ST as [-> <-]. cbn [semi]. unfold current. rewrite andb_false_r. reflexivity. }
      assert (NZ : est = true -> anormal S0 = false -> (0 < j)%nat -> lp (current est S0 j) (current est S0 j) <> 0).
      { intros _ AN J. change (anormal S = false) in AN. rewrite AN in ST. lia. }
      pose proof (loop_lag k est x XP (m - j) S0 j L0 NZ) as LP. assert (NN : forall k', scheme_lag est k <> NE k') by (destruct est; discriminate).
      destruct (loop op lp tol (scheme_lag est k) (m - j) S0 j) as [[[S1 j1] hb]|]; [|split; [assumption|apply (exhausted_more (j + (m - j))); [lia|exact LP]]]. destruct hb.
      - destruct LP as (P1 & P2 & P3). split; [lia|]. split; assumption.
      - destruct LP as (P1 & P2 & P3). destruct G1 as [G1|(G1 & G1' & G1'')].
        + assert (reached = false) as -> by (destruct reached; [destruct (R1 eq_refl); lia|reflexivity]). replace j1 with m by lia. destruct (P3 ltac:(lia)) as [AN LS]. replace j1 with m in LS by lia.
          pose proof (finish_ok x S1 m ltac:(lia) LS AN) as FI. destruct (finish fp S1 m) as [S2|]; [|split; [assumption|now apply (exhausted_more m)]]. destruct FI as (F1 & F2 & F3 & F4 & F5). apply RB; [|exact F5].
          assert (Q : lower (ah S2) /\ clean_t m (at_ S2) /\ clean_n m (an S2) /\ if anormal S2 then (1 <= m)%nat /\ dec x m (ab S2) (av S2) (ah S2) else m = 0%nat /\ av S2 0%nat = x) by (rewrite F1; repeat split; try assumption; try lia; try apply F3; try apply F4; apply F5).
          destruct est; exact Q.
        + rewrite (R2 G1 G1''). subst j m. rewrite (P2 ltac:(lia)). replace j1 with mmax by lia. rewrite (R2 eq_refl G1'') in *. destruct (anormal S) eqn:AN; [|lia]. destruct ST as [ST1 ST2]. apply RB; [|exact ST2].
          assert (Q : lower (ah S0) /\ clean_t mmax (at_ S0) /\ clean_n mmax (an S0) /\ if anormal S0 then (1 <= mmax)%nat /\ dec x mmax (ab S0) (av S0) (ah S0) else mmax = 0%nat /\ av S0 0%nat = x).
          { split; [exact LO|split; [exact CT|split; [exact CN|]]]. exact (conj ST1 ST2). }
          destruct est; exact Q. }
    destruct s as [k|k|k]; [|exact (LAG false k eq_refl)|exact (LAG true k eq_refl)].
    assert (F0 : full x S0 j) by exact ST. destruct (loop_ne k x (m - j) S0 j F0) as (S1 & h & hb & E & R). rewrite E. destruct hb.
    + destruct R as (P1 & P2 & P3). split; [lia|]. split; assumption.
    + destruct R as [-> R]. replace (j + (m - j))%nat with m in * by lia. apply RB; [exact R|apply R].
Qed.
Theorem substep_ok : forall s x mmax ms S, 0 < lp x x -> unit_lower (at_ S) -> strictly_upper (an S) -> ms <> [] -> growing mmax 0 ms ->
  outcome s x (largest ms) (substep op lp fp tol s mmax ms S x).
Proof.
  intros s x mmax ms S XP TU NU NE G. unfold substep, largest. apply passes_ok; auto; try discriminate; try (intros; congruence).
  - assert (C1 : clean_t 0 (at_ S)) by (split; [exact TU|intros; lia]). assert (C2 : clean_n 0 (an S)) by (split; [exact NU|intros; lia]). assert (C3 : lower (fun _ _ => 0)) by (intros i k I; reflexivity).
    destruct s as [k|k|k]; cbn [begin pass_start ah at_ an av anormal]; [|repeat split; auto; try apply C1; try apply C2|repeat split; auto; try apply C1; try apply C2].
    split; [|exact (conj C3 (conj C1 C2))]. cbn [ab av ah]. apply (close x 0 0 (av S) (fun _ _ => 0) x); auto; try (intros; lia); try reflexivity.
    pose proof (sqrt_lt_R0 (lp x x) XP). lra.
Qed.
End Steps.
