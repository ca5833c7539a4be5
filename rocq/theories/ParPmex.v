(** pmex and the multistep exponential integrators on two distributions of the same vectors. *)
From Coq Require Import Reals List ZArith Bool Arith Lia Lra Permutation FunctionalExtensionality.
From Coquelicot Require Import Hierarchy.
From Verif Require Import InnerSpec StepModel FgmresModel KiopsModel PmexModel ParSolveModel ParSolveSpec ParSolve.
Import ListNotations.
Local Open Scope R_scope.

Section Core.
Context {X : ModuleSpace R_Ring}.
Definition ocore (gv : nat -> nat -> R) (v1 : nat -> row (X := X)) (nrm : row (X := X) -> R) (tolerance : R) (H N I : nat -> nat -> R) (b : R) (j : nat) : kry (X := X) * bool :=
  let N1 := if Nat.ltb 1 j then set_col N (j - 1) (j - 1) (fun i => - gv i 0%nat) else N in
  let I1 := if Nat.ltb 1 j then (fun i k => if Nat.eqb i (j - 1) && Nat.ltb k (j - 1) then - rsum (j - 1) (fun q => gv q 0%nat * I q k) else I i k) else I in
  let sol i := gv i 1%nat + rsum j (fun k => rsum j (fun q => N1 i q * I1 q k) * gv k 1%nat) in
  let v := plus (v1 j) (opp (vsum j (fun i => scal (V := row) (sol i) (v1 i)))) in
  let sum_sqrd := rsum j (fun i => gv i 1%nat ^ 2) in
  let curr_nrm := if Rlt_dec (gv j 1%nat) sum_sqrd then nrm v else sqrt (gv j 1%nat - sum_sqrd) in
  if Rlt_dec curr_nrm tolerance then (Kry (set1 v1 j v) H N1 I1 b, true)
  else (Kry (set1 v1 j (scal (V := row) (/ curr_nrm) v)) (fun i k => if Nat.eqb k (j - 1) then if Nat.ltb i j then sol i else if Nat.eqb i j then curr_nrm else H i k else H i k) N1 I1 b, false).
End Core.
Lemma orth_core {X : ModuleSpace R_Ring} (dot : X -> X -> R) A u p ex tolerance K j : orth dot A u p ex tolerance K j =
  let v1 := set1 (vs K) j (augmented_product A u p ex (vs K (j - 1)%nat)) in
  ocore (fun i c => adot dot p (v1 i) (v1 (j - 1 + c)%nat)) v1 (fun v => sqrt (adot dot p v v)) tolerance (hm K) (nm K) (mi K) (beta K) j.
Proof. reflexivity. Qed.

Section Related.
Context {V W : ModuleSpace R_Ring}.
Variables (holds : list (list (V -> R))) (holds' : list (list (W -> R))) (rel : V -> W -> Prop).
Hypothesis D : redistribution holds holds' rel.
Let r0 := same_zero _ _ _ D. Let rp := same_plus _ _ _ D. Let rs := same_scal _ _ _ D.
Notation dot := (global_dotprod holds).
Notation dot' := (global_dotprod holds').
(** rows of V: the same part of the state, and the same augmented entries *)
Definition relr (x : row (X := V)) (y : row (X := W)) : Prop := rel (fst x) (fst y) /\ snd x = snd y.
Lemma relr_plus x x' y y' : relr x y -> relr x' y' -> relr (plus x x') (plus y y').
Proof. intros (H1 & H2) (H3 & H4). split; [now apply rp|]. change (co_plus (snd x) (snd x') = co_plus (snd y) (snd y')). now rewrite H2, H4. Qed.
Lemma relr_scal a x y : relr x y -> relr (scal (V := row) a x) (scal (V := row) a y).
Proof. intros (H1 & H2). split; [now apply rs|]. change (co_scal a (snd x) = co_scal a (snd y)). now rewrite H2. Qed.
Lemma relr_zero : relr zero zero.
Proof. split; [exact r0|reflexivity]. Qed.
Lemma relr_opp x y : relr x y -> relr (opp x) (opp y).
Proof. intros (H1 & H2). split; [now apply (opp_same holds holds' rel D)|]. change (co_opp (snd x) = co_opp (snd y)). now rewrite H2. Qed.
Lemma relr_vsum n f f' : (forall i, relr (f i) (f' i)) -> relr (vsum n f) (vsum n f').
Proof. intro H. induction n as [|n IH]; [exact relr_zero|]. cbn [vsum]. apply relr_plus; auto. Qed.
Lemma relr_set1 f f' i x y : (forall k, relr (f k) (f' k)) -> relr x y -> forall k, relr (set1 f i x k) (set1 f' i y k).
Proof. intros H Hx k. unfold set1. destruct (Nat.eqb k i); auto. Qed.

Variables (A : V -> V) (A' : W -> W) (u : nat -> V) (u' : nat -> W) (p : nat) (ex : Z) (expm : nat -> (nat -> nat -> R) -> nat -> nat -> R).
Hypothesis HA : same_map rel A A'.
Hypothesis Hu : forall i, rel (u i) (u' i).
Lemma adot_same x x' y y' : relr x y -> relr x' y' -> adot dot p x x' = adot dot' p y y'.
Proof. intros (H1 & H2) (H3 & H4). unfold adot. rewrite (dot_same holds holds' rel D _ _ _ _ H1 H3), H2, H4. reflexivity. Qed.
Lemma product_same x y : relr x y -> relr (augmented_product A u p ex x) (augmented_product A' u' p ex y).
Proof.
  intros (H1 & H2). split; cbn [augmented_product fst snd]; [|now rewrite H2]. rewrite H2. apply rp; [now apply HA|]. apply (vsum_same holds holds' rel D). intro i. now apply rs, rs.
Qed.
Definition relk (K : kry (X := V)) (K' : kry (X := W)) : Prop := (forall i, relr (vs K i) (vs K' i)) /\ hm K = hm K' /\ nm K = nm K' /\ mi K = mi K' /\ beta K = beta K'.
Lemma first_row_same K K' x y now : relk K K' -> rel x y -> relk (first_row dot p ex K x now) (first_row dot' p ex K' y now).
Proof.
  intros (H1 & H2 & H3 & H4 & H5) Hx. assert (S0 : relr (start_row p ex x now) (start_row p ex y now)) by (split; [exact Hx|reflexivity]).
  unfold first_row. cbv zeta. rewrite (adot_same _ _ _ _ S0 S0). repeat split; cbn [vs hm nm mi beta]; try assumption; apply relr_set1; auto; now apply relr_scal.
Qed.
Lemma ocore_same gv v1 v1' tolerance H N I b h : (forall k, relr (v1 k) (v1' k)) ->
  let (K1, e) := ocore gv v1 (fun v => sqrt (adot dot p v v)) tolerance H N I b h in let (K1', e') := ocore gv v1' (fun v => sqrt (adot dot' p v v)) tolerance H N I b h in relk K1 K1' /\ e = e'.
Proof.
  intro Hv. unfold ocore. cbv zeta.
  set (v := plus (v1 h) _). set (v' := plus (v1' h) _).
  assert (R1 : relr v v'). { apply relr_plus; [apply Hv|]. apply relr_opp, relr_vsum. intro i. apply relr_scal, Hv. }
  rewrite (adot_same _ _ _ _ R1 R1). destruct (Rlt_dec _ tolerance); (split; [|reflexivity]); repeat split; cbn [vs hm nm mi beta]; try (apply relr_set1; [exact Hv|]); try exact R1; now apply relr_scal.
Qed.
Lemma orth_same tolerance K K' h : relk K K' -> let (K1, b) := orth dot A u p ex tolerance K h in let (K1', b') := orth dot' A' u' p ex tolerance K' h in relk K1 K1' /\ b = b'.
Proof.
  intros (H1 & H2 & H3 & H4 & H5). rewrite !orth_core. cbv zeta.
  assert (Hv : forall k, relr (set1 (vs K) h (augmented_product A u p ex (vs K (h - 1)%nat)) k) (set1 (vs K') h (augmented_product A' u' p ex (vs K' (h - 1)%nat)) k)) by (apply relr_set1; [exact H1|]; now apply product_same).
  set (v1 := set1 (vs K) h _) in *. set (v1' := set1 (vs K') h _) in *.
  assert (E : (fun i c => adot dot p (v1 i) (v1 (h - 1 + c)%nat)) = (fun i c => adot dot' p (v1' i) (v1' (h - 1 + c)%nat))) by (apply functional_extensionality; intro i; apply functional_extensionality; intro c; now apply adot_same).
  rewrite E, H2, H3, H4, H5. apply ocore_same. exact Hv.
Qed.
Lemma orths_same tolerance rest K K' h : relk K K' -> let '(K1, j1, b) := orths dot A u p ex tolerance rest K h in let '(K1', j1', b') := orths dot' A' u' p ex tolerance rest K' h in relk K1 K1' /\ j1 = j1' /\ b = b'.
Proof.
  revert K K' h. induction rest as [|rest IH]; intros K K' h H; cbn [orths]; [repeat split; apply H|].
  pose proof (orth_same tolerance K K' (S h) H) as E. destruct (orth dot _ _ _ _ _ _ _) as [K1 b], (orth dot' _ _ _ _ _ _ _) as [K1' b']. destruct E as (E & ->). destruct b'; [repeat split; apply E|]. now apply IH.
Qed.
Definition relf (f : fstate (X := V)) (f' : fstate (X := W)) : Prop := ctl f = ctl f' /\ relk (kr f) (kr f') /\ forall i, rel (w f i) (w f' i).
Lemma basis_same a f f' : relf f f' -> let '(K1, j1, b) := basis_of dot A u p ex a f in let '(K1', j1', b') := basis_of dot' A' u' p ex a f' in relk K1 K1' /\ j1 = j1' /\ b = b'.
Proof.
  intros (H1 & H2 & H3). unfold basis_of. rewrite H1. cbv zeta. apply orths_same. destruct (_ =? 0)%Z; [|exact H2]. apply first_row_same; auto.
Qed.
Lemma combine_same K K' h F : relk K K' -> rel (combine_rows K h F) (combine_rows K' h F).
Proof. intros (H1 & H2 & H3 & H4 & H5). unfold combine_rows. rewrite H5. apply (vsum_same holds holds' rel D). intro i. apply rs, H1. Qed.
Definition relo {S T} (R : S -> T -> Prop) (o : option S) (o' : option T) : Prop := match o, o' with Some x, Some y => R x y | None, None => True | _, _ => False end.
Lemma pass_same a delta f f' : relf f f' -> relo relf (f_pass dot A u p ex expm a delta f) (f_pass dot' A' u' p ex expm a delta f').
Proof.
  intro H. pose proof (basis_same a f f' H) as E. destruct H as (H1 & H2 & H3). unfold f_pass. cbv zeta. rewrite <- H1.
  destruct (basis_of dot _ _ _ _ _ _) as [[K h] b], (basis_of dot' _ _ _ _ _ _) as [[K' h'] b']. destruct E as (HK & <- & <-). pose proof HK as (K1 & K2 & K3 & K4 & K5). rewrite <- K2, <- K5.
  destruct (p_pass _ _ _ _) as [s'|]; [|exact I].
  assert (HK' : forall x : bool, relk (Kry (vs K) (fun i k => if Nat.eqb i 0 && Nat.eqb k h then if x then 1 else 0 else hm K i k) (nm K) (mi K) (beta K)) (Kry (vs K') (fun i k => if Nat.eqb i 0 && Nat.eqb k h then if x then 1 else 0 else hm K i k) (nm K') (mi K') (beta K'))) by (intro x; repeat split; cbn [vs hm nm mi beta]; try assumption; apply K1).
  specialize (HK' (Nat.ltb (step (ctl f)) (step s'))). rewrite <- K5 in HK'. destruct (Nat.ltb _ _); (split; [reflexivity|]; split; [exact HK'|]); intro i; cbn [w]; [|apply H3].
  destruct (Nat.eqb i _); [now apply combine_same|]. destruct (_ && _); [now apply combine_same|apply H3].
Qed.
Lemma start_same a : relf (f_start u a) (f_start u' a).
Proof. split; [reflexivity|]. split; [|intros [|i]; [apply Hu|exact r0]]. repeat split; exact r0. Qed.
Lemma run_same a delta n f f' : relf f f' -> relo relf (f_run dot A u p ex expm a delta n f) (f_run dot' A' u' p ex expm a delta n f').
Proof.
  revert f f'. induction n as [|n IH]; intros f f' H; [exact H|]. cbn [f_run]. rewrite (proj1 H). destruct (Rlt_dec _ _); [|exact H].
  pose proof (pass_same a delta f f' H) as E. destruct (f_pass dot _ _ _ _ _ _ _ _), (f_pass dot' _ _ _ _ _ _ _ _); cbn in E; try contradiction; [now apply IH|exact I].
Qed.
Lemma norm_u_same : norm_u holds u p = norm_u holds' u' p.
Proof.
  unfold norm_u. f_equal. apply map_ext. intro i.
  assert (C : forall (U : ModuleSpace R_Ring) (hs : list (list (U -> R))) (x : U), total (map (fun es => total (map (fun e => Rabs (e x)) es)) hs) = total (map (fun e => Rabs (e x)) (concat hs))).
  { intros U hs x. induction hs as [|es hs IH]; [reflexivity|]. cbn [map concat]. rewrite map_app, total_app, <- IH. reflexivity. }
  rewrite !C. pose proof (same_entries _ _ _ D _ _ _ _ (Hu i) (Hu i)) as P. apply (Permutation_map (fun q : R * R => Rabs (fst q))) in P. rewrite !map_map in P. exact (total_perm _ _ P).
Qed.
End Related.

Lemma pmex_same {V W : ModuleSpace R_Ring} (holds : list (list (V -> R))) (holds' : list (list (W -> R))) rel expm a delta n A A' u u' p : redistribution holds holds' rel -> same_map rel A A' -> (forall i, rel (u i) (u' i)) ->
  same_pmex rel (pmex_dist holds expm a delta n A u p) (pmex_dist holds' expm a delta n A' u' p).
Proof.
  intros D HA Hu. unfold pmex_dist. rewrite <- (norm_u_same holds holds' rel D u u' p Hu).
  pose proof (run_same holds holds' rel D A A' u u' p (scale_ex (norm_u holds u p)) expm HA Hu a delta n _ _ (start_same holds holds' rel D u u' Hu a)) as E.
  destruct (f_run _ _ _ _ _ _ _ _ _ _), (f_run _ _ _ _ _ _ _ _ _ _); cbn in E |- *; try contradiction; [|exact I]. destruct E as (E1 & _ & E2). split; assumption.
Qed.
Lemma phi_same {V W : ModuleSpace R_Ring} (holds : list (list (V -> R))) (holds' : list (list (W -> R))) rel expm tol n f f' size dt q q' g g' vec vec' : redistribution holds holds' rel -> same_map rel f f' -> rel q q' -> rel g g' -> Forall2 rel vec vec' ->
  let (s, x) := pmex_phi holds expm tol n f size dt q g vec in let (s', x') := pmex_phi holds' expm tol n f' size dt q' g' vec' in s = s' /\ rel x x'.
Proof.
  intros D Hf Hq Hg Hv. unfold pmex_phi. split; [reflexivity|].
  assert (L : length vec = length vec') by (clear - Hv; induction Hv; cbn; congruence). rewrite L.
  assert (Hn : forall i, rel (nth i vec zero) (nth i vec' zero)). { clear - Hv D. induction Hv as [|x y l l' H H' IH]; intros [|i]; cbn; try exact (same_zero _ _ _ D); auto. }
  assert (HA : same_map rel (fun v => matvec_fd v dt q g f) (fun v => matvec_fd v dt q' g' f')).
  { intros v v' H. unfold matvec_fd. apply (same_scal _ _ _ D), (same_scal _ _ _ D), (minus_same holds holds' rel D); [|exact Hg]. apply Hf, (same_plus _ _ _ D); [exact Hq|]. now apply (same_scal _ _ _ D). }
  pose proof (pmex_same holds holds' rel expm (Args [1] tol 10 10 64) 1.2 n _ _ _ _ (length vec' - 1) D HA Hn) as E.
  destruct (pmex_dist holds _ _ _ _ _ _ _), (pmex_dist holds' _ _ _ _ _ _ _); cbn in E; try contradiction; [apply E|exact (same_zero _ _ _ D)].
Qed.
