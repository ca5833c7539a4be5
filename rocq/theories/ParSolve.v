(** fgmres on two distributions of the same vectors. *)
From Coq Require Import Reals List ZArith Bool Arith Lia Lra Permutation FunctionalExtensionality.
From Coquelicot Require Import Hierarchy.
From Verif Require Import InnerSpec StepModel FgmresModel ParSolveModel ParSolveSpec.
Import ListNotations.
Local Open Scope R_scope.

Lemma total_perm l l' : Permutation l l' -> total l = total l'.
Proof. unfold total. induction 1; cbn [fold_right] in *; lra. Qed.
Lemma total_app l l' : total (l ++ l') = total l + total l'.
Proof. unfold total. induction l as [|a l IH]; cbn [fold_right app] in *; [|rewrite IH]; lra. Qed.
Lemma dot_concat {V : ModuleSpace R_Ring} (holds : list (list (V -> R))) u v : global_dotprod holds u v = total (map (fun e => e u * e v) (concat holds)).
Proof. unfold global_dotprod. induction holds as [|es holds IH]; [reflexivity|]. cbn [map concat]. rewrite map_app, total_app, <- IH. reflexivity. Qed.

Section Core.
Context {X : ModuleSpace R_Ring}.
Let axpy (x : X) (a : R) (y : X) : X := plus x (scal (V := X) a y).
Definition core (tmp : nat -> nat -> R) (q : nat -> X) (mr mt mk : nat -> nat -> R) (j : nat) : R * basis (V := X) :=
  let small i := tmp i 0%nat in
  let R1 := set_col mr (j - 1) (j - 1) (fun i => tmp i 1%nat) in
  let norm2 := tmp (j - 2)%nat 0%nat - rsum (j - 2) (fun i => small i * small i) in
  let n := sqrt norm2 in
  let last := (R1 (j - 2)%nat (j - 1)%nat - rsum (j - 2) (fun i => small i * R1 i (j - 1)%nat)) / n in
  let R2 := fun i l => if Nat.eqb i (j - 2) && Nat.eqb l (j - 2) then n else if Nat.eqb i (j - 2) && Nat.eqb l (j - 1) then last else R1 i l in
  let T1 := set_col mt (j - 2) (j - 2) (fun i => small i / n) in
  let '(R3, K1, q1) :=
    if Nat.ltb 2 j then
      let r3 := lower_solve T1 small (j - 2) in
      let R3 := set_col R2 (j - 2) (j - 2) (fun i => mk i (j - 3)%nat + nth i r3 0) in
      (R3,
       set_col mk (j - 1) (j - 2) (fun i => (R3 i (j - 1)%nat - rsum (j - 2) (fun l => R3 i (l + 1)%nat * nth l r3 0)) / n),
       set1 (set1 q (j - 2) (axpy (q (j - 2)%nat) (-1) (vsum (j - 2) (fun i => scal (V := X) (small i) (q i)))))
            (j - 1) (axpy (q (j - 1)%nat) (-1) (vsum (j - 2) (fun i => scal (V := X) (R3 i (j - 1)%nat) (q i)))))
    else (R2, set_col mk (j - 1) (j - 2) (fun i => R2 i (j - 1)%nat / n), q) in
  let q2 := set1 q1 (j - 2) (scal (V := X) (/ n) (q1 (j - 2)%nat)) in
  let q3 := set1 q2 (j - 1) (axpy (q2 (j - 1)%nat) (- R3 (j - 2)%nat (j - 1)%nat) (q2 (j - 2)%nat)) in
  (n, Basis (set1 q3 (j - 1) (scal (V := X) (/ n) (q3 (j - 1)%nat))) R3 T1 K1).
End Core.
Lemma ortho_core {X : ModuleSpace R_Ring} (dot : X -> X -> R) B j : ortho dot B j = core (fun i c => dot (rows B i) (rows B (j - 2 + c)%nat)) (rows B) (mr B) (mt B) (mk B) j.
Proof. reflexivity. Qed.

Section Related.
Context {V W : ModuleSpace R_Ring}.
Variables (holds : list (list (V -> R))) (holds' : list (list (W -> R))) (rel : V -> W -> Prop).
Hypothesis D : redistribution holds holds' rel.
Let r0 := same_zero _ _ _ D. Let rp := same_plus _ _ _ D. Let rs := same_scal _ _ _ D.
Notation dot := (global_dotprod holds).
Notation dot' := (global_dotprod holds').
Lemma dot_same u u' w w' : rel u w -> rel u' w' -> dot u u' = dot' w w'.
Proof.
  intros H H'. rewrite !dot_concat. pose proof (same_entries _ _ _ D _ _ _ _ H H') as P.
  apply (Permutation_map (fun p : R * R => fst p * snd p)) in P. rewrite !map_map in P. exact (total_perm _ _ P).
Qed.
Lemma norm_same u w : rel u w -> norm dot u = norm dot' w.
Proof. intro H. unfold norm. now rewrite (dot_same _ _ _ _ H H). Qed.
Lemma opp_same u w : rel u w -> rel (opp u) (opp w).
Proof. intro H. pose proof (rs (opp one) _ _ H) as E. change (rel (scal (K := R_Ring) (opp one) u) (scal (K := R_Ring) (opp one) w)) in E. rewrite !scal_opp_one in E. exact E. Qed.
Lemma minus_same u u' w w' : rel u w -> rel u' w' -> rel (minus u u') (minus w w').
Proof. intros H H'. apply rp; [exact H|]. now apply opp_same. Qed.
Lemma vsum_same n f f' : (forall i, rel (f i) (f' i)) -> rel (vsum n f) (vsum n f').
Proof. intro H. induction n; [exact r0|]. apply rp; auto. Qed.
Lemma set1_same (f : nat -> V) (f' : nat -> W) i v v' : (forall l, rel (f l) (f' l)) -> rel v v' -> forall l, rel (set1 f i v l) (set1 f' i v' l).
Proof. intros H Hv l. unfold set1. destruct (Nat.eqb l i); auto. Qed.

Definition same_basis (B : basis (V := V)) (B' : basis (V := W)) : Prop := (forall i, rel (rows B i) (rows B' i)) /\ mr B = mr B' /\ mt B = mt B' /\ mk B = mk B'.
Lemma ortho_same B B' j : same_basis B B' -> fst (ortho dot B j) = fst (ortho dot' B' j) /\ same_basis (snd (ortho dot B j)) (snd (ortho dot' B' j)).
Proof.
  intros (Hq & Er & Et & Ek). destruct B as [q mr mt mk], B' as [q' mr' mt' mk']. cbn [rows FgmresModel.mr FgmresModel.mt FgmresModel.mk] in *. subst mr' mt' mk'.
  assert (E : (fun i c => dot (q i) (q (j - 2 + c)%nat)) = (fun i c => dot' (q' i) (q' (j - 2 + c)%nat))).
  { apply functional_extensionality; intro i. apply functional_extensionality; intro c. apply dot_same; auto. }
  rewrite !ortho_core. cbn [rows FgmresModel.mr FgmresModel.mt FgmresModel.mk]. rewrite E. unfold core.
  destruct (Nat.ltb 2 j); cbn [fst snd]; (split; [reflexivity|]); (split; [|split; [|split]]; [|reflexivity..]); cbn [rows]; repeat (apply set1_same || apply rp || apply rs || apply vsum_same || apply Hq || intro).
Qed.
Variables (A M : V -> V) (A' M' : W -> W).
Hypothesis HA : same_map rel A A'.
Hypothesis HM : same_map rel M M'.
Definition same_cycle (C : cycle (V := V)) (C' : cycle (V := W)) : Prop :=
  same_basis (bas C) (bas C') /\ (forall i, rel (zs C i) (zs C' i)) /\ hs C = hs C' /\ rots C = rots C' /\ g C = g C' /\ v_norm C = v_norm C'.
Lemma first_same r r' n : rel r r' -> same_cycle (first_cycle dot A M r n) (first_cycle dot' A' M' r' n).
Proof.
  intro H. unfold first_cycle. cbv zeta.
  match goal with |- same_cycle (let (_, _) := ortho _ ?B ?j in _) (let (_, _) := ortho _ ?B' _ in _) =>
    assert (S : same_basis B B') end.
  { split; [|split; [|split]]; try reflexivity. cbn [rows]. repeat (apply set1_same || apply HA || apply HM || apply rs || exact r0 || exact H || intro). }
  pose proof (ortho_same _ _ 2 S) as (E1 & E2).
  match goal with |- same_cycle (let (_, _) := ?o in _) (let (_, _) := ?o' in _) => destruct o as [m B], o' as [m' B'] end.
  cbn [fst snd] in *. subst m'. split; [exact E2|]. split; [|repeat split]. cbn [zs]. apply set1_same; [intro; exact r0|apply HM, rs, H].
Qed.
Definition opt_same {X Y} (P : X -> Y -> Prop) (o : option X) (o' : option Y) : Prop := match o, o' with Some a, Some a' => P a a' | None, None => True | _, _ => False end.
Lemma inner_step_same C C' i : same_cycle C C' -> opt_same same_cycle (inner_step dot A M C i) (inner_step dot' A' M' C' i).
Proof.
  intros ((Hq & Er & Et & Ek) & Hz & Eh & Ero & Eg & Ev). unfold inner_step. rewrite Ev. destruct (Req_EM_T (v_norm C') 0); [exact I|]. cbv zeta.
  assert (Z : rel (M (rows (bas C) (S i))) (M' (rows (bas C') (S i)))) by (apply HM, Hq).
  match goal with |- opt_same _ (let (_, _) := ortho _ ?B ?j in _) (let (_, _) := ortho _ ?B' _ in _) => assert (S : same_basis B B') end.
  { split; [|split; [|split]]; cbn [FgmresModel.mr FgmresModel.mt FgmresModel.mk]; auto. cbn [rows]. apply set1_same; [exact Hq|]. apply rs, HA, rs, Z. }
  pose proof (ortho_same _ _ (i + 3) S) as (E1 & E2).
  match goal with |- opt_same _ (let (_, _) := ?o in _) (let (_, _) := ?o' in _) => destruct o as [m B], o' as [m' B'] end.
  cbn [fst snd] in *. subst m'. destruct E2 as (Hq2 & Er2 & Et2 & Ek2). rewrite Er2, Ero.
  destruct (apply_givens _ _ _ _) as [h|]; [|exact I]. 
  assert (Z2 : forall l, rel (set1 (zs C) (Datatypes.S i) (scal (V := V) (/ m) (M (rows (bas C) (Datatypes.S i)))) l) (set1 (zs C') (Datatypes.S i) (scal (V := W) (/ m) (M' (rows (bas C') (Datatypes.S i)))) l)) by (apply set1_same; [exact Hz|apply rs, Z]).
  destruct (Req_EM_T _ _).
  - cbn. repeat split; cbn [bas zs hs rots g v_norm]; auto. now rewrite Eh.
  - destruct (rotg _ _) as ((c & s) & ?). cbn. repeat split; cbn [bas zs hs rots g v_norm]; auto. + now rewrite Eh. + now rewrite Eg.
Qed.
Lemma inner_loop_same tol rest i C C' : same_cycle C C' -> opt_same (fun a a' => same_cycle (fst a) (fst a') /\ snd a = snd a') (inner_loop dot A M tol rest i C) (inner_loop dot' A' M' tol rest i C').
Proof.
  revert i C C'. induction rest as [|rest IH]; intros i C C' H; [cbn; auto|]. cbn [inner_loop].
  pose proof (inner_step_same C C' i H) as S. destruct (inner_step dot A M C i) as [C1|], (inner_step dot' A' M' C' i) as [C1'|]; cbn in S; try contradiction; [|exact I].
  destruct rest as [|rest]; [cbn; auto|]. destruct S as (S1 & S2 & S3 & S4 & S5 & S6) eqn:ES. rewrite S5. destruct (Rlt_dec _ _); [cbn; split; [exact S|reflexivity]|]. apply IH. exact S.
Qed.

(** ** Stagnation *)
Lemma in_pairs (X : ModuleSpace R_Ring) (hs : list (list (X -> R))) (P : R -> R -> Prop) (u x : X) : (forall es, In es hs -> forall e, In e es -> P (e u) (e x)) <-> forall p, In p (map (fun e => (e u, e x)) (concat hs)) -> P (fst p) (snd p).
Proof.
  split.
  - intros H p Hp. apply in_map_iff in Hp. destruct Hp as (e & <- & He). apply in_concat in He. destruct He as (es & H1 & H2). cbn. eauto.
  - intros H es H1 e H2. apply (H (e u, e x)). apply in_map_iff. exists e. split; [reflexivity|]. apply in_concat. eauto.
Qed.
Lemma entries_same (P : R -> R -> Prop) u x u' x' : rel u u' -> rel x x' -> (forall es, In es holds -> forall e, In e es -> P (e u) (e x)) -> (forall es, In es holds' -> forall e, In e es -> P (e u') (e x')).
Proof.
  intros Hu Hx H. rewrite in_pairs in *. intros p Hp. apply H. apply Permutation_in with (2 := Hp). apply Permutation_sym. exact (same_entries _ _ _ D _ _ _ _ Hu Hx).
Qed.

Lemma all_some u x u' x' : holds <> [] -> rel u u' -> rel x x' -> forallb (fun s : bool => s) (map (fun es => stagnated es u x) holds) = true -> existsb (fun s : bool => s) (map (fun es => stagnated es u' x') holds') = true.
Proof.
  intros N Hu Hx H. rewrite forallb_forall in H.
  assert (S : forall es, In es holds -> stagnated es u x = true) by (intros es He; apply H; apply in_map_iff; eauto).
  assert (P : forall es, In es holds -> forall e, In e es -> is_zero (e x) || small (e u / e x) = true).
  { intros es He e Hin. specialize (S es He). apply andb_prop in S. destruct S as (_ & S). rewrite forallb_forall in S. auto. }
  pose proof (entries_same (fun a c => is_zero c || small (a / c) = true) u x u' x' Hu Hx P) as P'.
  destruct (existsb (fun s : bool => s) (map (fun es => stagnated es u' x') holds')) eqn:E; [reflexivity|].
  assert (Z' : forall es, In es holds' -> forall e, In e es -> is_zero (e x') = true).
  { intros es He e Hin. destruct (is_zero (e x')) eqn:Z; [reflexivity|]. exfalso.
    assert (T : stagnated es u' x' = true).
    { apply andb_true_intro. split; [apply existsb_exists; exists e; rewrite Z; auto|]. apply forallb_forall. eauto. }
    rewrite <- not_true_iff_false in E. apply E. apply existsb_exists. exists true. split; [|reflexivity]. apply in_map_iff. eauto. }
  exfalso. assert (X : exists es0, In es0 holds). { clear - N. destruct holds as [|es0 rest]; [congruence|]. exists es0. left. reflexivity. }
  destruct X as (es0 & I0). specialize (S es0 I0). apply andb_prop in S. destruct S as (S & _). apply existsb_exists in S. destruct S as (e & He & Hz).
  apply negb_true_iff in Hz.
  assert (Zall : forall es, In es holds -> forall e, In e es -> is_zero (e x) = true).
  { apply (proj2 (in_pairs V holds (fun _ c => is_zero c = true) u x)). intros p Hp. apply (proj1 (in_pairs W holds' (fun _ c => is_zero c = true) u' x') (fun es He e Hin => Z' es He e Hin)). exact (Permutation_in _ (same_entries _ _ _ D _ _ _ _ Hu Hx) Hp). }
  rewrite (Zall es0 I0 e He) in Hz. discriminate.
Qed.
End Related.

Lemma other_way {V W : ModuleSpace R_Ring} (holds : list (list (V -> R))) (holds' : list (list (W -> R))) rel : redistribution holds holds' rel -> redistribution holds' holds (fun w u => rel u w).
Proof. intros [H0 Hp Hs He]. split; auto. intros u u' w w' H H'. apply Permutation_sym. auto. Qed.

Section Loop.
Context {V W : ModuleSpace R_Ring}.
Variables (holds : list (list (V -> R))) (holds' : list (list (W -> R))) (rel : V -> W -> Prop).
Hypothesis D : redistribution holds holds' rel.
Hypothesis N : holds <> [].
Hypothesis N' : holds' <> [].
Variables (A M : V -> V) (A' M' : W -> W).
Hypothesis HA : same_map rel A A'.
Hypothesis HM : same_map rel M M'.
Lemma dist_loop_same b b' tol restart rest x x' r r' n it : rel b b' -> rel x x' -> rel r r' -> same_outcome rel (dist_loop holds A M b tol restart rest x r n it) (dist_loop holds' A' M' b' tol restart rest x' r' n it).
Proof.
  intro Hb. revert x x' r r' n it. induction rest as [|rest IH]; intros x x' r r' n it Hx Hr.
  - cbn. repeat split; auto. exact (norm_same holds holds' rel D _ _ Hb).
  - cbn [dist_loop]. destruct (Req_EM_T n 0); [exact I|].
    pose proof (inner_loop_same holds holds' rel D A M A' M' HA HM tol restart 0 _ _ (first_same holds holds' rel D A M A' M' HA HM r r' n Hr)) as E.
    destruct (inner_loop (global_dotprod holds) A M tol restart 0 _) as [[C k]|], (inner_loop (global_dotprod holds') A' M' tol restart 0 _) as [[C' k']|]; cbn in E; try contradiction; [|exact I].
    destruct E as ((_ & Hz & Eh & _ & Eg & _) & ->). rewrite Eh, Eg. destruct (upper_solve _ _) as [y|]; [|exact I]. cbv zeta.
    set (u := vsum k' (fun i => scal (V := V) (nth i y 0) (zs C i))). set (u' := vsum k' (fun i => scal (V := W) (nth i y 0) (zs C' i))).
    assert (Hu : rel u u') by (apply (vsum_same holds holds' rel D); intro i; apply (same_scal _ _ _ D), Hz).
    assert (Hx1 : rel (plus x u) (plus x' u')) by (apply (same_plus _ _ _ D); assumption).
    assert (Hr1 : rel (plus b (opp (A (plus x u)))) (plus b' (opp (A' (plus x' u'))))) by (apply (same_plus _ _ _ D); [assumption|]; apply (opp_same holds holds' rel D), HA, Hx1).
    rewrite (norm_same holds holds' rel D _ _ Hr1), (norm_same holds holds' rel D _ _ Hb).
    pose proof (all_some holds holds' rel D u (plus x u) u' (plus x' u') N Hu Hx1) as T1.
    pose proof (all_some holds' holds (fun w v => rel v w) (other_way _ _ _ D) u' (plus x' u') u (plus x u) N' Hu Hx1) as T2.
    set (st := map (fun es => stagnated es u (plus x u)) holds) in *. set (st' := map (fun es => stagnated es u' (plus x' u')) holds') in *.
    destruct (forallb _ st) eqn:F; destruct (forallb _ st') eqn:F'; try (cbn; repeat split; auto; fail).
    + (* all stopped, not all *) specialize (T1 eq_refl). rewrite T1. destruct (Rlt_dec _ _); [cbn; repeat split; auto|]. destruct rest as [|rest]; cbn [Nat.ltb Nat.leb andb]; [|exact I]. cbn. repeat split; auto.
    + specialize (T2 eq_refl). rewrite T2. destruct (Rlt_dec _ _); [cbn; repeat split; auto|]. destruct rest as [|rest]; cbn [Nat.ltb Nat.leb andb]; [|exact I]. cbn. repeat split; auto. exact (norm_same holds holds' rel D _ _ Hb).
    + destruct (Rlt_dec _ _); [cbn; repeat split; auto|].
      destruct (existsb _ st), (existsb _ st'); destruct rest as [|rest]; cbn [Nat.ltb Nat.leb andb]; try exact I; try (apply IH; assumption).
      all: destruct (dist_loop holds A M b tol restart (S rest) _ _ _ _); exact I.
Qed.
Theorem dist_same b b' x0 x0' tol restart maxiter hegedus : (forall es, In es holds -> (restart < length es)%nat) -> (forall es, In es holds' -> (restart < length es)%nat) ->
  rel b b' -> match x0, x0' with None, None => True | Some v, Some v' => rel v v' | _, _ => False end ->
  same_outcome rel (dist_fgmres holds A M b x0 tol restart maxiter hegedus) (dist_fgmres holds' A' M' b' x0' tol restart maxiter hegedus).
Proof.
  intros L L' Hb H0. unfold dist_fgmres.
  assert (E : existsb (fun es => (length es <=? restart)%nat) holds = false). { apply not_true_iff_false. intro E. apply existsb_exists in E. destruct E as (es & H1 & H2). apply Nat.leb_le in H2. specialize (L es H1). lia. }
  assert (E' : existsb (fun es => (length es <=? restart)%nat) holds' = false). { apply not_true_iff_false. intro E1. apply existsb_exists in E1. destruct E1 as (es & H1 & H2). apply Nat.leb_le in H2. specialize (L' es H1). lia. }
  rewrite E, E', (norm_same holds holds' rel D _ _ Hb). destruct (Req_EM_T _ 0); [cbn; repeat split; exact (same_zero _ _ _ D)|].
  set (s := match x0 with None => zero | Some v => v end). set (s' := match x0' with None => zero | Some v => v end).
  assert (Hs : rel s s') by (destruct x0, x0'; try contradiction; [exact H0|exact (same_zero _ _ _ D)]).
  assert (G : forall v v', rel v v' -> same_outcome rel (dist_loop holds A M b (tol * norm (global_dotprod holds') b') restart maxiter v (plus b (opp (A v))) (norm (global_dotprod holds) (plus b (opp (A v)))) 0)
     (dist_loop holds' A' M' b' (tol * norm (global_dotprod holds') b') restart maxiter v' (plus b' (opp (A' v'))) (norm (global_dotprod holds') (plus b' (opp (A' v')))) 0)).
  { intros v v' Hv. assert (Hr : rel (plus b (opp (A v))) (plus b' (opp (A' v')))) by (apply (same_plus _ _ _ D); [assumption|]; apply (opp_same holds holds' rel D), HA, Hv). rewrite (norm_same holds holds' rel D _ _ Hr). apply dist_loop_same; assumption. }
  destruct hegedus; [|apply G, Hs]. cbv zeta.
  rewrite (dot_same holds holds' rel D (A s) (A s) (A' s') (A' s')) by (apply HA, Hs). destruct (Req_EM_T _ 0); [apply G, Hs|].
  destruct x0 as [v|], x0' as [v'|]; try contradiction; [|exact I]. rewrite (dot_same holds holds' rel D b (A s) b' (A' s')) by (try apply HA; assumption). apply G. apply (same_scal _ _ _ D), H0.
Qed.
End Loop.
