(** The entries of the states of the shallow water and of the Euler equations, on tiles and on whole panels. *)
From Coq Require Import Reals List ZArith Bool Arith Lia Permutation.
From Coquelicot Require Import Hierarchy.
From Verif Require Import TopologyModel TopologySpec TopologyProofs SwSpec FieldSpace FieldSpace3 InnerSpec StepModel SwCutSpec EulModel EulCutSpec ParSolveModel ParSolveSpec ParSolve.
Import ListNotations.
Local Open Scope nat_scope.

Section Loops.
Context {A : Type}.
Lemma loop_perm n (f g : nat -> list A) : (forall i, i < n -> Permutation (f i) (g i)) -> Permutation (loop n f) (loop n g).
Proof.
  unfold loop. intro H. assert (E : forall i, In i (seq 0 n) -> Permutation (f i) (g i)) by (intros i Hi; apply in_seq in Hi; apply H; lia). clear H.
  induction (seq 0 n) as [|a l IH]; [constructor|]. cbn [flat_map]. apply Permutation_app; [apply E; left; reflexivity|]. apply IH. intros i Hi. apply E. right. exact Hi.
Qed.
Lemma loop_swap m n (f : nat -> nat -> list A) : Permutation (loop m (fun a => loop n (f a))) (loop n (fun b => loop m (fun a => f a b))).
Proof.
  unfold loop. induction (seq 0 m) as [|a l IH]; cbn [flat_map].
  - induction (seq 0 n) as [|b l' IH']; [constructor|]. cbn [flat_map]. exact IH'.
  - eapply Permutation_trans; [apply Permutation_app; [apply Permutation_refl|exact IH]|]. clear IH.
    induction (seq 0 n) as [|b l' IH']; [constructor|]. cbn [flat_map].
    rewrite <- !app_assoc. apply Permutation_app_head.
    eapply Permutation_trans; [|apply Permutation_app_head, IH'].
    rewrite !app_assoc. apply Permutation_app_tail, Permutation_app_comm.
Qed.
Lemma flat_shift c k s (f : nat -> list A) : flat_map f (seq (c + s) k) = flat_map (fun b => f (c + b)) (seq s k).
Proof. revert s. induction k as [|k IH]; intro s; [reflexivity|]. cbn [seq flat_map]. rewrite <- Nat.add_succ_r, IH. reflexivity. Qed.
Lemma loop_split m k (f : nat -> list A) : loop (m * k) f = loop m (fun a => loop k (fun b => f (a * k + b))).
Proof.
  unfold loop. induction m as [|m IH]; [reflexivity|]. rewrite Nat.mul_succ_l, seq_app, flat_map_app, IH, seq_S, flat_map_app. cbn [flat_map Nat.add]. rewrite app_nil_r. f_equal.
  rewrite <- (Nat.add_0_r (m * k)) at 1. apply flat_shift.
Qed.
Lemma loop_out m n p (f : nat -> nat -> nat -> list A) : Permutation (loop m (fun a => loop n (fun b => loop p (f a b)))) (loop p (fun c => loop m (fun a => loop n (fun b => f a b c)))).
Proof. eapply Permutation_trans; [|apply (loop_swap m p)]. apply loop_perm. intros a _. apply loop_swap. Qed.
Lemma concat_loop n (f : nat -> list A) : concat (map f (seq 0 n)) = loop n f.
Proof. unfold loop. symmetry. apply flat_map_concat_map. Qed.
End Loops.
Lemma map_loop {A B} (g : A -> B) n f : map g (loop n f) = loop n (fun i => map g (f i)).
Proof. unfold loop. rewrite !flat_map_concat_map, concat_map, map_map. reflexivity. Qed.
Lemma loop_length {A} n (f : nat -> list A) m : (forall i, i < n -> length (f i) = m) -> length (loop n f) = n * m.
Proof.
  unfold loop. intro H. assert (E : forall i, In i (seq 0 n) -> length (f i) = m) by (intros i Hi; apply in_seq in Hi; apply H; lia). rewrite <- (seq_length n 0) at 2. clear H.
  induction (seq 0 n) as [|a l IH]; [reflexivity|]. cbn [flat_map length]. rewrite app_length, IH, E by (intros; try apply E; cbn; auto). cbn. lia.
Qed.

(** the tiles of a panel, loop by loop *)
Lemma tiles_perm {A} k N (f g : nat -> nat -> nat -> nat -> nat -> list A) (m n : nat) :
  (forall c a b v l i j, c < 6 -> a < k -> b < k -> v < m -> l < n -> i < N -> j < N -> Permutation (f ((c * k + a) * k + b) v l i j) (g c v l (a * N + i) (b * N + j))) ->
  Permutation (loop (6 * k * k) (fun r => loop m (fun v => loop n (fun l => loop N (fun i => loop N (fun j => f r v l i j)))))) (loop (6 * 1 * 1) (fun c => loop m (fun v => loop n (fun l => loop (k * N) (fun i => loop (k * N) (fun j => g c v l i j)))))).
Proof.
  intro H. rewrite (loop_split (6 * k) k), (loop_split 6 k). change (6 * 1 * 1) with 6. apply loop_perm. intros c Hc.
  eapply Permutation_trans; [apply loop_out|]. apply loop_perm. intros v Hv. eapply Permutation_trans; [apply loop_out|]. apply loop_perm. intros l Hl. rewrite (loop_split k N). apply loop_perm. intros a Ha.
  eapply Permutation_trans; [apply loop_swap|]. apply loop_perm. intros i Hi. rewrite (loop_split k N). apply loop_perm. intros b Hb. apply loop_perm. intros j Hj. auto.
Qed.
Lemma loop_one {A} (f : nat -> list A) : loop 1 f = f 0.
Proof. unfold loop. cbn [seq flat_map]. apply app_nil_r. Qed.

Lemma cut_at k N (F : Z -> nat -> nat -> nat -> R) c a b i j p : c < 6 -> a < k -> b < k -> cut k N F (Z.of_nat ((c * k + a) * k + b)) i j p = F (Z.of_nat c) (a * N + i) (b * N + j) p.
Proof.
  intros Hc Ha Hb. unfold cut. pose (t := Tile (Z.of_nat c) (Z.of_nat a) (Z.of_nat b)).
  assert (Ht : tile_ok (Z.of_nat k) t) by (unfold tile_ok, t; cbn [panel row col]; lia).
  assert (E : Z.of_nat ((c * k + a) * k + b) = rank_of_tile (Z.of_nat k) t) by (unfold rank_of_tile, t; cbn [panel row col]; lia).
  rewrite E, (tile_of_rank_of (Z.of_nat k) t) by (assumption || lia). cbn [t panel row col]. now rewrite !Nat2Z.id.
Qed.
Lemma rank_at k c a b : c < 6 -> a < k -> b < k -> (0 <= Z.of_nat ((c * k + a) * k + b) < 6 * Z.of_nat k * Z.of_nat k)%Z.
Proof. intros. assert ((c * k + a) * k + b < 6 * k * k) by nia. lia. Qed.

Lemma eul_redistribution k N NZ ns : redistribution (eul_entries (6 * k * k) N NZ ns) (eul_entries (6 * 1 * 1) (k * N) NZ ns) (same_state3 k N NZ ns).
Proof.
  split.
  - intros v Hv r l i j p *. reflexivity.
  - intros u u' w w' H H' v Hv r l i j p Hr Hl Hi Hj Hp. unfold plus. cbn. unfold st3_plus. rewrite (H v Hv r l i j p Hr Hl Hi Hj Hp), (H' v Hv r l i j p Hr Hl Hi Hj Hp). reflexivity.
  - intros a u w H v Hv r l i j p Hr Hl Hi Hj Hp. unfold scal. cbn. unfold st3_scal. rewrite (H v Hv r l i j p Hr Hl Hi Hj Hp). reflexivity.
  - intros u u' w w' H H'. unfold eul_entries. rewrite !concat_loop, !map_loop.
    assert (E : forall ranks N u u', loop ranks (fun r => map (fun e : states3 -> R => (e u, e u')) (loop 5 (fun v => loop NZ (fun l => loop N (fun i => loop N (fun j => loop (ns ^ 3) (fun p => [fun q : states3 => q (Z.of_nat r) v l i j p]))))))) =
      loop ranks (fun r => loop 5 (fun v => loop NZ (fun l => loop N (fun i => loop N (fun j => loop (ns ^ 3) (fun p => [(u (Z.of_nat r) v l i j p, u' (Z.of_nat r) v l i j p)]))))))).
    { intros. unfold loop. apply flat_map_ext. intro r. change (map (fun e : states3 -> R => (e u0, e u'0)) (loop 5 (fun v => loop NZ (fun l => loop N0 (fun i => loop N0 (fun j => loop (ns ^ 3) (fun p => [fun q : states3 => q (Z.of_nat r) v l i j p])))))) = loop 5 (fun v => loop NZ (fun l => loop N0 (fun i => loop N0 (fun j => loop (ns ^ 3) (fun p => [(u0 (Z.of_nat r) v l i j p, u'0 (Z.of_nat r) v l i j p)])))))).
      rewrite map_loop. apply flat_map_ext. intro v. rewrite map_loop. apply flat_map_ext. intro l. rewrite map_loop. apply flat_map_ext. intro i. rewrite map_loop. apply flat_map_ext. intro j. rewrite map_loop. reflexivity. }
    rewrite !E. refine (tiles_perm k N (fun r v l i j => loop (ns ^ 3) (fun p => [(u (Z.of_nat r) v l i j p, u' (Z.of_nat r) v l i j p)])) (fun r v l i j => loop (ns ^ 3) (fun p => [(w (Z.of_nat r) v l i j p, w' (Z.of_nat r) v l i j p)])) 5 NZ _).
    intros c a b v l i j Hc Ha Hb Hv Hl Hi Hj. apply loop_perm. intros p Hp. pose proof (rank_at k c a b Hc Ha Hb) as Hr.
    rewrite (H v Hv _ l i j p Hr Hl Hi Hj Hp), (H' v Hv _ l i j p Hr Hl Hi Hj Hp), !cut_at by assumption. constructor. constructor.
Qed.
Lemma sw_redistribution k N ns : redistribution (sw_entries (6 * k * k) N ns) (sw_entries (6 * 1 * 1) (k * N) ns) (same_state k N ns).
Proof.
  split.
  - intros r v i j p *. reflexivity.
  - intros u u' w w' H H' r v i j p Hr Hv Hi Hj Hp. unfold plus. cbn. unfold st_plus. rewrite (H r v i j p Hr Hv Hi Hj Hp), (H' r v i j p Hr Hv Hi Hj Hp). reflexivity.
  - intros a u w H r v i j p Hr Hv Hi Hj Hp. unfold scal. cbn. unfold st_scal. rewrite (H r v i j p Hr Hv Hi Hj Hp). reflexivity.
  - intros u u' w w' H H'. unfold sw_entries. rewrite !concat_loop, !map_loop.
    assert (E : forall ranks N u u', loop ranks (fun r => map (fun e : states -> R => (e u, e u')) (loop 3 (fun v => loop N (fun i => loop N (fun j => loop (ns * ns) (fun p => [fun q : states => q (Z.of_nat r) v i j p])))))) =
      loop ranks (fun r => loop 3 (fun v => loop 1 (fun _ => loop N (fun i => loop N (fun j => loop (ns * ns) (fun p => [(u (Z.of_nat r) v i j p, u' (Z.of_nat r) v i j p)]))))))).
    { intros. unfold loop at 1 6. apply flat_map_ext. intro r.
      rewrite map_loop. apply flat_map_ext. intro v. rewrite loop_one, map_loop. apply flat_map_ext. intro i. rewrite map_loop. apply flat_map_ext. intro j. rewrite map_loop. reflexivity. }
    rewrite !E. refine (tiles_perm k N (fun r v l i j => loop (ns * ns) (fun p => [(u (Z.of_nat r) v i j p, u' (Z.of_nat r) v i j p)])) (fun r v l i j => loop (ns * ns) (fun p => [(w (Z.of_nat r) v i j p, w' (Z.of_nat r) v i j p)])) 3 1 _).
    intros c a b v l i j Hc Ha Hb Hv Hl Hi Hj. apply loop_perm. intros p Hp. pose proof (rank_at k c a b Hc Ha Hb) as Hr.
    pose proof (fun n m (L : n < m) => ssrbool.introT (@mathcomp.ssreflect.ssrnat.ltP n m) L) as lt.
    rewrite (H _ v i j p Hr (lt _ _ Hv) (lt _ _ Hi) (lt _ _ Hj) (lt _ _ Hp)), (H' _ v i j p Hr (lt _ _ Hv) (lt _ _ Hi) (lt _ _ Hj) (lt _ _ Hp)), !cut_at by assumption. constructor. constructor.
Qed.
Lemma eul_length ranks N NZ ns es : In es (eul_entries ranks N NZ ns) -> length es = 5 * (NZ * (N * (N * (ns ^ 3)))).
Proof.
  unfold eul_entries. intro H. apply in_map_iff in H. destruct H as (r & <- & _). do 4 (apply loop_length; intros ? _). rewrite (loop_length (ns ^ 3) _ 1) by reflexivity. lia.
Qed.
Lemma sw_length ranks N ns es : In es (sw_entries ranks N ns) -> length es = 3 * (N * (N * (ns * ns))).
Proof.
  unfold sw_entries. intro H. apply in_map_iff in H. destruct H as (r & <- & _). do 3 (apply loop_length; intros ? _). rewrite (loop_length (ns * ns) _ 1) by reflexivity. lia.
Qed.

Section Steps.
Context {V W : ModuleSpace R_Ring}.
Variables (holds : list (list (V -> R))) (holds' : list (list (W -> R))) (rel : V -> W -> Prop).
Hypothesis D : redistribution holds holds' rel.
Lemma matvec_rat_same u w dt Q Q' r r' f f' : rel u w -> rel Q Q' -> rel r r' -> same_map rel f f' -> rel (matvec_rat u dt Q r f) (matvec_rat w dt Q' r' f').
Proof.
  intros Hu HQ Hr Hf. unfold matvec_rat. apply (minus_same holds holds' rel D); [exact Hu|]. do 3 apply (same_scal _ _ _ D). apply (minus_same holds holds' rel D); [|exact Hr].
  apply Hf. apply (same_plus _ _ _ D); [exact HQ|]. now apply (same_scal _ _ _ D).
Qed.
Lemma ros2_same M M' tol restart maxiter f f' Q Q' dt : holds <> [] -> holds' <> [] -> (forall es, In es holds -> restart < length es) -> (forall es, In es holds' -> restart < length es) ->
  same_map rel M M' -> same_map rel f f' -> rel Q Q' -> same_outcome rel (ros2_dist holds M tol restart maxiter f Q dt) (ros2_dist holds' M' tol restart maxiter f' Q' dt).
Proof.
  intros N N' L L' HM Hf HQ. unfold ros2_dist.
  assert (HA : same_map rel (ros2_A f Q dt) (ros2_A f' Q' dt)) by (intros u w H; apply matvec_rat_same; auto).
  apply (dist_same holds holds' rel D N N'); auto. unfold ros2_b. apply (same_plus _ _ _ D); [auto|]. apply (same_scal _ _ _ D). auto.
Qed.
Lemma steps_same (s : V -> outcome) (s' : W -> outcome) n a a' : (forall u w, rel u w -> same_outcome rel (s u) (s' w)) -> same_outcome rel (Returned a) (Returned a') -> same_outcome rel (steps s n a) (steps s' n a').
Proof.
  intro Hs. revert a a'. induction n as [|n IH]; intros a a' H; [exact H|]. cbn [steps]. destruct H as (Hx & _). specialize (Hs _ _ Hx).
  destruct (s (a_x a)) as [| |c], (s' (a_x a')) as [| |c']; cbn in Hs; try contradiction; try exact I; try (apply IH; exact Hs).
  all: destruct (steps _ n _); exact I.
Qed.
End Steps.

Notation same3 k N NZ ns := (same_state3 k N NZ ns : states3 -> states3 -> Prop).
Notation same2 k N ns := (same_state k N ns : states -> states -> Prop).
Lemma eul_steps k N NZ ns M M' tol restart maxiter f f' dt n a a' : 0 < k -> restart < 5 * (NZ * (N * (N * (ns ^ 3)))) -> same_map (same3 k N NZ ns) M M' -> same_map (same3 k N NZ ns) f f' ->
  same_outcome (same3 k N NZ ns) (Returned a) (Returned a') ->
  same_outcome (same3 k N NZ ns) (steps (fun q => ros2_dist (eul_entries (6 * k * k) N NZ ns) M tol restart maxiter f q dt) n a) (steps (fun q => ros2_dist (eul_entries (6 * 1 * 1) (k * N) NZ ns) M' tol restart maxiter f' q dt) n a').
Proof.
  intros Hk HL HM Hf Ha. apply steps_same; [|exact Ha]. intros u w H. apply (ros2_same _ _ _ (eul_redistribution k N NZ ns)); auto.
  - unfold eul_entries. destruct k as [|k]; [lia|]. intro E. apply map_eq_nil in E. cbn in E. discriminate.
  - discriminate.
  - intros es He. refine (Nat.lt_le_trans _ _ _ HL _). apply Nat.eq_le_incl. symmetry. exact (eul_length _ _ _ _ _ He).
  - intros es He. assert (L : restart < 5 * (NZ * (k * N * (k * N * ns ^ 3)))) by (refine (Nat.lt_le_trans _ _ _ HL _); apply Nat.mul_le_mono_l, Nat.mul_le_mono_l, Nat.mul_le_mono; [|apply Nat.mul_le_mono_r]; nia). refine (Nat.lt_le_trans _ _ _ L _). apply Nat.eq_le_incl. symmetry. exact (eul_length _ _ _ _ _ He).
Qed.
Lemma sw_steps k N ns M M' tol restart maxiter f f' dt n a a' : 0 < k -> restart < 3 * (N * (N * (ns * ns))) -> same_map (same2 k N ns) M M' -> same_map (same2 k N ns) f f' ->
  same_outcome (same2 k N ns) (Returned a) (Returned a') ->
  same_outcome (same2 k N ns) (steps (fun q => ros2_dist (sw_entries (6 * k * k) N ns) M tol restart maxiter f q dt) n a) (steps (fun q => ros2_dist (sw_entries (6 * 1 * 1) (k * N) ns) M' tol restart maxiter f' q dt) n a').
Proof.
  intros Hk HL HM Hf Ha. apply steps_same; [|exact Ha]. intros u w H. apply (ros2_same _ _ _ (sw_redistribution k N ns)); auto.
  - unfold sw_entries. destruct k as [|k]; [lia|]. intro E. apply map_eq_nil in E. cbn in E. discriminate.
  - discriminate.
  - intros es He. refine (Nat.lt_le_trans _ _ _ HL _). apply Nat.eq_le_incl. symmetry. exact (sw_length _ _ _ _ He).
  - intros es He. assert (L : restart < 3 * (k * N * (k * N * (ns * ns)))) by (refine (Nat.lt_le_trans _ _ _ HL _); apply Nat.mul_le_mono_l, Nat.mul_le_mono; [|apply Nat.mul_le_mono_r]; nia). refine (Nat.lt_le_trans _ _ _ L _). apply Nat.eq_le_incl. symmetry. exact (sw_length _ _ _ _ He).
Qed.
