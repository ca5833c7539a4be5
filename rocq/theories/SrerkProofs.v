From Coq Require Import Reals Lra Lia List Arith Factorial.
From Coquelicot Require Import Coquelicot.
From Verif Require Import ModSolve SrerkModel SrerkSpec.
Import ListNotations.
Local Open Scope R_scope.

(** * finite sums in a module *)
Section Sums.
Variable V : ModuleSpace R_Ring.
Implicit Types (f g : nat -> V).
Fixpoint vsum f (n : nat) : V := match n with O => zero | S k => plus (vsum f k) (f k) end.
Lemma vsum_ext f g n : (forall i, (i < n)%nat -> f i = g i) -> vsum f n = vsum g n.
Proof. induction n; intro H; simpl; trivial. now rewrite IHn, H by auto with arith. Qed.
Lemma vsum_zero n : vsum (fun _ => zero) n = (zero : V).
Proof. induction n; simpl; trivial. rewrite IHn. apply plus_zero_l. Qed.
Lemma plus_swap (a b c d : V) : plus (plus a b) (plus c d) = plus (plus a c) (plus b d).
Proof. now rewrite !plus_assoc, <- (plus_assoc a b c), (plus_comm b c), !plus_assoc. Qed.
Lemma vsum_plus f g n : vsum (fun i => plus (f i) (g i)) n = plus (vsum f n) (vsum g n).
Proof. induction n; simpl; [now rewrite plus_zero_l|]. rewrite IHn. apply plus_swap. Qed.
Lemma vsum_scal (k : R) f n : vsum (fun i => scal (V := V) k (f i)) n = scal (V := V) k (vsum f n).
Proof. induction n; simpl; [now rewrite (scal_zero_r (V := V))|]. now rewrite IHn, (scal_distr_l (V := V)). Qed.
Lemma vsum_exchange (f : nat -> nat -> V) n m : vsum (fun i => vsum (fun j => f i j) m) n = vsum (fun j => vsum (fun i => f i j) n) m.
Proof. induction n; simpl; [now rewrite vsum_zero|]. now rewrite IHn, <- vsum_plus. Qed.
Lemma vsum_first f n : vsum f (S n) = plus (f O) (vsum (fun i => f (S i)) n).
Proof. induction n; simpl; [now rewrite plus_zero_l, plus_zero_r|]. simpl in IHn. rewrite IHn. now rewrite plus_assoc. Qed.
Lemma vsum_single f n k : (k < n)%nat -> (forall i, (i < n)%nat -> i <> k -> f i = zero) -> vsum f n = f k.
Proof.
  induction n; intros Hk H; [lia|]. simpl. destruct (Nat.eq_dec n k) as [->|E].
  - rewrite (vsum_ext f (fun _ => zero)) by (intros i Hi; apply H; lia). rewrite vsum_zero. apply plus_zero_l.
  - rewrite IHn by (lia || (intros; apply H; lia)). rewrite (H n) by lia. apply plus_zero_r.
Qed.
Lemma vsum_fold (f : nat -> V) n k : fold_right plus zero (map f (seq k n)) = vsum (fun i => f (k + i)%nat) n.
Proof.
  revert k. induction n; intro k; [reflexivity|]. rewrite vsum_first. cbn [seq map fold_right]. rewrite IHn.
  rewrite Nat.add_0_r. f_equal. apply vsum_ext. intros i _. f_equal. lia.
Qed.
End Sums.
Arguments vsum {V}.
Notation rsum := (@vsum R_ModuleSpace).
Lemma vsum_scal_l {V : ModuleSpace R_Ring} (r : nat -> R) (v : V) n : vsum (fun i => scal (V := V) (r i) v) n = scal (V := V) (rsum r n) v.
Proof. induction n; simpl; [now rewrite (scal_zero_l (V := V))|]. now rewrite IHn, <- (scal_distr_r (V := V)). Qed.

Lemma rsum_l (k : R) f n : rsum (fun i => k * f i) n = k * rsum f n.
Proof. exact (vsum_scal R_ModuleSpace k f n). Qed.
Lemma rsum_r (k : R) f n : rsum (fun i => f i * k) n = rsum f n * k.
Proof. rewrite (Rmult_comm _ k), <- rsum_l. apply vsum_ext. intros i _. apply Rmult_comm. Qed.
Section Poly.
Variable V : ModuleSpace R_Ring.
Lemma poly_sum (a : list V) t : poly_at a t = vsum (fun l => scal (V := V) (t ^ l) (nth l a zero)) (length a).
Proof.
  induction a as [|x a IH]; [reflexivity|]. cbn [length]. rewrite vsum_first. cbn [poly_at nth pow].
  rewrite (scal_one (V := V) x : scal (V := V) 1 x = x). f_equal. rewrite IH, <- vsum_scal. apply vsum_ext. intros i _.
  rewrite (scal_assoc (V := V)). reflexivity.
Qed.
Lemma taylor_sum (u : list V) k t : taylor u k t = vsum (fun l => scal (V := V) (t ^ (k + l) / INR (fact (k + l))) (nth l u zero)) (length u).
Proof.
  revert k. induction u as [|x u IH]; intro k; [reflexivity|]. cbn [length]. rewrite vsum_first. cbn [taylor nth]. rewrite IH, Nat.add_0_r. f_equal.
  apply vsum_ext. intros i _. now rewrite Nat.add_succ_r.
Qed.
Lemma rows_sum (a : nat -> nat -> R) (rz : list V) k : combine_rows V a rz k = vsum (fun i => scal (V := V) (a k i) (nth i rz zero)) (length rz).
Proof.
  unfold combine_rows.
  assert (H : forall s, fold_right plus zero (map (fun p => scal (V := V) (a k (fst p)) (snd p)) (combine (seq s (length rz)) rz))
    = vsum (fun i => scal (V := V) (a k (s + i)%nat) (nth i rz zero)) (length rz)).
  { induction rz as [|x r IH]; intro s; [reflexivity|]. cbn [length]. rewrite vsum_first. cbn [seq combine map fold_right fst snd nth].
    rewrite IH, Nat.add_0_r. f_equal. apply vsum_ext. intros i _. do 2 f_equal. lia. }
  apply (H O).
Qed.
(** a polynomial about another point *)
Fixpoint padd (a b : list V) : list V := match a, b with [], _ => b | _, [] => a | x :: a', y :: b' => plus x y :: padd a' b' end.
Definition pscale (k : R) (a : list V) := map (fun x => scal (V := V) k x) a.
Fixpoint recentre (t0 : R) (a : list V) : list V := match a with [] => [] | x :: r => padd (x :: recentre t0 r) (pscale t0 (recentre t0 r)) end.
Lemma padd_length a b : length (padd a b) = Nat.max (length a) (length b).
Proof. revert b. induction a; destruct b; simpl; auto. Qed.
Lemma padd_at a b t : poly_at (padd a b) t = plus (poly_at a t) (poly_at b t).
Proof.
  revert b. induction a as [|x a IH]; intros [|y b]; simpl; rewrite ?plus_zero_l, ?plus_zero_r; trivial.
  rewrite IH, (scal_distr_l (V := V)). apply plus_swap.
Qed.
Lemma pscale_at k a t : poly_at (pscale k a) t = scal (V := V) k (poly_at a t).
Proof.
  induction a as [|x a IH]; [symmetry; apply (scal_zero_r (V := V))|]. change (pscale k (x :: a)) with (scal (V := V) k x :: pscale k a). cbn [poly_at]. rewrite IH, (scal_distr_l (V := V)), !(scal_assoc (V := V)).
  f_equal. f_equal. apply Rmult_comm.
Qed.
Lemma recentre_length t0 a : length (recentre t0 a) = length a.
Proof. induction a as [|x a IH]; trivial. cbn [recentre]. rewrite padd_length. unfold pscale. rewrite map_length. cbn [length]. rewrite IH. lia. Qed.
Lemma recentre_at t0 a h : poly_at (recentre t0 a) h = poly_at a (t0 + h).
Proof.
  induction a as [|x a IH]; trivial. cbn [recentre]. rewrite padd_at, pscale_at. cbn [poly_at]. rewrite IH.
  rewrite <- plus_assoc. f_equal. rewrite <- (scal_distr_r (V := V)). f_equal. apply Rplus_comm.
Qed.
Lemma padd_slope a b t : poly_slope (padd a b) t = plus (poly_slope a t) (poly_slope b t).
Proof.
  revert b. induction a as [|x a IH]; intros [|y b]; simpl; rewrite ?plus_zero_l, ?plus_zero_r; trivial.
  rewrite padd_at, IH, (scal_distr_l (V := V)). apply plus_swap.
Qed.
Lemma pscale_slope k a t : poly_slope (pscale k a) t = scal (V := V) k (poly_slope a t).
Proof.
  induction a as [|x a IH]; [symmetry; apply (scal_zero_r (V := V))|]. change (pscale k (x :: a)) with (scal (V := V) k x :: pscale k a). cbn [poly_slope]. rewrite IH, pscale_at, (scal_distr_l (V := V)), !(scal_assoc (V := V)).
  f_equal. f_equal. apply Rmult_comm.
Qed.
Lemma recentre_slope t0 a h : poly_slope (recentre t0 a) h = poly_slope a (t0 + h).
Proof.
  induction a as [|x a IH]; trivial. cbn [recentre]. rewrite padd_slope, pscale_slope. cbn [poly_slope]. rewrite IH, recentre_at.
  rewrite <- plus_assoc. f_equal. rewrite <- (scal_distr_r (V := V)). f_equal. apply Rplus_comm.
Qed.
Lemma slope_zero (a : list V) : poly_slope a 0 = nth 1 a zero.
Proof.
  destruct a as [|x [|y a]]; simpl; trivial.
  - now rewrite (scal_zero_r (V := V)), plus_zero_l.
  - rewrite !(scal_zero_l (V := V) _ : scal (V := V) 0 _ = zero). now rewrite !plus_zero_r.
Qed.
Lemma at_zero (a : list V) : poly_at a 0 = nth 0 a zero.
Proof. destruct a as [|x a]; simpl; trivial. rewrite (scal_zero_l (V := V) _ : scal (V := V) 0 _ = zero). apply plus_zero_r. Qed.
Lemma poly_sum_ge (a : list V) n t : (length a <= n)%nat -> poly_at a t = vsum (fun l => scal (V := V) (t ^ l) (nth l a zero)) n.
Proof.
  intro H. induction H as [|n H IH]; [apply poly_sum|]. rewrite IH. cbn [vsum]. rewrite (nth_overflow a) by lia. now rewrite (scal_zero_r (V := V)), plus_zero_r.
Qed.
(** the part beyond the slope *)
Lemma beyond (a : list V) h : minus (minus (poly_at a h) (nth 0 a zero)) (scal (V := V) h (nth 1 a zero)) = vsum (fun l => scal (V := V) (h ^ (l + 2)) (nth (l + 2) a zero)) (length a - 2).
Proof.
  rewrite poly_sum. destruct a as [|x [|y a]]; simpl length.
  - simpl. rewrite (scal_zero_r (V := V)). unfold minus. now rewrite !opp_zero, !plus_zero_r.
  - simpl. rewrite (scal_zero_r (V := V)), (scal_one (V := V) x : scal (V := V) 1 x = x), plus_zero_l. unfold minus. rewrite plus_opp_r, opp_zero. apply plus_zero_r.
  - rewrite !vsum_first. cbn [nth pow]. replace (S (S (length a)) - 2)%nat with (length a) by lia.
    rewrite (scal_one (V := V) x : scal (V := V) 1 x = x), Rmult_1_r.
    match goal with |- minus (minus (plus ?A (plus ?B ?C)) _) _ = _ => unfold minus; rewrite (plus_comm A), <- !plus_assoc, (plus_comm B) end.
    rewrite <- !plus_assoc. rewrite (plus_assoc x (opp x)), plus_opp_r, plus_zero_l, plus_opp_l, plus_zero_r.
    apply vsum_ext. intros i _. replace (i + 2)%nat with (S (S i)) by lia. reflexivity.
Qed.
End Poly.

(** * the last stage *)
Lemma last_shift {T : Type} (c : T) l c0 : last (c :: l) c0 = last l c.
Proof. revert c c0. induction l as [|d l IH]; intros c c0; trivial. change (last (c :: d :: l) c0) with (last (d :: l) c0). now rewrite !IH. Qed.
Lemma scal1 {V : NormedModule R_AbsRing} (x : V) : scal (K := R_AbsRing) (V := V) 1 x = x.
Proof. exact (scal_one (V := V) x). Qed.
Section Last.
Variable V : NormedModule R_AbsRing.
Variables (alpha : list R -> nat -> nat -> R) (solve : list R -> (V -> V) -> list V -> list V) (rhs matvec : V -> V) (q : V) (dt : R).
Hypothesis Hdt : dt <> 0.
Hypothesis HS : exact_solver matvec solve.
Notation proj := (projections V alpha solve rhs matvec q dt).
Notation inp := (stage_input V alpha rhs matvec q dt).
(** stages reached with the inputs [u] *)
Definition reached (u : list V) (c : list R) (z : list V) : Prop := length z = length c /\ forall i, (i < length c)%nat -> phi_value matvec u (nth i c 0) (nth i z zero).
Lemma proj_app c0 l1 l2 z : proj c0 (l1 ++ l2) z = proj (last l1 c0) l2 (proj c0 l1 z).
Proof. revert c0 z. induction l1 as [|c l1 IH]; intros c0 z; [reflexivity|]. cbn [app projections]. rewrite IH. now rewrite last_shift. Qed.
Definition input_ok (P : list V -> Prop) : Prop := P [zero; rhs q] /\ forall c z u, P u -> reached u c z -> P (inp c z).
Lemma proj_reached (P : list V -> Prop) : input_ok P -> forall rest c0 z u, P u -> reached u c0 z -> exists u', P u' /\ reached u' (last rest c0) (proj c0 rest z).
Proof.
  intros [HP0 HP]. induction rest as [|c r IH]; intros c0 z u Hu Hz; [exists u; now split|]. cbn [projections].
  destruct (IH c (solve c matvec (inp c0 z)) (inp c0 z)) as (u' & Hu' & Hr).
  - now apply HP with u.
  - apply (HS c (inp c0 z)).
  - exists u'. split; trivial. now rewrite last_shift.
Qed.
(** the step is the value at 1 for the inputs built from the stages at the last nodes before [1] *)
Lemma step_last (P : list V -> Prop) pre c : input_ok P -> exists u z y, P u /\ reached u c z /\ phi_value matvec (inp c z) 1 y
  /\ srerk_step V alpha solve rhs matvec q dt (pre ++ [c; [1]]) = Some (plus q (scal dt y)).
Proof.
  intros HP.
  assert (E : exists c0 r, pre ++ [c; [1]] = c0 :: r ++ [[1]] /\ last r c0 = c).
  { destruct pre as [|c0 p].
    - exists c, []. split; reflexivity.
    - exists c0, (p ++ [c]). split; [simpl; now rewrite <- app_assoc|]. now rewrite last_last. }
  destruct E as (c0 & r & E & El). rewrite E. unfold srerk_step. rewrite proj_app, El.
  destruct (proj_reached P HP r c0 (solve c0 matvec [zero; rhs q]) [zero; rhs q]) as (u & Hu & Hz); [apply HP|apply HS|].
  rewrite El in Hz. set (z := proj c0 r _) in *. destruct (HS [1] (inp c z)) as [H1 H2]. specialize (H2 O ltac:(simpl; lia)).
  cbn [projections]. destruct (solve [1] matvec (inp c z)) as [|y [|? ?]]; try discriminate H1.
  exists u, z, y. repeat split; trivial; apply Hz.
Qed.
End Last.

Lemma is_derive_lin {V W : NormedModule R_AbsRing} (l : V -> W) (y : R -> V) s d : is_linear l -> is_derive y s d -> is_derive (fun t => l (y t)) s (l d).
Proof.
  intros Hl Hd. unfold is_derive. apply filterdiff_ext_lin with (fun k : R => l (scal k d)).
  - apply (filterdiff_comp' y l s (fun k => scal k d) l); trivial. apply filterdiff_linear. exact Hl.
  - intro k. apply Hl.
Qed.
Lemma rescale {V : NormedModule R_AbsRing} (f : V -> V) (q : V) dt (y : R -> V) : dt <> 0 -> y 0 = zero ->
  (forall s, is_derive y s (f (plus q (scal dt (y s))))) -> on_solution f q dt (plus q (scal dt (y 1))).
Proof.
  intros Hdt H0 Hy. exists (fun s => plus q (scal dt (y (s / dt)))). split; [|split].
  - unfold Rdiv. rewrite Rmult_0_l, H0, (scal_zero_r (V := V)). apply plus_zero_r.
  - intro s. set (d := f _).
    assert (E : d = plus zero (scal dt (scal (/ dt) d))) by (rewrite plus_zero_l, (scal_assoc (V := V)); change (mult dt (/ dt)) with (dt * / dt); rewrite Rinv_r by trivial; symmetry; apply (scal_one (V := V))).
    rewrite E at 1. apply (is_derive_plus (V := V)); [apply (is_derive_const (V := V))|].
    apply (is_derive_lin (fun x : V => scal dt x) (fun t => y (t / dt)) s (scal (/ dt) d)); [exact (is_linear_scal_r (K := R_AbsRing) (V := V) dt Rmult_comm)|].
    apply (is_derive_comp (V := V) y (fun t => t / dt) s d (/ dt)); [apply Hy|]. auto_derive; trivial. field; trivial.
  - now rewrite (Rinv_r dt Hdt : dt / dt = 1).
Qed.
Lemma tail_taylor {V : NormedModule R_AbsRing} alpha rhs matvec (q : V) dt c z s : taylor (@tl V (stage_input V alpha rhs matvec q dt c z)) 0 s
  = plus (rhs q) (vsum (fun k => scal (V := V) (s ^ (k + 2) / INR (fact (k + 2)))
      (vsum (fun i => scal (V := V) (alpha c k i) (remainder V rhs matvec q dt (plus q (scal (V := V) dt (nth i z zero))))) (length z))) (length z)).
Proof.
  cbn [stage_input tl taylor]. rewrite (scal_zero_r (V := V)), plus_zero_l. replace (s ^ 0 / INR (fact 0)) with 1 by (simpl; field).
  rewrite scal1. f_equal. rewrite taylor_sum, map_length, seq_length. apply vsum_ext. intros k Hk.
  replace (2 + k)%nat with (k + 2)%nat by lia. f_equal.
  rewrite nth_indep with (d' := combine_rows V (alpha c) (map (remainder V rhs matvec q dt) (stage_values V q dt z)) O) by (rewrite map_length, seq_length; trivial).
  rewrite map_nth, seq_nth by trivial. rewrite rows_sum. unfold stage_values. rewrite !map_length. simpl. apply vsum_ext. intros i Hi. f_equal. rewrite map_map.
  rewrite nth_indep with (d' := remainder V rhs matvec q dt (plus q (scal (V := V) dt zero))) by (rewrite map_length; trivial).
  now rewrite (map_nth (fun x => remainder V rhs matvec q dt (plus q (scal (V := V) dt x)))).
Qed.

(** * linear problems *)
Section Affine.
Variable V : NormedModule R_AbsRing.
Variables (alpha : list R -> nat -> nat -> R) (solve : list R -> (V -> V) -> list V -> list V) (L : V -> V) (b q : V) (dt : R).
Hypothesis (Hdt : dt <> 0) (HL : linear L).
Let rhs (x : V) : V := plus (L x) b.
Let matvec (x : V) : V := scal dt (L x).
Hypothesis HS : exact_solver matvec solve.
Lemma L_opp x : L (opp x) = opp (L x).
Proof. rewrite <- !(scal_opp_one (V := V)). apply HL. Qed.
Lemma affine_remainder x : remainder V rhs matvec q dt x = zero.
Proof.
  unfold remainder, rhs, matvec. rewrite (scal_assoc (V := V)). change (mult (/ dt) dt) with (/ dt * dt). rewrite Rinv_l by trivial.
  rewrite scal1. unfold minus. rewrite (proj1 HL), L_opp, opp_plus.
  rewrite <- (plus_assoc (L x) b), (plus_comm b), <- (plus_assoc (opp (L q))), plus_opp_l, plus_zero_r. apply plus_opp_r.
Qed.
Lemma affine_step pre c : exists q', srerk_step V alpha solve rhs matvec q dt (pre ++ [c; [1]]) = Some q' /\ on_solution rhs q dt q'.
Proof.
  destruct (step_last V alpha solve rhs matvec q dt HS (fun _ => True) pre c) as (u & z & y & _ & Hz & (Y & Y0 & Yd & ->) & E); [split; trivial|].
  eexists. split; [exact E|]. apply rescale; trivial. intro s. specialize (Yd s). rewrite (tail_taylor alpha rhs matvec q dt c z s) in Yd.
  rewrite (vsum_ext V _ (fun _ => zero)), vsum_zero, plus_zero_r in Yd.
  2:{ intros k _. rewrite (vsum_ext V _ (fun _ => zero)), vsum_zero; [apply (scal_zero_r (V := V))|]. intros i _. rewrite affine_remainder. apply (scal_zero_r (V := V)). }
  replace (rhs (plus q (scal dt (Y s)))) with (plus (matvec (Y s)) (rhs q)); trivial.
  unfold rhs, matvec. rewrite (proj1 HL), (proj2 HL), !plus_assoc. f_equal. apply plus_comm.
Qed.
End Affine.

(** * u' = L u + g(t), g a polynomial *)
Lemma same_slope {V : NormedModule R_AbsRing} (f g : R -> V) (d : R -> V) t : (forall s, is_derive f s (d s)) -> (forall s, is_derive g s (d s)) -> f 0 = g 0 -> f t = g t.
Proof.
  intros Hf Hg H0.
  assert (D : forall s, is_derive (fun s => minus (f s) (g s)) s (zero : V)).
  { intro s. rewrite <- (plus_opp_r (d s)). apply (is_derive_minus (V := V)); trivial. }
  assert (E : minus (f t) (g t) = zero).
  { transitivity (minus (f 0) (g 0)); [|rewrite H0; apply plus_opp_r]. destruct (Rtotal_order 0 t) as [H|[->|H]]; trivial.
    - symmetry. apply (eq_is_derive (fun s => minus (f s) (g s)) 0 t); trivial; intros; apply D.
    - apply (eq_is_derive (fun s => minus (f s) (g s)) t 0); trivial; intros; apply D. }
  rewrite <- (plus_zero_r (g t)), <- E. unfold minus. rewrite (plus_comm (f t)), plus_assoc, plus_opp_r. symmetry. apply plus_zero_l.
Qed.
Definition conditions (alpha : list R -> nat -> nat -> R) (c : list R) : Prop := forall k l, (k < length c)%nat -> (l < length c)%nat ->
  rsum (fun i => alpha c k i * nth i c 0 ^ (l + 2)) (length c) = if Nat.eqb k l then INR (fact (k + 2)) else 0.
(** the weight of the stage i in the integral from 0 to 1 *)
Definition weight (alpha : list R -> nat -> nat -> R) (c : list R) (i : nat) : R := rsum (fun k => alpha c k i / INR (fact (k + 3))) (length c).
Definition quadrature (alpha : list R -> nat -> nat -> R) (c : list R) (n : nat) : Prop := forall l, (l < n)%nat ->
  rsum (fun i => weight alpha c i * nth i c 0 ^ (l + 2)) (length c) = / INR (l + 3).

Section Forced.
Variable V : NormedModule R_AbsRing.
Let W := prod_NormedModule R_AbsRing R_NormedModule V.
Variables (alpha : list R -> nat -> nat -> R) (solve : list R -> (W -> W) -> list W -> list W) (L : V -> V) (a : list V) (t0 : R) (u0 : V) (dt : R).
Hypothesis (Hdt : dt <> 0) (HL : linear L).
Let rhs : W -> W := forced L (poly_at a).
Let matvec : W -> W := forced_jac L (poly_slope a t0) dt.
Let q : W := (t0, u0).
Hypothesis HS : exact_solver matvec solve.
Lemma fst_vsum (f : nat -> W) n : fst (vsum (V := W) f n) = rsum (fun i => fst (f i)) n.
Proof. induction n; trivial. cbn [vsum]. now rewrite <- IHn. Qed.
Lemma snd_vsum (f : nat -> W) n : snd (vsum (V := W) f n) = vsum (V := V) (fun i => snd (f i)) n.
Proof. induction n; trivial. cbn [vsum]. now rewrite <- IHn. Qed.
Let b := recentre V t0 a.
Lemma forced_remainder s w : remainder W rhs matvec q dt (plus q (scal (V := W) dt (s, w)))
  = (0, vsum (V := V) (fun l => scal (V := V) ((dt * s) ^ (l + 2)) (nth (l + 2) b zero)) (length a - 2)).
Proof.
  unfold remainder, rhs, matvec, forced, forced_jac, q. unfold minus. apply injective_projections.
  - change (1 + - 1 + - (/ dt * 0) = 0). ring.
  - cbn [snd fst plus scal opp]. unfold minus.
    change (plus (plus (plus (L (plus u0 (scal (V := V) dt w))) (poly_at a (t0 + dt * s))) (opp (plus (L u0) (poly_at a t0))))
      (opp (scal (V := V) (/ dt) (scal (V := V) dt (plus (L (plus (plus u0 (scal (V := V) dt w)) (opp u0))) (scal (V := V) (t0 + dt * s + - t0) (poly_slope a t0))))))
      = vsum (V := V) (fun l => scal (V := V) ((dt * s) ^ (l + 2)) (nth (l + 2) b zero)) (length a - 2)).
    rewrite (scal_assoc (V := V)). change (mult (/ dt) dt) with (/ dt * dt). rewrite Rinv_l by trivial. rewrite scal1.
    replace (plus (plus u0 (scal (V := V) dt w)) (opp u0)) with (scal (V := V) dt w) by (rewrite (plus_comm u0), <- plus_assoc, plus_opp_r; symmetry; apply plus_zero_r).
    replace (t0 + dt * s + - t0) with (dt * s) by ring.
    pose proof (beyond V b (dt * s)) as B. unfold b in B at 1 2 3 5. rewrite recentre_at, recentre_length, <- at_zero, <- slope_zero, recentre_at, recentre_slope, Rplus_0_r in B. fold b in B.
    etransitivity; [|exact B]. unfold minus. rewrite (proj1 HL). set (X := L (scal dt w)). set (g1 := poly_at a (t0 + dt * s)). set (g0 := poly_at a t0). set (e := scal (dt * s) (poly_slope a t0)). set (l0 := L u0).
    rewrite !opp_plus. rewrite <- (plus_assoc (plus l0 X)), (plus_comm l0 X), <- (plus_assoc X l0), (plus_comm X), <- (plus_assoc _ X), (plus_assoc X), plus_opp_r, plus_zero_l.
    f_equal. rewrite (plus_assoc g1), (plus_comm g1), <- (plus_assoc (opp l0)), plus_assoc, plus_opp_r. apply plus_zero_l.
Qed.

Definition clock (u : list W) : Prop := hd zero u = (zero : W) /\ forall s, fst (taylor (V := W) (@tl W u) 0 s) = 1.
Lemma clock_time (y : R -> W) (d : R -> W) t : y 0 = zero -> (forall s, is_derive y s (d s)) -> (forall s, fst (d s) = 1) -> fst (y t) = t.
Proof.
  intros Y0 Yd H. apply (same_slope (V := R_NormedModule) (fun s => fst (y s)) (fun s => s) (fun _ => 1)).
  - intro s. rewrite <- (H s). exact (is_derive_lin (V := W) (W := R_NormedModule) (fun p => fst p) y s (d s) is_linear_fst (Yd s)).
  - intro s. apply (is_derive_id (K := R_AbsRing)).
  - now rewrite Y0.
Qed.
Lemma phi_time u t w : clock u -> phi_value matvec u t w -> fst w = t.
Proof.
  intros [H0 H1] (y & Y0 & Yd & ->). apply clock_time with (fun s => plus (matvec (y s)) (taylor (V := W) (@tl W u) 0 s)); [now rewrite Y0|exact Yd|].
  intro s. change (0 + fst (taylor (V := W) (@tl W u) 0 s) = 1). rewrite H1. ring.
Qed.
(** the entries of the rows *)
Definition row (c : list R) (k : nat) : V := vsum (V := V) (fun l => scal (V := V) (dt ^ (l + 2) * rsum (fun i => alpha c k i * nth i c 0 ^ (l + 2)) (length c)) (nth (l + 2) b zero)) (length a - 2).
Lemma row_eq c z k : length z = length c -> (forall i, (i < length c)%nat -> fst (nth i z zero) = nth i c 0) ->
  vsum (V := W) (fun i => scal (V := W) (alpha c k i) (remainder W rhs matvec q dt (plus q (scal (V := W) dt (nth i z zero))))) (length z) = (0, row c k).
Proof.
  intros Hl Ht. rewrite Hl. apply injective_projections.
  - rewrite fst_vsum. rewrite (vsum_ext R_ModuleSpace _ (fun _ => zero)); [apply vsum_zero|]. intros i _. destruct (nth i z zero) as [s w].
    rewrite forced_remainder. apply Rmult_0_r.
  - rewrite snd_vsum. cbn [snd]. unfold row.
    transitivity (vsum (V := V) (fun i => vsum (V := V) (fun l => scal (V := V) (dt ^ (l + 2) * (alpha c k i * nth i c 0 ^ (l + 2))) (nth (l + 2) b zero)) (length a - 2)) (length c)).
    + apply vsum_ext. intros i Hi. specialize (Ht i Hi). destruct (nth i z zero) as [s w]. cbn [fst] in Ht. rewrite forced_remainder.
      transitivity (scal (V := V) (alpha c k i) (vsum (V := V) (fun l => scal (V := V) ((dt * s) ^ (l + 2)) (nth (l + 2) b zero)) (length a - 2))); [reflexivity|].
      rewrite <- vsum_scal. apply vsum_ext. intros l _. rewrite (scal_assoc (V := V)). f_equal. change (mult ?x ?y) with (x * y). rewrite Ht, Rpow_mult_distr. match goal with |- @eq _ ?x ?y => change (@eq R x y) end. ring.
    + rewrite vsum_exchange. apply vsum_ext. intros l _. rewrite vsum_scal_l. f_equal.
      change (rsum (fun i => scal (V := R_ModuleSpace) (dt ^ (l + 2)) (alpha c k i * nth i c 0 ^ (l + 2))) (length c) = dt ^ (l + 2) * rsum (fun i => alpha c k i * nth i c 0 ^ (l + 2)) (length c)).
      rewrite vsum_scal. reflexivity.
Qed.
Lemma input_taylor c z s : length z = length c -> (forall i, (i < length c)%nat -> fst (nth i z zero) = nth i c 0) ->
  taylor (V := W) (@tl W (stage_input W alpha rhs matvec q dt c z)) 0 s
  = (1, plus (plus (L u0) (poly_at a t0)) (vsum (V := V) (fun k => scal (V := V) (s ^ (k + 2) / INR (fact (k + 2))) (row c k)) (length c))).
Proof.
  intros Hl Ht. rewrite (tail_taylor (V := W) alpha rhs matvec q dt c z s). rewrite (vsum_ext W _ (fun k => scal (V := W) (s ^ (k + 2) / INR (fact (k + 2))) (0, row c k))).
  2:{ intros k _. now rewrite row_eq. }
  apply injective_projections.
  - transitivity (1 + fst (vsum (V := W) (fun k => scal (V := W) (s ^ (k + 2) / INR (fact (k + 2))) (0, row c k)) (length z))); [reflexivity|]. rewrite fst_vsum.
    rewrite (vsum_ext R_ModuleSpace _ (fun _ => zero)); [|intros i _; apply Rmult_0_r]. rewrite vsum_zero. apply Rplus_0_r.
  - transitivity (plus (plus (L u0) (poly_at a t0)) (snd (vsum (V := W) (fun k => scal (V := W) (s ^ (k + 2) / INR (fact (k + 2))) (0, row c k)) (length z)))); [reflexivity|].
    rewrite snd_vsum, Hl. reflexivity.
Qed.
Lemma clock_ok : input_ok W alpha rhs matvec q dt clock.
Proof.
  split.
  - split; [reflexivity|]. intro s. cbn [tl taylor].
    change (s ^ 0 / INR (fact 0) * 1 + 0 = 1). simpl. field.
  - intros c z u Hu [Hl Hz]. split; [reflexivity|]. intro s. rewrite input_taylor; trivial. intros i Hi. apply phi_time with u; trivial. apply (Hz i Hi).
Qed.
(** the result of the step, for any nodes *)
Lemma forced_value pre c : exists y : R -> W, srerk_step W alpha solve rhs matvec q dt (pre ++ [c; [1]]) = Some (plus q (scal (V := W) dt (y 1)))
  /\ y 0 = zero /\ (forall s, fst (y s) = s)
  /\ forall s, is_derive y s ((1, plus (plus (scal (V := V) dt (plus (L (snd (y s))) (scal (V := V) s (poly_slope a t0)))) (plus (L u0) (poly_at a t0)))
      (vsum (V := V) (fun k => scal (V := V) (s ^ (k + 2) / INR (fact (k + 2))) (row c k)) (length c))) : W).
Proof.
  destruct (step_last W alpha solve rhs matvec q dt HS clock pre c clock_ok) as (u & z & w & Hu & [Hl Hz] & Hw & E).
  assert (Ht : forall i, (i < length c)%nat -> fst (nth i z zero) = nth i c 0) by (intros i Hi; apply phi_time with u; trivial; apply (Hz i Hi)).
  destruct Hw as (y & Y0 & Yd & ->). exists y. split; [exact E|]. split; [exact Y0|].
  assert (Y1 : forall s, fst (y s) = s).
  { intro s. apply clock_time with (fun s => plus (matvec (y s)) (taylor (V := W) (@tl W (stage_input W alpha rhs matvec q dt c z)) 0 s)); trivial.
    intro r. rewrite input_taylor by trivial. change (0 + 1 = 1). ring. }
  split; trivial. intro s. specialize (Yd s). rewrite input_taylor in Yd by trivial. 
  match type of Yd with is_derive _ _ ?d => replace d with ((1, plus (plus (scal (V := V) dt (plus (L (snd (y s))) (scal (V := V) s (poly_slope a t0)))) (plus (L u0) (poly_at a t0)))
      (vsum (V := V) (fun k => scal (V := V) (s ^ (k + 2) / INR (fact (k + 2))) (row c k)) (length c))) : W) in Yd; trivial end.
  unfold matvec, forced_jac. apply injective_projections; [symmetry; apply Rplus_0_l|]. cbn [snd fst]. rewrite Y1. symmetry. apply plus_assoc.
Qed.
Lemma forced_step pre c : conditions alpha c -> (length a <= length c + 2)%nat ->
  exists q', srerk_step W alpha solve rhs matvec q dt (pre ++ [c; [1]]) = Some q' /\ on_solution rhs q dt q'.
Proof.
  intros HC Ha. destruct (forced_value pre c) as (y & E & Y0 & Y1 & Yd). eexists. split; [exact E|]. apply rescale; trivial. intro s. specialize (Yd s).
  match type of Yd with is_derive _ _ ?d => replace (rhs (plus q (scal dt (y s)))) with d; trivial end.
  unfold rhs, forced. apply injective_projections; [reflexivity|]. cbn [snd fst].
  change (snd (plus q (scal dt (y s)))) with (plus u0 (scal (V := V) dt (snd (y s)))). change (fst (plus q (scal dt (y s)))) with (t0 + dt * fst (y s)). rewrite Y1.
  replace (vsum (V := V) (fun k => scal (V := V) (s ^ (k + 2) / INR (fact (k + 2))) (row c k)) (length c))
    with (vsum (V := V) (fun l => scal (V := V) ((dt * s) ^ (l + 2)) (nth (l + 2) b zero)) (length a - 2)).
  - pose proof (beyond V b (dt * s)) as B. unfold b in B at 1 2 3 5. rewrite recentre_at, recentre_length, <- at_zero, <- slope_zero, recentre_at, recentre_slope, Rplus_0_r in B. fold b in B.
    etransitivity; [apply f_equal; symmetry; exact B|]. rewrite (proj1 HL), (proj2 HL), (scal_distr_l (V := V)), (scal_assoc (V := V)). change (mult dt s) with (dt * s).
    modsolve (NormedModule.ModuleSpace R_AbsRing V).
  - transitivity (vsum (V := V) (fun k => vsum (V := V) (fun l => scal (V := V) (s ^ (k + 2) / INR (fact (k + 2)) * (dt ^ (l + 2) * (if Nat.eqb k l then INR (fact (k + 2)) else 0))) (nth (l + 2) b zero)) (length a - 2)) (length c)).
    + rewrite vsum_exchange. apply vsum_ext. intros l Hl. rewrite (vsum_single V _ _ l).
      * rewrite Nat.eqb_refl. f_equal. rewrite Rpow_mult_distr. match goal with |- @eq _ ?x ?y => change (@eq R x y) end. field. apply INR_fact_neq_0.
      * lia.
      * intros i Hi Hn. apply Nat.eqb_neq in Hn. rewrite Hn, !Rmult_0_r. exact (scal_zero_l (V := V) _).
    + apply vsum_ext. intros k Hk. unfold row. rewrite <- vsum_scal. apply vsum_ext. intros l Hl. rewrite (scal_assoc (V := V)). f_equal. rewrite HC by lia. reflexivity.
Qed.

Lemma is_derive_vsum (f d : nat -> R -> V) n s : (forall k, (k < n)%nat -> is_derive (f k) s (d k s)) -> is_derive (fun s => vsum (V := V) (fun k => f k s) n) s (vsum (V := V) (fun k => d k s) n).
Proof. induction n; intro H; cbn [vsum]; [apply (is_derive_const (V := V))|]. apply (is_derive_plus (V := V) (fun s => vsum (V := V) (fun k => f k s) n) (f n)); auto with arith. Qed.
Lemma is_derive_term (r : R -> R) (r' : R) (v : V) s : is_derive r s r' -> is_derive (fun s => scal (V := V) (r s) v) s (scal (V := V) r' v).
Proof. intro H. apply (is_derive_scal_l (K := R_AbsRing) (V := V) r s r' v H). Qed.
Lemma is_derive_shift (G : R -> V) s d : is_derive G (t0 + s) d -> is_derive (fun h => G (t0 + h)) s d.
Proof. intro H. rewrite <- (scal1 d). apply (is_derive_comp (V := V) G (fun h => t0 + h) s d 1); trivial. auto_derive; trivial. Qed.
Lemma forced_quad pre c (G : R -> V) : (forall x, L x = zero) -> quadrature alpha c (length a - 2) -> (forall s, is_derive G s (poly_at a s)) ->
  srerk_step W alpha solve rhs matvec q dt (pre ++ [c; [1]]) = Some (t0 + dt, plus u0 (minus (G (t0 + dt)) (G t0))).
Proof.
  intros HL0 HQ HG. destruct (forced_value pre c) as (y & E & Y0 & Y1 & Yd). rewrite E. f_equal.
  assert (Ey : snd (y 1) = plus (plus (scal (V := V) (dt / 2) (poly_slope a t0)) (poly_at a t0)) (vsum (V := V) (fun k => scal (V := V) (/ INR (fact (k + 3))) (row c k)) (length c))).
  { pose (F2 := fun s : R => plus (plus (scal (V := V) (dt * (s * s) / 2) (poly_slope a t0)) (scal (V := V) s (poly_at a t0))) (vsum (V := V) (fun k => scal (V := V) (s ^ (k + 3) / INR (fact (k + 3))) (row c k)) (length c)) : V).
    transitivity (F2 1).
    2:{ unfold F2. rewrite scal1. replace (dt * (1 * 1) / 2) with (dt / 2) by field. apply f_equal. apply vsum_ext. intros k _. rewrite pow1. unfold Rdiv. now rewrite Rmult_1_l. }
    refine (same_slope (V := V) (fun s => snd (y s)) F2 (fun s => plus (plus (scal (V := V) (dt * s) (poly_slope a t0)) (poly_at a t0)) (vsum (V := V) (fun k => scal (V := V) (s ^ (k + 2) / INR (fact (k + 2))) (row c k)) (length c))) 1 _ _ _).
    - intro s. pose proof (is_derive_lin (V := W) (W := V) (fun p => snd p) y s _ is_linear_snd (Yd s)) as D. cbn [snd] in D. rewrite !HL0, !plus_zero_l, (scal_assoc (V := V)) in D. exact D.
    - intro s. unfold F2. apply (is_derive_plus (V := V)); [apply (is_derive_plus (V := V))|].
      + apply is_derive_term. auto_derive; trivial. field.
      + pose proof (is_derive_term (fun r => r) 1 (poly_at a t0) s (is_derive_id (K := R_AbsRing) s)) as D. rewrite scal1 in D. exact D.
      + apply (is_derive_vsum (fun k s => scal (V := V) (s ^ (k + 3) / INR (fact (k + 3))) (row c k)) (fun k s => scal (V := V) (s ^ (k + 2) / INR (fact (k + 2))) (row c k))).
        intros k _. apply is_derive_term. auto_derive; trivial. replace (k + 3)%nat with (S (k + 2)) by lia. rewrite fact_simpl, mult_INR. cbn [pred]. field. split; [apply INR_fact_neq_0|apply not_0_INR; lia].
    - unfold F2. rewrite Y0. cbn [snd]. rewrite (vsum_ext V _ (fun _ => zero)), vsum_zero, plus_zero_r.
      2:{ intros k _. rewrite pow_i by lia. unfold Rdiv. rewrite Rmult_0_l. exact (scal_zero_l (V := V) _). }
      rewrite Rmult_0_l, Rmult_0_r. unfold Rdiv. rewrite Rmult_0_l. rewrite !(scal_zero_l (V := V) _ : scal (V := V) 0 _ = zero). symmetry. apply plus_zero_r. }
  assert (EG : minus (G (t0 + dt)) (G t0) = vsum (V := V) (fun l => scal (V := V) (dt ^ (l + 1) / INR (l + 1)) (nth l b zero)) (length a - 2 + 2)).
  { refine (same_slope (V := V) (fun h => minus (G (t0 + h)) (G t0)) (fun h => vsum (V := V) (fun l => scal (V := V) (h ^ (l + 1) / INR (l + 1)) (nth l b zero)) (length a - 2 + 2)) (fun h => poly_at b h) dt _ _ _).
    - intro s. unfold b. rewrite recentre_at. pose proof (is_derive_minus (V := V) (fun h => G (t0 + h)) (fun _ => G t0) s (poly_at a (t0 + s)) zero (is_derive_shift G s _ (HG (t0 + s))) (is_derive_const (V := V) (G t0) s)) as D.
      assert (Em : minus (poly_at a (t0 + s)) zero = poly_at a (t0 + s)) by (unfold minus; rewrite opp_zero; apply plus_zero_r). rewrite <- Em. exact D.
    - intro s. rewrite (poly_sum_ge V b (length a - 2 + 2)) by (eapply Nat.le_trans; [apply Nat.eq_le_incl, recentre_length|]; change (length a <= length a - 2 + 2)%nat; lia).
      apply (is_derive_vsum (fun l h => scal (V := V) (h ^ (l + 1) / INR (l + 1)) (nth l b zero)) (fun l h => scal (V := V) (h ^ l) (nth l b zero))).
      intros k _. apply is_derive_term. auto_derive; trivial. replace (k + 1)%nat with (S k) by lia. cbn [pred]. field. apply not_0_INR. lia.
    - rewrite Rplus_0_r, (vsum_ext V _ (fun _ => zero)), vsum_zero; [apply plus_opp_r|]. intros k _. rewrite pow_i by lia. unfold Rdiv. rewrite Rmult_0_l. exact (scal_zero_l (V := V) _). }
  apply injective_projections.
  - change (t0 + dt * fst (y 1) = t0 + dt). rewrite Y1. ring.
  - transitivity (plus u0 (scal (V := V) dt (snd (y 1)))); [reflexivity|]. cbn [snd]. apply f_equal. rewrite EG, Ey. replace (length a - 2 + 2)%nat with (S (S (length a - 2))) by lia. rewrite !vsum_first.
    replace (vsum (V := V) (fun k => scal (V := V) (/ INR (fact (k + 3))) (row c k)) (length c))
      with (vsum (V := V) (fun l => scal (V := V) (dt ^ (l + 2) / INR (l + 3)) (nth (l + 2) b zero)) (length a - 2)).
    + replace (vsum (V := V) (fun i => scal (V := V) (dt ^ (S (S i) + 1) / INR (S (S i) + 1)) (nth (S (S i)) b zero)) (length a - 2))
        with (scal (V := V) dt (vsum (V := V) (fun l => scal (V := V) (dt ^ (l + 2) / INR (l + 3)) (nth (l + 2) b zero)) (length a - 2))).
      * set (S2 := vsum _ _). rewrite <- at_zero, <- slope_zero. unfold b. rewrite recentre_at, recentre_slope, Rplus_0_r. cbn [Nat.add INR pow].
        modsolve (NormedModule.ModuleSpace R_AbsRing V); field.
      * rewrite <- vsum_scal. apply vsum_ext. intros i _. rewrite (scal_assoc (V := V)). replace (S (S i)) with (i + 2)%nat by lia. replace (i + 2 + 1)%nat with (S (i + 2)) by lia. replace (i + 3)%nat with (S (i + 2)) by lia. f_equal.
        cbn [pow]. match goal with |- @eq _ ?x ?y => change (@eq R x y) end. unfold Rdiv. change (mult ?x ?y) with (x * y). ring.
    + symmetry. transitivity (vsum (V := V) (fun k => vsum (V := V) (fun l => scal (V := V) (/ INR (fact (k + 3)) * (dt ^ (l + 2) * rsum (fun i => alpha c k i * nth i c 0 ^ (l + 2)) (length c))) (nth (l + 2) b zero)) (length a - 2)) (length c)).
      { apply vsum_ext. intros k Hk. unfold row. rewrite <- vsum_scal. apply vsum_ext. intros l Hl. rewrite (scal_assoc (V := V)). reflexivity. }
      rewrite vsum_exchange. apply vsum_ext. intros l Hl. rewrite vsum_scal_l. apply (f_equal (fun r => scal (V := V) r (nth (l + 2) b zero))). unfold Rdiv. rewrite <- HQ by trivial. unfold weight.
      transitivity (rsum (fun k => dt ^ (l + 2) * rsum (fun i => alpha c k i / INR (fact (k + 3)) * nth i c 0 ^ (l + 2)) (length c)) (length c)).
      { apply vsum_ext. intros k _. rewrite <- !rsum_l. apply vsum_ext. intros i _. match goal with |- @eq _ ?x ?y => change (@eq R x y) end. unfold Rdiv. ring. }
      rewrite rsum_l. f_equal. rewrite (vsum_exchange R_ModuleSpace). apply vsum_ext. intros i _. now rewrite rsum_r.
Qed.
End Forced.
