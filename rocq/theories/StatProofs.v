From Coq Require Import Reals List Arith ZArith Lra Lia Permutation Bool.
From Verif Require Import StatModel StatSpec.
Import ListNotations.
Local Open Scope R_scope.

Lemma total_app : forall a b, total (a ++ b) = total a + total b.
Proof. unfold total. induction a as [|x a IH]; intros b; cbn [app fold_right]; [lra|]. rewrite IH. lra. Qed.
Lemma total_flat : forall {A} (f : A -> list R) l, total (flat_map f l) = total (map (fun x => total (f x)) l).
Proof. induction l as [|x l IH]; [reflexivity|]. cbn [flat_map map]. rewrite total_app, IH. reflexivity. Qed.
Lemma map_flat : forall {A B C} (g : B -> C) (f : A -> list B) l, map g (flat_map f l) = flat_map (fun x => map g (f x)) l.
Proof. induction l as [|x l IH]; [reflexivity|]. cbn [flat_map]. rewrite map_app, IH. reflexivity. Qed.
Lemma total_perm : forall a b, Permutation a b -> total a = total b.
Proof. unfold total. induction 1; cbn [fold_right] in *; lra. Qed.
Lemma total_pos : forall l, (forall x, In x l -> 0 <= x) -> 0 <= total l.
Proof. induction l as [|x l IH]; intros H; cbn; [lra|]. pose proof (H x (or_introl eq_refl)). pose proof (IH (fun y I => H y (or_intror I))) as G. unfold total in G. lra. Qed.
Lemma total_zero : forall l, (forall x, In x l -> 0 <= x) -> total l = 0 -> forall x, In x l -> x = 0.
Proof.
  induction l as [|y l IH]; intros H E x I; [destruct I|]. cbn in E. pose proof (H y (or_introl eq_refl)) as A. pose proof (total_pos l (fun z J => H z (or_intror J))) as B. unfold total in B.
  destruct I as [->|I]; [lra|]. apply IH; [intros z J; apply H; now right|unfold total; lra|exact I].
Qed.
Lemma total_scale : forall {A} (f : A -> R) c l, total (map (fun x => c * f x) l) = c * total (map f l).
Proof. intros A f c l. unfold total. induction l as [|x l IH]; cbn [map fold_right]; [lra|rewrite IH; lra]. Qed.

Lemma Rmax_or : forall a b, Rmax a b = a \/ Rmax a b = b.
Proof. intros a b. unfold Rmax. destruct (Rle_dec a b); auto. Qed.
Section Points.
Variables (ns : nat) (qw : nat -> nat -> R) (tiles : list tile).
Notation pts := (points ns tiles).
Notation w := (weight ns qw).
Notation v := (value ns).
Lemma integral_points : forall f, global_integral ns qw tiles f = total (map (fun x => v f x * w x) pts).
Proof.
  intros f. unfold global_integral, points. rewrite map_flat, total_flat. f_equal. apply map_ext. intros [r t]. unfold local_sum. rewrite map_map. f_equal. apply map_ext. intros [e [i k]]. cbn. ring.
Qed.
(** the largest value *)
Definition greatest (m : R) (l : list R) : Prop := In m l /\ forall x, In x l -> x <= m.
Lemma largest_ok : forall l, match largest l with Some m => greatest m l | None => l = [] end.
Proof.
  destruct l as [|a l]; cbn; [reflexivity|]. revert a. induction l as [|b l IH]; intros a; cbn [fold_right].
  - split; [now left|]. intros x [->|[]]; lra.
  - destruct (IH a) as [I1 I2]. split.
    + destruct (Rmax_or b (fold_right Rmax a l)) as [->| ->]; [right; left; reflexivity|destruct I1 as [I1|I1]; [left; exact I1|right; right; exact I1]].
    + intros x [<-|[<-|J]]; [apply Rle_trans with (2 := Rmax_r _ _); apply I2; now left|apply Rmax_l|apply Rle_trans with (2 := Rmax_r _ _); apply I2; now right].
Qed.
Lemma each_ok : forall {A} (f : A -> list R) l, (forall a, In a l -> f a <> []) -> exists r, each (fun a => largest (f a)) l = Some r /\ Forall2 (fun a m => greatest m (f a)) l r.
Proof.
  induction l as [|a l IH]; intros H; [exists []; split; [reflexivity|constructor]|]. destruct IH as (r & E & F); [intros b I; apply H; now right|]. cbn [each]. pose proof (largest_ok (f a)) as L. destruct (largest (f a)) as [m|].
  - exists (m :: r). rewrite E. split; [reflexivity|constructor; assumption].
  - destruct (H a (or_introl eq_refl) L).
Qed.
Lemma Forall2_in : forall {A B} (P : A -> B -> Prop) l r, Forall2 P l r -> (forall a, In a l -> exists b, In b r /\ P a b) /\ (forall b, In b r -> exists a, In a l /\ P a b).
Proof.
  induction 1 as [|a b l r p _ [IH1 IH2]]; [split; intros ? []|]. split; [intros x [<-|I]; [exists b; split; [now left|exact p]|destruct (IH1 x I) as (y & J & q); exists y; split; [now right|exact q]]|].
  intros y [<-|I]; [exists a; split; [now left|exact p]|destruct (IH2 y I) as (x & J & q); exists x; split; [now right|exact q]].
Qed.
Lemma max_points : forall f, (0 < ns)%nat -> tiles <> [] -> (forall t, In t tiles -> (0 < elements t)%nat) -> exists m, global_max ns tiles f = Some m /\ greatest m (map (v f) pts).
Proof.
  intros f Hn Ht He. unfold global_max.
  set (vals := fun p : nat * tile => map (fun c => let '(e, (i, k)) := c in f (fst p) e (i * ns + k)%nat) (cells ns (snd p))).
  destruct (each_ok vals (combine (seq 0 (length tiles)) tiles)) as (r & E & F).
  { intros [q t] I EM. apply in_combine_r in I. specialize (He t I). unfold vals in EM. apply map_eq_nil in EM. unfold cells in EM. cbn [snd] in EM. destruct (elements t) as [|e]; [lia|]. destruct ns as [|n]; [lia|]. discriminate. }
  change (each (fun p => largest (vals p)) (combine (seq 0 (length tiles)) tiles) = Some r) in E. unfold vals in E. rewrite E. destruct (Forall2_in _ _ _ F) as [F1 F2]. pose proof (largest_ok r) as L. destruct (largest r) as [m|].
  - exists m. split; [reflexivity|]. destruct L as [L1 L2]. unfold points. rewrite map_flat. 
    assert (EQ : forall p, map (v f) (map (fun c => (fst p, snd p, fst c, fst (snd c), snd (snd c))) (cells ns (snd p))) = vals p) by (intros [q t]; unfold vals; rewrite map_map; apply map_ext; intros [e [i k]]; reflexivity).
    split.
    + destruct (F2 m L1) as (p & I & G). apply in_flat_map. exists p. rewrite EQ. split; [exact I|exact (proj1 G)].
    + intros x I. apply in_flat_map in I. destruct I as (p & I & J). rewrite EQ in J. destruct (F1 p I) as (y & K & G). apply Rle_trans with y; [exact (proj2 G x J)|exact (L2 y K)].
  - subst r. inversion F as [EC|]. destruct tiles as [|t l]; [contradiction|discriminate].
Qed.
Lemma greatest_unique : forall a b l, greatest a l -> greatest b l -> a = b.
Proof. intros a b l [A1 A2] [B1 B2]. apply Rle_antisym; auto. Qed.
Lemma points_nonempty : (0 < ns)%nat -> tiles <> [] -> (forall t, In t tiles -> (0 < elements t)%nat) -> exists x, In x pts.
Proof. intros Hn Ht He. destruct (max_points (fun _ _ _ => 0) Hn Ht He) as (m & _ & I & _). apply in_map_iff in I. destruct I as (x & _ & I). now exists x. Qed.
End Points.
Lemma greatest_perm : forall m a b, Permutation a b -> greatest m a -> greatest m b.
Proof. intros m a b P [A B]. split; [now apply (Permutation_in _ P)|]. intros x I. apply B. now apply (Permutation_in _ (Permutation_sym P)). Qed.

(** ** the norms of the error *)
Section Norms.
Variables (ns : nat) (qw : nat -> nat -> R) (tiles : list tile).
Hypothesis PR : proper ns qw tiles.
Notation pts := (points ns tiles).
Notation w := (weight ns qw).
Notation v := (value ns).
Variables (h ex : field).
Lemma value_abs : forall x, v (fun r e p => Rabs (h r e p - ex r e p)) x = Rabs (v h x - v ex x).
Proof. intros [[[[r t] e] i] k]. reflexivity. Qed.
Lemma value_abs1 : forall x, v (fun r e p => Rabs (ex r e p)) x = Rabs (v ex x).
Proof. intros [[[[r t] e] i] k]. reflexivity. Qed.
Lemma value_sq : forall x, v (fun r e p => (h r e p - ex r e p) ^ 2) x = (v h x - v ex x) ^ 2.
Proof. intros [[[[r t] e] i] k]. reflexivity. Qed.
Lemma value_sq1 : forall x, v (fun r e p => ex r e p ^ 2) x = v ex x ^ 2.
Proof. intros [[[[r t] e] i] k]. reflexivity. Qed.
(** the report in terms of the points *)
Lemma norms_points : exists E M, error_norms ns qw tiles h ex = Some (Errors
    (quot (total (map (fun x => Rabs (v h x - v ex x) * w x) pts)) (total (map (fun x => Rabs (v ex x) * w x) pts)))
    (option_map sqrt (quot (total (map (fun x => (v h x - v ex x) ^ 2 * w x) pts)) (total (map (fun x => v ex x ^ 2 * w x) pts)))) (quot E M)) /\
  greatest E (map (fun x => Rabs (v h x - v ex x)) pts) /\ greatest M (map (v ex) pts).
Proof.
  destruct PR as (Hn & Ht & He & _). destruct (max_points ns tiles (fun r e p => Rabs (h r e p - ex r e p)) Hn Ht He) as (E & E1 & E2), (max_points ns tiles ex Hn Ht He) as (M & M1 & M2).
  exists E, M. split; [|split; [rewrite (map_ext _ _ value_abs) in E2; exact E2|exact M2]].
  unfold error_norms. rewrite !integral_points, E1, M1. f_equal. f_equal; [f_equal|f_equal; f_equal]; unfold total; f_equal; apply map_ext; intros x; now rewrite ?value_abs, ?value_abs1, ?value_sq, ?value_sq1.
Qed.
Lemma weighted_zero : forall (g : nat * tile * nat * nat * nat -> R), (forall x, In x pts -> 0 <= g x) -> total (map (fun x => g x * w x) pts) = 0 <-> forall x, In x pts -> g x = 0.
Proof.
  destruct PR as (_ & _ & _ & W). intros g P. split.
  - intros E x I. assert (N : forall y, In y (map (fun x => g x * w x) pts) -> 0 <= y). { intros y J. apply in_map_iff in J. destruct J as (z & <- & J). apply Rmult_le_pos; [now apply P|left; now apply W]. }
    pose proof (total_zero _ N E (g x * w x) (in_map (fun x => g x * w x) _ _ I)) as Z. apply Rmult_integral in Z. destruct Z as [Z|Z]; [exact Z|]. pose proof (W x I). lra.
  - intros Z. replace (map (fun x => g x * w x) pts) with (map (fun _ : nat * tile * nat * nat * nat => 0 * 1) pts) by (apply map_ext_in; intros x I; rewrite (Z x I); ring). rewrite (total_scale (fun _ => 1)). ring.
Qed.
Lemma weighted_pos : forall (g : nat * tile * nat * nat * nat -> R), (forall x, In x pts -> 0 <= g x) -> 0 <= total (map (fun x => g x * w x) pts).
Proof. destruct PR as (_ & _ & _ & W). intros g P. apply total_pos. intros y J. apply in_map_iff in J. destruct J as (z & <- & J). apply Rmult_le_pos; [now apply P|left; now apply W]. Qed.
(** a nonnegative analytic depth that is positive somewhere: the three numbers are finite *)
Definition partly_positive : Prop := (forall x, In x pts -> 0 <= v ex x) /\ exists x, In x pts /\ 0 < v ex x.
Hypothesis PP : partly_positive.
Lemma denominators : 0 < total (map (fun x => Rabs (v ex x) * w x) pts) /\ 0 < total (map (fun x => v ex x ^ 2 * w x) pts) /\ forall M, greatest M (map (v ex) pts) -> 0 < M.
Proof.
  destruct PP as [P (y & I & Y)]. split; [|split].
  - destruct (weighted_pos (fun x => Rabs (v ex x))) as [L|E]; [intros; apply Rabs_pos|exact L|]. symmetry in E. apply (proj1 (weighted_zero (fun x => Rabs (v ex x)) (fun x _ => Rabs_pos _))) with (x := y) in E; [|exact I]. cbv beta in E. rewrite Rabs_pos_eq in E; lra.
  - destruct (weighted_pos (fun x => v ex x ^ 2)) as [L|E]; [intros; apply pow2_ge_0|exact L|]. symmetry in E. apply (proj1 (weighted_zero (fun x => v ex x ^ 2) (fun x _ => pow2_ge_0 _))) with (x := y) in E; [|exact I]. cbv beta in E. assert (0 < v ex y ^ 2) by (apply pow_lt; lra). lra.
  - intros M [_ G]. apply Rlt_le_trans with (1 := Y). apply G. now apply in_map.
Qed.
Lemma quot_pos : forall a b, 0 < b -> quot a b = Some (a / b).
Proof. intros a b H. unfold quot. destruct (Req_EM_T b 0); [lra|reflexivity]. Qed.
Theorem norms_finite : exists a b c, error_norms ns qw tiles h ex = Some (Errors (Some a) (Some b) (Some c)) /\ 0 <= a /\ 0 <= b /\ 0 <= c /\
  (a = 0 <-> forall x, In x pts -> v h x = v ex x) /\ (b = 0 <-> forall x, In x pts -> v h x = v ex x) /\ (c = 0 <-> forall x, In x pts -> v h x = v ex x).
Proof.
  destruct norms_points as (E & M & EQ & G & GM). destruct denominators as (D1 & D2 & D3). specialize (D3 M GM). rewrite EQ, !quot_pos by assumption. cbn [option_map].
  set (a := total (map (fun x => Rabs (v h x - v ex x) * w x) pts)). set (b := total (map (fun x => (v h x - v ex x) ^ 2 * w x) pts)).
  assert (A0 : 0 <= a) by (apply weighted_pos; intros; apply Rabs_pos). assert (B0 : 0 <= b) by (apply weighted_pos; intros; apply pow2_ge_0).
  assert (E0 : 0 <= E). { destruct G as [I _]. apply in_map_iff in I. destruct I as (x & <- & _). apply Rabs_pos. }
  assert (Q : forall p q, 0 < q -> (p / q = 0 <-> p = 0)). { intros p q Hq. split; [intros Z; apply Rmult_integral in Z; destruct Z as [Z|Z]; [exact Z|]; pose proof (Rinv_0_lt_compat q Hq); lra|intros ->; unfold Rdiv; ring]. }
  assert (N : forall p q, 0 <= p -> 0 < q -> 0 <= p / q) by (intros p q H1 H2; unfold Rdiv; apply Rmult_le_pos; [lra|left; now apply Rinv_0_lt_compat]).
  do 3 eexists. split; [reflexivity|]. split; [now apply N|]. split; [apply sqrt_pos|]. split; [now apply N|]. split; [|split].
  - rewrite Q by exact D1. unfold a. rewrite weighted_zero by (intros; apply Rabs_pos). split; intros H x I; [specialize (H x I); cbv beta in H; destruct (Req_dec (v h x - v ex x) 0) as [e|e]; [lra|destruct (Rabs_no_R0 _ e H)]|rewrite (H x I), Rminus_diag_eq by reflexivity; apply Rabs_R0].
  - split.
    + intros H. assert (B1 : b = 0). { apply sqrt_eq_0 in H; [|now apply N]. now apply Q in H. } unfold b in B1. rewrite weighted_zero in B1 by (intros; apply pow2_ge_0). intros x I. specialize (B1 x I). cbv beta in B1. apply Rsqr_0_uniq with (r := v h x - v ex x) in B1 || (assert (Z : (v h x - v ex x) * (v h x - v ex x) = 0) by lra; apply Rmult_integral in Z; lra).
    + intros H. replace b with 0; [rewrite (proj2 (Q 0 _ D2) eq_refl); apply sqrt_0|]. symmetry. apply weighted_zero; [intros; apply pow2_ge_0|]. intros x I. rewrite (H x I). ring.
  - rewrite Q by exact D3. destruct G as [G1 G2]. split.
    + intros H x I. specialize (G2 _ (in_map (fun x => Rabs (v h x - v ex x)) _ _ I)). cbv beta in G2. pose proof (Rabs_pos (v h x - v ex x)). destruct (Req_dec (v h x - v ex x) 0) as [e|e]; [lra|]. destruct (Rabs_no_R0 _ e). lra.
    + intros H. apply in_map_iff in G1. destruct G1 as (x & <- & I). rewrite (H x I), Rminus_diag_eq by reflexivity. apply Rabs_R0.
Qed.
(** an error in proportion to the analytic depth *)
Theorem norms_uniform : forall c, (forall x, In x pts -> v h x = (1 + c) * v ex x) -> error_norms ns qw tiles h ex = Some (Errors (Some (Rabs c)) (Some (Rabs c)) (Some (Rabs c))).
Proof.
  intros c H. destruct norms_points as (E & M & EQ & G & GM). destruct denominators as (D1 & D2 & D3). specialize (D3 M GM). rewrite EQ, !quot_pos by assumption. cbn [option_map]. destruct PP as [P _].
  assert (H1 : forall x, In x pts -> v h x - v ex x = c * v ex x) by (intros x I; rewrite (H x I); ring).
  assert (T1 : map (fun x => Rabs (v h x - v ex x) * w x) pts = map (fun x => Rabs c * (Rabs (v ex x) * w x)) pts) by (apply map_ext_in; intros x I; rewrite (H1 x I), Rabs_mult; ring).
  assert (T2 : map (fun x => (v h x - v ex x) ^ 2 * w x) pts = map (fun x => c ^ 2 * (v ex x ^ 2 * w x)) pts) by (apply map_ext_in; intros x I; rewrite (H1 x I); ring).
  assert (T3 : E = Rabs c * M). { apply (greatest_unique E (Rabs c * M) (map (fun x => Rabs (v h x - v ex x)) pts)); [exact G|]. destruct GM as [M1 M2]. split.
    - apply in_map_iff in M1. destruct M1 as (x & <- & I). apply in_map_iff. exists x. split; [|exact I]. rewrite (H1 x I), Rabs_mult. f_equal. apply Rabs_pos_eq. auto.
    - intros y J. apply in_map_iff in J. destruct J as (x & <- & I). rewrite (H1 x I), Rabs_mult, (Rabs_pos_eq (v ex x)) by auto. apply Rmult_le_compat_l; [apply Rabs_pos|]. apply M2. now apply in_map. }
  rewrite T1, T2, T3, !total_scale. unfold Rdiv. rewrite !Rmult_assoc, !Rinv_r by lra. rewrite !Rmult_1_r. do 3 f_equal. rewrite <- Rsqr_pow2. apply sqrt_Rsqr_abs.
Qed.
End Norms.

(** ** any division among the processes *)
Section Divisions.
Variables (ns : nat) (qw : nat -> nat -> R) (tiles tiles' : list tile) (q q' : fields) (analytic analytic' : Z -> R -> field) (case : Z) (time : R).
Hypotheses (PR : proper ns qw tiles) (PR' : proper ns qw tiles').
(** what the statistics use of a point *)
Definition sample (ns : nat) (qw : nat -> nat -> R) (q : fields) (ex : field) (x : nat * tile * nat * nat * nat) : R * R * R * R * R :=
  (weight ns qw x, value ns (depth q) x, value ns ex x, value ns (energy q) x, value ns (enstrophy q) x).
Hypothesis PE : Permutation (map (sample ns qw q (analytic case time)) (points ns tiles)) (map (sample ns qw q' (analytic' case time)) (points ns tiles')).
Lemma same_total : forall g : R * R * R * R * R -> R, total (map (fun x => g (sample ns qw q (analytic case time) x)) (points ns tiles)) = total (map (fun x => g (sample ns qw q' (analytic' case time) x)) (points ns tiles')).
Proof. intros g. pose proof (total_perm _ _ (Permutation_map g PE)) as Q. rewrite !map_map in Q. exact Q. Qed.
Lemma same_integrals : integrate ns qw tiles q = integrate ns qw tiles' q'.
Proof.
  unfold integrate. rewrite !integral_points. f_equal.
  - exact (same_total (fun s => let '(w, h, e, a, b) := s in h * w)).
  - exact (same_total (fun s => let '(w, h, e, a, b) := s in a * w)).
  - exact (same_total (fun s => let '(w, h, e, a, b) := s in b * w)).
Qed.
Lemma same_norms : error_norms ns qw tiles (depth q) (analytic case time) = error_norms ns qw tiles' (depth q') (analytic' case time).
Proof.
  destruct (norms_points ns qw tiles PR (depth q) (analytic case time)) as (E & M & EQ & G & GM), (norms_points ns qw tiles' PR' (depth q') (analytic' case time)) as (E' & M' & EQ' & G' & GM'). rewrite EQ, EQ'.
  assert (EE : E = E').
  { apply (greatest_unique E E' (map (fun x => Rabs (value ns (depth q') x - value ns (analytic' case time) x)) (points ns tiles'))); [|exact G'].
    apply (greatest_perm E (map (fun x => Rabs (value ns (depth q) x - value ns (analytic case time) x)) (points ns tiles))); [|exact G].
    pose proof (Permutation_map (fun s : R * R * R * R * R => let '(w, h, e, a, b) := s in Rabs (h - e)) PE) as Q. rewrite !map_map in Q. exact Q. }
  assert (MM : M = M').
  { apply (greatest_unique M M' (map (value ns (analytic' case time)) (points ns tiles'))); [|exact GM'].
    apply (greatest_perm M (map (value ns (analytic case time)) (points ns tiles))); [|exact GM].
    pose proof (Permutation_map (fun s : R * R * R * R * R => let '(w, h, e, a, b) := s in e) PE) as Q. rewrite !map_map in Q. exact Q. }
  rewrite EE, MM. do 2 f_equal.
  - f_equal; [exact (same_total (fun s => let '(w, h, e, a, b) := s in Rabs (h - e) * w))|exact (same_total (fun s => let '(w, h, e, a, b) := s in Rabs e * w))].
  - do 2 f_equal; [exact (same_total (fun s => let '(w, h, e, a, b) := s in (h - e) ^ 2 * w))|exact (same_total (fun s => let '(w, h, e, a, b) := s in e ^ 2 * w))].
Qed.
Theorem same_report : forall first, blockstats ns qw tiles analytic case time q first = blockstats ns qw tiles' analytic' case time q' first.
Proof. intros first. unfold blockstats. rewrite same_integrals, same_norms. reflexivity. Qed.
End Divisions.
