(** A multigrid pass with linear smoothers: it is linear and keeps solutions *)
From Coq Require Import Reals List Bool Arith Lia Lra.
From Coquelicot Require Import Hierarchy.
From Verif Require Import InnerSpec InnerFacts VecTac FgmresModel SmoothModel MgModel MgSpec MgProofs.
Import ListNotations.
Local Open Scope nat_scope.

Definition jl {V W : ModuleSpace R_Ring} (f : V -> V -> W) : Prop :=
  (forall b c x y, f (plus b c) (plus x y) = plus (f b x) (f c y)) /\ (forall a b x, f (scal (V := V) a b) (scal (V := V) a x) = scal (V := W) a (f b x)).
Lemma jl_zero : forall {V W : ModuleSpace R_Ring} (f : V -> V -> W), jl f -> f zero zero = zero.
Proof. intros V W f [_ H]. transitivity (f (scal (V := V) 0%R zero) (scal (V := V) 0%R zero)); [f_equal; symmetry; exact (scal_zero_l zero)|rewrite H; exact (scal_zero_l _)]. Qed.
Lemma between_zero : forall {V W : ModuleSpace R_Ring} (f : V -> W), linear_between f -> f zero = zero.
Proof. intros V W f [_ H]. transitivity (f (scal (V := V) 0%R zero)); [f_equal; symmetry; exact (scal_zero_l zero)|rewrite H; exact (scal_zero_l _)]. Qed.

(** repeated smoothing *)
Lemma smoothing_some : forall {V : ModuleSpace R_Ring} (s : V -> option V -> option V) (f : V -> V -> V), (forall b x, s b (Some x) = Some (f b x)) -> jl f ->
  forall n, exists g, jl g /\ forall b x, smoothing (s b) n (Some x) = Some (g b x).
Proof.
  intros V s f Hs J. induction n as [|n (g & Jg & Hg)].
  - exists (fun _ x => x). split; [split; reflexivity|reflexivity].
  - exists (fun b x => g b (f b x)). split.
    + destruct J as [J1 J2], Jg as [G1 G2]. split; intros; [now rewrite J1, G1|now rewrite J2, G2].
    + intros. cbn [smoothing]. rewrite Hs. apply Hg.
Qed.
Definition value {V : ModuleSpace R_Ring} (x : option V) : V := match x with None => zero | Some x => x end.
Lemma smoothing_all : forall {V : ModuleSpace R_Ring} (s : V -> option V -> option V), linear_smoother s ->
  forall n, exists g, jl g /\ (forall b x, smoothing (s b) n (Some x) = Some (g b x)) /\ forall b x, value (smoothing (s b) n x) = g b (value x).
Proof.
  intros V s (Hn & f & Hf & J1 & J2) n. destruct (smoothing_some s f Hf (conj J1 J2) n) as (g & Jg & Hg). exists g. split; [assumption|]. split; [assumption|].
  intros b [x|]; [now rewrite Hg|]. cbn [value]. destruct n as [|n].
  - pose proof (Hg b zero) as E. cbn in *. now injection E.
  - destruct (Hn b) as [E|[E1 E2]].
    + cbn [smoothing]. rewrite E. change (smoothing (s b) n (s b (Some zero))) with (smoothing (s b) (S n) (Some zero)). now rewrite Hg.
    + assert (K : forall m, smoothing (s b) m None = None /\ smoothing (s b) m (Some zero) = Some zero) by (induction m as [|m [K1 K2]]; [split; reflexivity|cbn [smoothing]; now rewrite E1, E2]).
      destruct (K (S n)) as [K1 K2]. rewrite Hg in K2. injection K2 as K2. now rewrite K1, K2.
Qed.

Section Linear.
Context {V : nat -> ModuleSpace R_Ring}.
Variable A : forall l, V l -> V l.
Variable smooth_pre smooth_post : forall l, V l -> option (V l) -> option (V l).
Variable restrict : forall l, V l -> V (S l).
Variable prolong : forall l, V (S l) -> V l.
Variable num_pre num_post : nat.
Variable solver : forall l, V l -> V l -> option (V l).
Variable gamma : nat.
Let it u := iterate V A smooth_pre smooth_post restrict prolong num_pre num_post u solver gamma.
Hypothesis LA : forall l, linear_map (A l).
Hypothesis Lpre : forall l, linear_smoother (smooth_pre l).
Hypothesis Lpost : forall l, linear_smoother (smooth_post l).
Hypothesis Lr : forall l, linear_between (restrict l).
Hypothesis Lp : forall l, linear_between (prolong l).

Definition after_coarse (level : nat) (b : V level) (x1 : V level) (r : option (option (V (S level)) * list event)) : option (V level * list event) :=
  match r with
  | None | Some (None, _) => None
  | Some (Some c, t2) => match smoothing (smooth_post level b) num_post (Some (plus x1 (prolong level c))) with None => None | Some x => Some (x, (repeat (Pre level) num_pre ++ [Restrict level] ++ t2 ++ [Prolong level]) ++ repeat (Post level) num_post) end
  end.
Lemma iterate_S : forall u rest level b x0, it u (S rest) level b x0 =
  let x1 := value (smoothing (smooth_pre level b) num_pre x0) in after_coarse level b x1 (coarse_of (it u rest (S level) (restrict level (plus b (opp (A level x1))))) gamma None).
Proof. reflexivity. Qed.
Lemma coarse_linear : forall {W : ModuleSpace R_Ring} (F : W -> option W -> option (W * list event)) (f : W -> W -> W), jl f -> (forall b x, exists t, F b x = Some (f b (value x), t)) ->
  forall n, exists g, jl g /\ forall b x, exists t y, coarse_of (F b) n x = Some (y, t) /\ value y = g b (value x) /\ (y = None -> x = None /\ n = 0).
Proof.
  intros W F f J HF. induction n as [|n (g & Jg & Hg)].
  - exists (fun _ x => x). split; [split; reflexivity|]. intros b x. exists [], x. cbn. auto.
  - exists (fun b x => g b (f b x)). split.
    + destruct J as [J1 J2], Jg as [G1 G2]. split; intros; [now rewrite J1, G1|now rewrite J2, G2].
    + intros b x. destruct (HF b x) as [t E]. destruct (Hg b (Some (f b (value x)))) as (t' & y & E' & Ey & N). exists (t ++ t'), y. cbn [coarse_of]. rewrite E. fold (coarse_of (F b)).
      change ((fix coarse (n0 : nat) (correction : option W) {struct n0} : option (option W * list event) := match n0 with O => Some (correction, []) | S n1 => match F b correction with None => None | Some (c, t0) => match coarse n1 (Some c) with None => None | Some (c0, t'0) => Some (c0, t0 ++ t'0) end end end) n (Some (f b (value x)))) with (coarse_of (F b) n (Some (f b (value x)))).
      rewrite E'. split; [reflexivity|]. split; [exact Ey|]. intros Hy. destruct (N Hy). discriminate.
Qed.
Lemma pass_linear : 1 <= gamma -> forall rest level, exists f : V level -> V level -> V level, jl f /\ forall b x, exists t, it false rest level b x = Some (f b (value x), t).
Proof.
  intros G. induction rest as [|rest IH]; intros level.
  - destruct (smoothing_all _ (Lpre level) num_pre) as (g & Jg & _ & Hg). destruct (smoothing_all _ (Lpost level) num_post) as (h & Jh & Hh & _).
    exists (fun b x => h b (g b x)). split.
    + destruct Jh as [J1 J2], Jg as [G1 G2]. split; intros; [now rewrite G1, J1|now rewrite G2, J2].
    + intros b x. eexists. unfold it. cbn [iterate]. fold (value (smoothing (smooth_pre level b) num_pre x)). rewrite Hg, Hh. reflexivity.
  - destruct (smoothing_all _ (Lpre level) num_pre) as (g & Jg & _ & Hg). destruct (smoothing_all _ (Lpost level) num_post) as (h & Jh & Hh & _).
    destruct (IH (S level)) as (f & Jf & Hf). destruct (coarse_linear _ f Jf Hf gamma) as (k & Jk & Hk).
    exists (fun b x => let x1 := g b x in h b (plus x1 (prolong level (k (restrict level (plus b (opp (A level x1)))) zero)))). split.
    + destruct Jh as [H1 H2], Jg as [G1 G2], Jk as [K1 K2], (Lr level) as [R1 R2], (Lp level) as [P1 P2], (LA level) as [A1 A2]. split; intros.
      * cbv zeta. rewrite G1, <- H1. f_equal. rewrite A1. set (u := g b x). set (v := g c y).
        replace (plus (plus b c) (opp (plus (A level u) (A level v)))) with (plus (plus b (opp (A level u))) (plus c (opp (A level v)))) by vec.
        rewrite R1. rewrite <- (plus_zero_r (G := V (S level)) zero) at 1. rewrite K1, P1. vec.
      * cbv zeta. rewrite G2, <- H2. f_equal. rewrite A2. set (u := g b x).
        replace (plus (scal (V := V level) a b) (opp (scal (V := V level) a (A level u)))) with (scal (V := V level) a (plus b (opp (A level u)))) by vec.
        rewrite R2. rewrite <- (scal_zero_r (V := V (S level)) a) at 1. rewrite K2, P2. vec.
    + intros b x. rewrite iterate_S. cbv zeta. rewrite Hg. destruct (Hk (restrict level (plus b (opp (A level (g b (value x)))))) None) as (t & y & E & Ey & N). rewrite E.
      destruct y as [y|]; [|exfalso; destruct (N eq_refl); lia]. cbn [value] in Ey. subst y. cbn [after_coarse]. rewrite Hh. eexists. reflexivity.
Qed.
(** a zero right-hand side and no guess, or a zero guess, give zero *)
Lemma pass_zero : 1 <= gamma -> forall u, (u = true -> forall l, solver l zero zero = Some zero) -> forall rest level x, value x = zero -> exists t, it u rest level zero x = Some (zero, t).
Proof.
  intros G u Hs. induction rest as [|rest IH]; intros level x Hx.
  - destruct (smoothing_all _ (Lpre level) num_pre) as (g & Jg & _ & Hg). destruct (smoothing_all _ (Lpost level) num_post) as (h & Jh & Hh & _).
    unfold it. cbn [iterate]. fold (value (smoothing (smooth_pre level zero) num_pre x)). rewrite Hg, Hx, (jl_zero g Jg). destruct u.
    + rewrite (Hs eq_refl), Hh, (jl_zero h Jh). eexists. reflexivity.
    + rewrite Hh, (jl_zero h Jh). eexists. reflexivity.
  - destruct (smoothing_all _ (Lpre level) num_pre) as (g & Jg & _ & Hg). destruct (smoothing_all _ (Lpost level) num_post) as (h & Jh & Hh & _).
    rewrite iterate_S. cbv zeta. rewrite Hg, Hx, (jl_zero g Jg), (linear_zero _ (LA level)), opp_zero, plus_zero_r, (between_zero _ (Lr level)).
    assert (C : forall n x, value x = zero -> exists y t, coarse_of (it u rest (S level) zero) n x = Some (y, t) /\ value y = zero /\ (y = None -> x = None /\ n = 0)).
    { induction n as [|n IHn]; intros y Hy; [exists y, []; cbn; auto|]. destruct (IH (S level) y Hy) as [t E]. destruct (IHn (Some zero) eq_refl) as (z & t' & E' & Ez & N). exists z, (t ++ t'). split.
      - change (match it u rest (S level) zero y with None => None | Some (c, t) => match coarse_of (it u rest (S level) zero) n (Some c) with None => None | Some (c, t') => Some (c, t ++ t') end end = Some (z, t ++ t')). rewrite E. cbv beta iota. match goal with |- match ?e with _ => _ end = _ => replace e with (Some (z, t')) by (symmetry; exact E') end. reflexivity.
      - split; [assumption|]. intros Hz. destruct (N Hz). discriminate. }
    destruct (C gamma None eq_refl) as (y & t & E & Ey & N). rewrite E. destruct y as [y|]; [|exfalso; destruct (N eq_refl); lia]. cbn [value] in Ey. subst y. cbn [after_coarse].
    rewrite (between_zero _ (Lp level)), plus_zero_r, Hh, (jl_zero h Jh). eexists. reflexivity.
Qed.
Lemma pass_keeps : 1 <= gamma -> forall u, (u = true -> forall l, solver l zero zero = Some zero) -> keeps_solutions (A 0) (smooth_pre 0) -> keeps_solutions (A 0) (smooth_post 0) ->
  forall rest b x, A 0 x = b -> (u = false \/ 1 <= rest) -> exists t, it u rest 0 b (Some x) = Some (x, t).
Proof.
  intros G u Hs K1 K2 rest b x Hx Hr.
  assert (S1 : forall n, smoothing (smooth_pre 0 b) n (Some x) = Some x) by (induction n as [|n IH]; [reflexivity|cbn [smoothing]; now rewrite (K1 b x Hx)]).
  assert (S2 : forall n, smoothing (smooth_post 0 b) n (Some x) = Some x) by (induction n as [|n IH]; [reflexivity|cbn [smoothing]; now rewrite (K2 b x Hx)]).
  destruct rest as [|rest].
  - destruct Hr as [->|Hr]; [|lia]. unfold it. cbn [iterate]. rewrite S1, S2. eexists. reflexivity.
  - rewrite iterate_S. cbv zeta. rewrite S1. cbn [value]. rewrite Hx, plus_opp_r, (between_zero _ (Lr 0)).
    assert (C : forall n x, value x = zero -> exists y t, coarse_of (it u rest 1 zero) n x = Some (y, t) /\ value y = zero /\ (y = None -> x = None /\ n = 0)).
    { induction n as [|n IHn]; intros y Hy; [exists y, []; cbn; auto|]. destruct (pass_zero G u Hs rest 1 y Hy) as [t E]. destruct (IHn (Some zero) eq_refl) as (z & t' & E' & Ez & N). exists z, (t ++ t'). split.
      - change (match it u rest 1 zero y with None => None | Some (c, t) => match coarse_of (it u rest 1 zero) n (Some c) with None => None | Some (c, t') => Some (c, t ++ t') end end = Some (z, t ++ t')). rewrite E. cbv beta iota. match goal with |- match ?e with _ => _ end = _ => replace e with (Some (z, t')) by (symmetry; exact E') end. reflexivity.
      - split; [assumption|]. intros Hz. destruct (N Hz). discriminate. }
    destruct (C gamma None eq_refl) as (y & t & E & Ey & N). rewrite E. destruct y as [y|]; [|exfalso; destruct (N eq_refl); lia]. cbn [value] in Ey. subst y. cbn [after_coarse].
    rewrite (between_zero _ (Lp 0)), plus_zero_r, S2. eexists. reflexivity.
Qed.
(** the error after the pass is the pass with a zero right-hand side applied to the error before *)
Lemma pass_error : 1 <= gamma -> keeps_solutions (A 0) (smooth_pre 0) -> keeps_solutions (A 0) (smooth_post 0) ->
  forall rest b x xs, A 0 xs = b -> exists x' t t', it false rest 0 b (Some x) = Some (x', t) /\ it false rest 0 zero (Some (plus x (opp xs))) = Some (plus x' (opp xs), t').
Proof.
  intros G K1 K2 rest b x xs Hx. destruct (pass_linear G rest 0) as (f & [F1 F2] & Hf). destruct (Hf b (Some x)) as [t E]. destruct (Hf zero (Some (plus x (opp xs)))) as [t' E'].
  exists (f b x), t, t'. split; [exact E|]. rewrite E'. cbn [value]. do 2 f_equal.
  destruct (pass_keeps G false ltac:(discriminate) K1 K2 rest b xs Hx (or_introl eq_refl)) as [t2 E2]. destruct (Hf b (Some xs)) as [t3 E3]. rewrite E2 in E3. injection E3 as E3 _. cbn [value] in E3.
  rewrite E3 at 2. rewrite <- (scal_opp_one (V := V 0) (f b xs)), <- F2, <- F1. f_equal; vec_with ltac:(unfold opp, one; cbn; lra).
Qed.
End Linear.

(** * The smoothers *)
Section Smoothers.
Context {V : ModuleSpace R_Ring}.
Variable h : V -> V.
Variable A : V -> V.
Hypothesis Lh : linear_map h.
Hypothesis LA : linear_map A.
Let z (f : V -> V) (L : linear_map f) : f zero = zero := linear_zero f L.
Lemma rk1_linear : linear_smoother (fun b x => Some (rk1 h A b x)).
Proof.
  split.
  - intros b. left. unfold rk1. rewrite (z A LA). do 2 f_equal. replace (plus b (opp zero)) with b by vec. vec.
  - exists (fun b x => rk1 h A b (Some x)). split; [reflexivity|]. unfold rk1. destruct Lh as [H1 H2], LA as [A1 A2]. split; intros.
    + rewrite A1. replace (plus (plus b c) (opp (plus (A x) (A y)))) with (plus (plus b (opp (A x))) (plus c (opp (A y)))) by vec. rewrite H1. vec.
    + rewrite A2. replace (plus (scal (V := V) a b) (opp (scal (V := V) a (A x)))) with (scal (V := V) a (plus b (opp (A x)))) by vec. rewrite H2. vec.
Qed.
Lemma rk1_keeps : keeps_solutions A (fun b x => Some (rk1 h A b x)).
Proof. intros b x <-. unfold rk1. now rewrite plus_opp_r, (z h Lh), plus_zero_r. Qed.
Lemma rk3_keeps : keeps_solutions A (fun b x => Some (rk3 h A b x)).
Proof. intros b x <-. unfold rk3. cbv zeta. now rewrite !plus_opp_r, (z h Lh), !scal_zero_r, !plus_zero_r, !plus_opp_r, !(z h Lh), !scal_zero_r, !plus_zero_r, !plus_opp_r, !(z h Lh), !plus_zero_r. Qed.
(** x + a h (b - A y) is linear in b, x and y *)
Definition stage (a : R) (b x y : V) : V := plus x (scal (V := V) a (h (plus b (opp (A y))))).
Lemma stage_plus : forall a b c x y u v, stage a (plus b c) (plus x y) (plus u v) = plus (stage a b x u) (stage a c y v).
Proof. intros. unfold stage. destruct Lh as [H1 _], LA as [A1 _]. rewrite A1. replace (plus (plus b c) (opp (plus (A u) (A v)))) with (plus (plus b (opp (A u))) (plus c (opp (A v)))) by vec. rewrite H1. vec. Qed.
Lemma stage_scal : forall k a b x u, stage a (scal (V := V) k b) (scal (V := V) k x) (scal (V := V) k u) = scal (V := V) k (stage a b x u).
Proof. intros. unfold stage. destruct Lh as [_ H2], LA as [_ A2]. rewrite A2. replace (plus (scal (V := V) k b) (opp (scal (V := V) k (A u)))) with (scal (V := V) k (plus b (opp (A u)))) by vec. rewrite H2. vec. Qed.
Lemma one_scal : forall x : V, scal (V := V) 1%R x = x. Proof. intros x. exact (scal_one x). Qed.
Lemma rk3_stages : forall b x, rk3 h A b (Some x) = stage 1 b x (stage (395 / 1000) b x (stage (145 / 1000) b x x)).
Proof. intros. unfold rk3, stage. now rewrite one_scal. Qed.
Lemma rk3_linear : linear_smoother (fun b x => Some (rk3 h A b x)).
Proof.
  split.
  - intros b. left. f_equal. rewrite rk3_stages. unfold rk3, stage. cbv zeta. rewrite (z A LA). replace (plus b (opp zero)) with b by vec. rewrite !plus_zero_l. now rewrite one_scal.
  - exists (fun b x => rk3 h A b (Some x)). split; [reflexivity|]. split; intros; rewrite !rk3_stages; [now rewrite !stage_plus|now rewrite !stage_scal].
Qed.
End Smoothers.
