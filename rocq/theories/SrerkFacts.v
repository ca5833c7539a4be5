From Coq Require Import Reals Lra Lia List Arith.
From Coquelicot Require Import Coquelicot.
From Verif Require Import SrerkModel SrerkSpec SrerkProofs.
From Verif Require SrerkNodes.
Import ListNotations.
Local Open Scope R_scope.

(** the coefficients of the code, for real nodes *)
Definition alpha_matrix : list R -> nat -> nat -> R := SrerkNodes.alphaR.
Lemma inside_nonzero (c : list R) : List.Forall (fun x => 0 < x < 1) c -> ~ In 0 c.
Proof. intros H Hz. rewrite List.Forall_forall in H. destruct (H 0 Hz). lra. Qed.

(** the stages *)
Lemma range2_spec fuel s e : (e <= s + 2 * fuel)%nat -> range2 fuel s e = map (fun i => s + 2 * i)%nat (seq 0 ((e + 1 - s) / 2)).
Proof.
  revert s. induction fuel as [|n IH]; intros s H.
  - replace ((e + 1 - s) / 2)%nat with 0%nat; trivial. symmetry. apply Nat.div_small. lia.
  - cbn [range2]. destruct (s <? e)%nat eqn:E.
    + apply Nat.ltb_lt in E. replace (e + 1 - s)%nat with (e + 1 - (s + 2) + 1 * 2)%nat by lia. rewrite Nat.div_add, Nat.add_1_r by lia. cbn [seq map].
      rewrite Nat.mul_0_r, Nat.add_0_r. f_equal. rewrite IH, <- seq_shift, map_map by lia. apply map_ext. intro i. lia.
    + apply Nat.ltb_ge in E. replace ((e + 1 - s) / 2)%nat with 0%nat; trivial. symmetry. apply Nat.div_small. lia.
Qed.
Lemma nodes_form roots order nodes : (forall o, roots_of (node_poly o) (roots (node_poly o))) -> opt_nodes roots order = Some nodes ->
  (3 <= order)%nat /\ exists pre c, nodes = pre ++ [c; [1]] /\ length pre = ((order - 3) / 2)%nat /\ (forall i, (i < length pre)%nat -> roots_of (node_poly (2 * (i + 1))) (nth i pre []))
    /\ roots_of (node_poly (order - 2)) c.
Proof.
  intros HR. unfold opt_nodes. destruct (order <? 3)%nat eqn:E; [discriminate|]. apply Nat.ltb_ge in E. intro H. injection H as <-. split; trivial.
  unfold stage_orders. rewrite range2_spec by lia. replace (order - 2 + 1 - 2)%nat with (order - 3)%nat by lia.
  exists (map (fun i => roots (node_poly (2 + 2 * i))) (seq 0 ((order - 3) / 2))), (roots (node_poly (order - 2))). split.
  { rewrite map_app, map_map, <- app_assoc. reflexivity. }
  rewrite map_length, seq_length. split; [reflexivity|]. split; [|apply HR]. intros i Hi.
  rewrite nth_indep with (d' := roots (node_poly (2 + 2 * 0))) by (rewrite map_length, seq_length; trivial).
  rewrite (map_nth (fun i => roots (node_poly (2 + 2 * i)))), seq_nth by trivial. replace (2 + 2 * (0 + i))%nat with (2 * (i + 1))%nat by lia. apply HR.
Qed.

Section Theorems.
Variable V : NormedModule R_AbsRing.
Variables (roots : list R -> list R) (order : nat) (nodes : list (list R)) (dt : R).
Hypothesis (HR : forall o, roots_of (node_poly o) (roots (node_poly o))) (HN : opt_nodes roots order = Some nodes) (Hdt : dt <> 0).
Lemma linear_exact (solve : list R -> (V -> V) -> list V -> list V) L b q : linear L -> exact_solver (fun x => scal dt (L x)) solve ->
  exists q', srerk_step V alpha_matrix solve (fun x => plus (L x) b) (fun x => scal dt (L x)) q dt nodes = Some q' /\ on_solution (fun x => plus (L x) b) q dt q'.
Proof. intros HL HS. destruct (nodes_form _ _ _ HR HN) as (_ & pre & c & -> & _). now apply affine_step. Qed.
Lemma forced_exact (solve : list R -> (R * V -> R * V) -> list (R * V) -> list (R * V)) L a t0 u0 : linear L -> (length a <= order)%nat ->
  exact_solver (V := prod_NormedModule R_AbsRing R_NormedModule V) (forced_jac L (poly_slope a t0) dt) solve ->
  exists q', srerk_step (prod_NormedModule R_AbsRing R_NormedModule V) alpha_matrix solve (forced L (poly_at a)) (forced_jac L (poly_slope a t0) dt) (t0, u0) dt nodes = Some q'
    /\ on_solution (V := prod_NormedModule R_AbsRing R_NormedModule V) (forced L (poly_at a)) (t0, u0) dt q'.
Proof.
  intros HL Ha HS. destruct (nodes_form _ _ _ HR HN) as (Ho & pre & c & -> & _ & _ & Hc). destruct (SrerkNodes.nodes_facts Hc) as (El & U & B).
  apply forced_step; trivial; [|eapply Nat.le_trans; [exact Ha|lia]]. apply SrerkNodes.alphaR_ok; trivial. now apply inside_nonzero.
Qed.
Lemma quadrature_exact (solve : list R -> (R * V -> R * V) -> list (R * V) -> list (R * V)) a t0 u0 (G : R -> V) : (length a <= 2 * order - 2)%nat ->
  exact_solver (V := prod_NormedModule R_AbsRing R_NormedModule V) (forced_jac (fun _ => zero) (poly_slope a t0) dt) solve -> (forall s, is_derive G s (poly_at a s)) ->
  srerk_step (prod_NormedModule R_AbsRing R_NormedModule V) alpha_matrix solve (forced (fun _ => zero) (poly_at a)) (forced_jac (fun _ => zero) (poly_slope a t0) dt) (t0, u0) dt nodes
    = Some (t0 + dt, plus u0 (minus (G (t0 + dt)) (G t0))).
Proof.
  intros Ha HS HG. destruct (nodes_form _ _ _ HR HN) as (Ho & pre & c & -> & _ & _ & Hc). apply forced_quad; trivial.
  - split; intros; [symmetry; apply plus_zero_l|symmetry; apply (scal_zero_r (V := V))].
  - intros l Hl. apply (SrerkNodes.alphaR_quadrature Hc). eapply Nat.lt_le_trans; [exact Hl|]. clear - Ha Ho. change (length a - 2 <= order - 2 + (order - 2))%nat. lia.
Qed.
End Theorems.

(** * the hypotheses can be met *)
From Coq Require Import Epsilon.
Lemma roots_function : exists roots, forall o, roots_of (node_poly o) (roots (node_poly o)).
Proof.
  exists (fun l => epsilon (inhabits []) (roots_of l)). intro o. apply epsilon_spec. destruct (SrerkNodes.nodes_exist_sorted o) as (c & H & _). now exists c.
Qed.
Lemma slope_eq {V : NormedModule R_AbsRing} (f : R -> V) s (d d' : V) : d = d' -> is_derive f s d -> is_derive f s d'.
Proof. now intros ->. Qed.
Lemma is_derive_pair (f g : R -> R) s (df dg : R) : is_derive f s df -> is_derive g s dg ->
  is_derive (V := prod_NormedModule R_AbsRing R_NormedModule R_NormedModule) (fun t => (f t, g t)) s (df, dg).
Proof.
  intros Hf Hg. pose (W := prod_NormedModule R_AbsRing R_NormedModule R_NormedModule).
  assert (L1 : is_linear (V := W) (fun x : R_NormedModule => (x, zero) : W)) by (apply (is_linear_prod (fun x => x) (fun _ => zero)); [apply is_linear_id|apply is_linear_zero]).
  assert (L2 : is_linear (V := W) (fun x : R_NormedModule => (zero, x) : W)) by (apply (is_linear_prod (fun _ => zero) (fun x => x)); [apply is_linear_zero|apply is_linear_id]).
  pose proof (is_derive_lin _ f s df L1 Hf) as D1. pose proof (is_derive_lin _ g s dg L2 Hg) as D2. pose proof (is_derive_plus (V := W) _ _ s _ _ D1 D2) as D.
  assert (E : forall x y : R, plus (x, zero) ((zero, y) : W) = (x, y)) by (intros x y; apply injective_projections; [apply Rplus_0_r|apply Rplus_0_l]).
  rewrite E in D. eapply is_derive_ext; [|exact D]. intro t. apply E.
Qed.
Lemma antiderivative (h : R -> R) : (forall s, continuous h s) -> forall s, is_derive (fun t => RInt h 0 t) s (h s).
Proof.
  intros H s. apply (is_derive_RInt h (fun t => RInt h 0 t) 0 s); [|apply H]. apply filter_forall. intro t. apply (RInt_correct (V := R_CompleteNormedModule)). apply (ex_RInt_continuous (V := R_CompleteNormedModule)). intros; apply H.
Qed.
Lemma taylor_continuous (u : list R) k s : continuous (fun t => taylor (V := R_ModuleSpace) u k t) s.
Proof.
  revert k. induction u as [|x u IH]; intro k; [apply continuous_const|]. cbn [taylor]. apply (continuous_plus (V := R_NormedModule)); [|apply IH].
  apply (ex_derive_continuous (fun t => t ^ k / INR (fact k) * x)). auto_derive; trivial.
Qed.
Lemma linear_ode kappa y0 (h : R -> R) : (forall s, continuous h s) -> exists y, y 0 = y0 /\ forall s, is_derive y s (kappa * y s + h s).
Proof.
  intro H. pose (k := fun r => exp (- kappa * r) * h r).
  assert (K : forall s, continuous k s) by (intro s; apply (continuous_mult (K := R_AbsRing)); [apply (ex_derive_continuous (fun r => exp (- kappa * r))); auto_derive; trivial|apply H]).
  exists (fun s => exp (kappa * s) * (y0 + RInt k 0 s)). split.
  - rewrite RInt_point, Rmult_0_r, exp_0. change (1 * (y0 + 0) = y0). ring.
  - intro s. pose proof (antiderivative k K s) as D.
    assert (D1 : is_derive (fun s => exp (kappa * s)) s (kappa * exp (kappa * s))) by (auto_derive; trivial; ring).
    pose proof (is_derive_mult (fun s => exp (kappa * s)) (fun s => y0 + RInt k 0 s) s _ (0 + k s) D1 (is_derive_plus (fun _ => y0) (fun s => RInt k 0 s) s 0 (k s) (is_derive_const y0 s) D) Rmult_comm) as D2.
    eapply slope_eq; [|exact D2]. unfold k. change (kappa * exp (kappa * s) * (y0 + RInt (fun r => exp (- kappa * r) * h r) 0 s) + exp (kappa * s) * (0 + exp (- kappa * s) * h s) = kappa * (exp (kappa * s) * (y0 + RInt (fun r => exp (- kappa * r) * h r) 0 s)) + h s).
    replace (- kappa * s) with (- (kappa * s)) by ring. rewrite exp_Ropp. field. apply Rgt_not_eq, exp_pos.
Qed.
Lemma fst_taylor (u : list (R * R)) k s : fst (taylor (V := prod_ModuleSpace R_Ring R_ModuleSpace R_ModuleSpace) u k s) = taylor (V := R_ModuleSpace) (map fst u) k s.
Proof. revert k. induction u as [|x u IH]; intro k; trivial. cbn [taylor map]. now rewrite <- IH. Qed.
Lemma snd_taylor (u : list (R * R)) k s : snd (taylor (V := prod_ModuleSpace R_Ring R_ModuleSpace R_ModuleSpace) u k s) = taylor (V := R_ModuleSpace) (map snd u) k s.
Proof. revert k. induction u as [|x u IH]; intro k; trivial. cbn [taylor map]. now rewrite <- IH. Qed.
Lemma solver_exists (L : R -> R) lam d dt : (forall x, L x = lam * x) -> exists solve, exact_solver (V := prod_NormedModule R_AbsRing R_NormedModule R_NormedModule) (forced_jac (V := R_NormedModule) L d dt) solve.
Proof.
  intro HL. pose (W := prod_NormedModule R_AbsRing R_NormedModule R_NormedModule). pose (A := forced_jac (V := R_NormedModule) L d dt).
  pose (good := fun (u : list W) (y : R -> W) => y 0 = hd zero u /\ forall s, is_derive y s (plus (A (y s)) (taylor (@tl W u) 0 s))).
  assert (EX : forall u, exists y, good u y).
  { intro u. pose (h1 := fun s => taylor (V := R_ModuleSpace) (map fst (@tl W u)) 0 s). assert (C1 : forall s, continuous h1 s) by (intro s; apply taylor_continuous).
    destruct (linear_ode 0 (fst (hd (zero : W) u)) h1 C1) as (y1 & A1 & B1).
    pose (h2 := fun s => dt * (y1 s * d) + taylor (V := R_ModuleSpace) (map snd (@tl W u)) 0 s).
    assert (C2 : forall s, continuous h2 s).
    { intro s. apply (continuous_plus (V := R_NormedModule)); [|apply taylor_continuous]. apply (continuous_scal_r (V := R_NormedModule)). apply (continuous_scal_l (V := R_NormedModule)). apply (ex_derive_continuous y1). eexists. apply B1. }
    destruct (linear_ode (dt * lam) (snd (hd (zero : W) u)) h2 C2) as (y2 & A2 & B2).
    exists (fun s => (y1 s, y2 s)). split; [now rewrite A1, A2, <- surjective_pairing|]. intro s.
    pose proof (is_derive_pair y1 y2 s _ _ (B1 s) (B2 s)) as D. eapply slope_eq; [|exact D]. unfold A, forced_jac. apply injective_projections.
    - change (0 * y1 s + h1 s = 0 + fst (taylor (V := W) (@tl W u) 0 s)). rewrite Rmult_0_l. f_equal. unfold h1. symmetry. apply fst_taylor.
    - change (dt * lam * y2 s + h2 s = dt * (L (y2 s) + y1 s * d) + snd (taylor (V := W) (@tl W u) 0 s)). replace (snd (taylor (V := W) (@tl W u) 0 s)) with (taylor (V := R_ModuleSpace) (map snd (@tl W u)) 0 s) by (symmetry; apply snd_taylor). unfold h2. set (T := taylor _ _ _ : R). change (dt * lam * y2 s + (dt * (y1 s * d) + T) = dt * (L (y2 s) + y1 s * d) + T). rewrite HL. ring. }
  exists (fun ts (_ : W -> W) (u : list W) => map (fun t => epsilon (inhabits (fun _ : R => zero : W)) (good u) t) ts). intros ts u. split; [apply map_length|]. intros i Hi.
  rewrite nth_indep with (d' := epsilon (inhabits (fun _ : R => zero : W)) (good u) 0) by (rewrite map_length; trivial). rewrite map_nth.
  pose proof (epsilon_spec (inhabits (fun _ : R => zero : W)) (good u) (EX u)) as [G1 G2]. exists (epsilon (inhabits (fun _ : R => zero : W)) (good u)). split; [exact G1|]. split; [exact G2|]. reflexivity.
Qed.
Lemma two_nodes : roots_of (node_poly 2) [(10 - sqrt 10) / 15; (10 + sqrt 10) / 15].
Proof.
  exists 15. split; [lra|]. intro x. unfold node_poly, node_coeff. cbn [map seq Nat.add Nat.sub fact Nat.mul pow poly_at fold_right].
  change (scal (V := R_ModuleSpace)) with Rmult. change (@plus R_ModuleSpace) with Rplus. change (@zero R_ModuleSpace) with 0. simpl INR.
  pose proof (sqrt_sqrt 10 ltac:(lra)) as S. set (s := sqrt 10) in *. clearbody s.
  match goal with |- ?l = ?r => replace r with (15 * (x * x) - 20 * x + (100 - s * s) / 15) by (match goal with |- @eq _ ?x ?y => change (@eq R x y) end; field) end. rewrite S. match goal with |- @eq _ ?x ?y => change (@eq R x y) end. field.
Qed.
Lemma requested roots order : (forall o, roots_of (node_poly o) (roots (node_poly o))) ->
  match opt_nodes roots order with
  | None => (order < 3)%nat
  | Some nodes => (3 <= order)%nat /\ exists pre c, nodes = pre ++ [c; [1]] /\ length pre = ((order - 3) / 2)%nat
      /\ (forall i, (i < length pre)%nat -> roots_of (node_poly (2 * (i + 1))) (nth i pre [])) /\ roots_of (node_poly (order - 2)) c
  end.
Proof.
  intro HR. destruct (opt_nodes roots order) as [nodes|] eqn:E; [now apply (nodes_form roots order nodes)|].
  unfold opt_nodes in E. destruct (order <? 3)%nat eqn:E'; [now apply Nat.ltb_lt|discriminate].
Qed.
Lemma requested_seven : exists roots, (forall o, roots_of (node_poly o) (roots (node_poly o))) /\ option_map (map (@length R)) (opt_nodes roots 7) = Some [2; 4; 5; 1]%nat.
Proof.
  destruct roots_function as [roots HR]. exists roots. split; trivial. unfold opt_nodes, stage_orders. simpl range2. cbn [Nat.ltb Nat.leb option_map app map]. 
  change (7 - 2)%nat with 5%nat. rewrite (proj1 (SrerkNodes.nodes_facts (HR 2%nat))), (proj1 (SrerkNodes.nodes_facts (HR 4%nat))), (proj1 (SrerkNodes.nodes_facts (HR 5%nat))). reflexivity.
Qed.
Lemma stiff_case : exists roots nodes solve q', (forall o, roots_of (node_poly o) (roots (node_poly o))) /\ opt_nodes roots 5 = Some nodes
  /\ exact_solver (V := prod_NormedModule R_AbsRing R_NormedModule R_NormedModule) (forced_jac (V := R_NormedModule) (fun x => -1000 * x) (poly_slope (V := R_ModuleSpace) [0; 0; 0; 0; 1] 2) (1/10)) solve
  /\ srerk_step (prod_NormedModule R_AbsRing R_NormedModule R_NormedModule) alpha_matrix solve (forced (V := R_NormedModule) (fun x => -1000 * x) (poly_at (V := R_ModuleSpace) [0; 0; 0; 0; 1]))
       (forced_jac (V := R_NormedModule) (fun x => -1000 * x) (poly_slope (V := R_ModuleSpace) [0; 0; 0; 0; 1] 2) (1/10)) (2, 3) (1/10) nodes = Some q'
  /\ on_solution (V := prod_NormedModule R_AbsRing R_NormedModule R_NormedModule) (forced (V := R_NormedModule) (fun x => -1000 * x) (poly_at (V := R_ModuleSpace) [0; 0; 0; 0; 1])) (2, 3) (1/10) q'.
Proof.
  destruct roots_function as [roots HR]. destruct (solver_exists (fun x => -1000 * x) (-1000) (poly_slope (V := R_ModuleSpace) [0; 0; 0; 0; 1] 2) (1/10) (fun x => eq_refl)) as [solve HS].
  assert (HN : exists nodes, opt_nodes roots 5 = Some nodes) by (eexists; reflexivity). destruct HN as [nodes HN].
  destruct (forced_exact R_NormedModule roots 5 nodes (1/10) HR HN ltac:(lra) solve (fun x => -1000 * x) [0; 0; 0; 0; 1] 2 3) as [q' [H1 H2]].
  - split; intros; [change (-1000 * (x + y) = -1000 * x + -1000 * y)|change (-1000 * (k * x) = k * (-1000 * x))]; ring.
  - apply Nat.le_refl.
  - exact HS.
  - exists roots, nodes, solve, q'. now split.
Qed.
Lemma solver_exists_1 (A : R -> R) kappa : (forall x, A x = kappa * x) -> exists solve, exact_solver (V := R_NormedModule) A solve.
Proof.
  intro HA. pose (good := fun (u : list R) (y : R -> R) => y 0 = hd 0 u /\ forall s, is_derive y s (A (y s) + taylor (V := R_ModuleSpace) (tl u) 0 s)).
  assert (EX : forall u, exists y, good u y).
  { intro u. destruct (linear_ode kappa (hd 0 u) (fun s => taylor (V := R_ModuleSpace) (tl u) 0 s)) as (y & A1 & B1); [intro; apply taylor_continuous|].
    exists y. split; trivial. intro s. rewrite HA. apply B1. }
  exists (fun ts _ u => map (fun t => epsilon (inhabits (fun _ : R => 0)) (good u) t) ts). intros ts u. split; [apply map_length|]. intros i Hi.
  pose (f := fun t : R => epsilon (inhabits (fun _ : R => 0)) (good u) t).
  assert (En : nth i (map f ts) 0 = f (nth i ts 0)) by (rewrite (nth_indep (map f ts) 0 (f 0)); [apply map_nth|rewrite map_length; exact Hi]).
  change (phi_value (V := R_NormedModule) A u (nth i ts 0) (nth i (map f ts) 0)). rewrite En. unfold f.
  destruct (epsilon_spec (inhabits (fun _ : R => 0)) (good u) (EX u)) as [G1 G2]. exists (epsilon (inhabits (fun _ : R => 0)) (good u)). split; [exact G1|]. split; [exact G2|]. reflexivity.
Qed.
Lemma linear_case : exists roots nodes solve, (forall o, roots_of (node_poly o) (roots (node_poly o))) /\ opt_nodes roots 6 = Some nodes
  /\ exact_solver (V := R_NormedModule) (fun x => scal (V := R_NormedModule) (1/2) (-7 * x)) solve.
Proof.
  destruct roots_function as [roots HR]. destruct (solver_exists_1 (fun x => scal (V := R_NormedModule) (1/2) (-7 * x)) (1/2 * -7)) as [solve HS].
  - intro x. change (1/2 * (-7 * x) = 1/2 * -7 * x). ring.
  - exists roots. eexists. exists solve. split; trivial. split; [reflexivity|exact HS].
Qed.
Lemma quad_case : exists roots nodes solve, (forall o, roots_of (node_poly o) (roots (node_poly o))) /\ opt_nodes roots 4 = Some nodes
  /\ exact_solver (V := prod_NormedModule R_AbsRing R_NormedModule R_NormedModule) (forced_jac (V := R_NormedModule) (fun _ => zero) (poly_slope (V := R_ModuleSpace) [0; 0; 0; 0; 0; 6] 0) 2) solve
  /\ srerk_step (prod_NormedModule R_AbsRing R_NormedModule R_NormedModule) alpha_matrix solve (forced (V := R_NormedModule) (fun _ => zero) (poly_at (V := R_ModuleSpace) [0; 0; 0; 0; 0; 6]))
       (forced_jac (V := R_NormedModule) (fun _ => zero) (poly_slope (V := R_ModuleSpace) [0; 0; 0; 0; 0; 6] 0) 2) (0, 5) 2 nodes = Some (2, 69).
Proof.
  destruct roots_function as [roots HR]. destruct (solver_exists (fun _ => zero) 0 (poly_slope (V := R_ModuleSpace) [0; 0; 0; 0; 0; 6] 0) 2) as [solve HS]; [intro x; symmetry; apply Rmult_0_l|].
  assert (HN : exists nodes, opt_nodes roots 4 = Some nodes) by (eexists; reflexivity). destruct HN as [nodes HN].
  exists roots, nodes, solve. split; trivial. split; trivial. split; [exact HS|].
  etransitivity; [apply (quadrature_exact R_NormedModule roots 4 nodes 2 HR HN ltac:(lra) solve [0; 0; 0; 0; 0; 6] 0 5 (fun s => s ^ 6)); [apply Nat.le_refl|exact HS|]|].
  2:{ do 2 f_equal; [ring|]. change (5 + ((0 + 2) ^ 6 - 0 ^ 6) = 69). ring. }
  intro s. auto_derive; trivial. match goal with |- @eq _ ?l _ => change (@eq R l (0 + s * (0 + s * (0 + s * (0 + s * (0 + s * (6 + s * 0))))))) end. simpl. ring.
Qed.
