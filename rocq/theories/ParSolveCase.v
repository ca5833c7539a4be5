(** One process, and two that get out of step. *)
From Coq Require Import Reals List ZArith Bool Arith Lia Lra Permutation.
From Coquelicot Require Import Hierarchy.
From Verif Require Import InnerSpec StepModel FgmresModel FgmresProps ParSolveModel ParSolveSpec ParSolve.
Import ListNotations.
Local Open Scope R_scope.

Section One.
Context {V : ModuleSpace R_Ring}.
Variables (es : list (V -> R)) (A M : V -> V).
(** on one process this is the solver of FgmresModel *)
Definition of_result (o : option (result (V := V))) : outcome (V := V) :=
  match o with None => Raised | Some res => Returned (Answer (x res) (norm_r res) (norm_b res) (niter res) [flag res]) end.
Lemma one_loop b tol restart rest v r n it : dist_loop [es] A M b tol restart rest v r n it = of_result (outer_loop (global_dotprod [es]) A M (stagnated es) b tol restart rest v r n it).
Proof.
  revert v r n it. induction rest as [|rest IH]; intros v r n it; [reflexivity|]. cbn [dist_loop outer_loop]. destruct (Req_EM_T n 0); [reflexivity|].
  destruct (inner_loop _ _ _ _ _ _ _) as [[C k]|]; [|reflexivity]. destruct (upper_solve _ _) as [y|]; [|reflexivity]. cbv zeta. cbn [map forallb existsb].
  destruct (stagnated es _ _); cbn [andb orb]; [reflexivity|]. destruct (Rlt_dec _ _); [reflexivity|]. apply IH.
Qed.
Lemma one_process b x0 tol restart maxiter hegedus : dist_fgmres [es] A M b x0 tol restart maxiter hegedus = of_result (fgmres (global_dotprod [es]) A M (stagnated es) b (length es) x0 tol restart maxiter hegedus).
Proof.
  unfold dist_fgmres, fgmres. cbn [existsb map]. rewrite orb_false_r. destruct (Nat.leb _ _); [reflexivity|]. destruct (Req_EM_T _ 0); [reflexivity|]. cbv zeta.
  destruct hegedus; [|apply one_loop]. destruct (Req_EM_T _ 0); [apply one_loop|]. destruct x0; [apply one_loop|reflexivity].
Qed.
End One.

Section Pass.
Context {V : ModuleSpace R_Ring}.
Variables (holds : list (list (V -> R))) (A M : V -> V) (b v0 : V) (tol : R).
Let dot := global_dotprod holds.
Let r := plus b (opp (A v0)).
Hypothesis D : scalar_product dot.
Hypothesis L : linear_map A.
Hypothesis LM : linear_map M.
Hypothesis IA : forall v, A v = zero -> v = zero.
Hypothesis IM : forall v, M v = zero -> v = zero.
Hypothesis T : 0 < tol.
Hypothesis NB : norm dot b <> 0.
Hypothesis NR : norm dot r <> 0.
(** one pass with one column: x0 plus a multiple of M r, the best one; then the tests *)
Lemma one_pass rest : (forall es, In es holds -> (1 < length es)%nat) -> exists a, let update := scal (V := V) a (M r) in let x := plus v0 update in let st := map (fun es => stagnated es update x) holds in
  (forall c, norm dot (plus b (opp (A x))) <= norm dot (plus b (opp (A (plus v0 (scal (V := V) c (M r))))))) /\
  dist_fgmres holds A M b (Some v0) tol 1 (S rest) false =
    if forallb (fun s : bool => s) st then Returned (Answer x (norm dot (plus b (opp (A x)))) (norm dot b) 1 (map (fun _ => (-1)%Z) holds))
    else if Rlt_dec (norm dot (plus b (opp (A x)))) (tol * norm dot b) then Returned (Answer x (norm dot (plus b (opp (A x)))) (norm dot b) 1 (map (fun s : bool => if s then -1 else 0)%Z st))
    else if existsb (fun s : bool => s) st && Nat.ltb 0 rest then Split
    else dist_loop holds A M b (tol * norm dot b) 1 rest x (plus b (opp (A x))) (norm dot (plus b (opp (A x)))) 1.
Proof.
  intro Len. destruct (C69_returns_partial V dot A M (fun _ _ => false) D L LM IA IM b 2 (Some v0) tol 1 1 T ltac:(lia) NR) as (res & Hres).
  destruct (C69_optimal V dot A M (fun _ _ => false) D L LM b 2 v0 tol 1 res NB Hres) as (Opt & _).
  assert (Hn : Nat.leb 2 1 = false) by reflexivity. unfold fgmres in Hres. rewrite Hn in Hres. clear Hn. destruct (Req_EM_T (norm dot b) 0) as [|NB']; [contradiction|].
  cbn [outer_loop] in Hres. fold r in Hres. destruct (Req_EM_T (norm dot r) 0) as [|NR']; [contradiction|]. cbn [inner_loop] in Hres.
  destruct (inner_step dot A M _ 0) as [C|] eqn:EC; [|discriminate]. destruct (upper_solve _ _) as [y|] eqn:Ey; [|discriminate].
  assert (Z : zs C 0%nat = M (scal (V := V) (/ norm dot r) r)).
  { clear - EC. unfold inner_step, first_cycle in EC. destruct (ortho dot _ 2) as [n B]. cbn [v_norm bas zs hs rots g] in EC. destruct (Req_EM_T n 0); [discriminate|]. cbv zeta in EC.
    destruct (ortho dot _ _) as [n' B']. cbn [apply_givens] in EC. destruct (Req_EM_T _ 0) in EC; [injection EC as <-; reflexivity|]. destruct (rotg _ _) as [[c s] ?]. injection EC as <-. reflexivity. }
  set (u := vsum 1 (fun i => scal (V := V) (nth i y 0) (zs C i))) in *.
  exists (nth 0 y 0 * / norm dot r). cbv zeta.
  assert (U : u = scal (V := V) (nth 0 y 0 * / norm dot r) (M r)).
  { unfold u. cbn [vsum]. rewrite Z, (proj2 LM). rewrite (scal_assoc (V := V) (nth 0 y 0) (/ norm dot r) (M r)) || rewrite scal_assoc. try rewrite plus_zero_l. reflexivity. }
  rewrite <- U. assert (X : FgmresModel.x res = plus v0 u /\ niter res = 1%nat). { destruct (Rlt_dec _ _) in Hres; injection Hres as <-; split; reflexivity. } destruct X as (X & X1). rewrite X, X1 in Opt. split.
  - intro c. refine (Rle_trans _ _ _ (Opt (fun _ => c)) _). apply Req_le. f_equal. f_equal. f_equal. f_equal. f_equal. cbn [vsum Nat.iter nat_rect]. try rewrite plus_zero_l. reflexivity.
  - unfold dist_fgmres. assert (E : existsb (fun es => Nat.leb (length es) 1) holds = false). { apply not_true_iff_false. intro E. apply existsb_exists in E. destruct E as (es & H1 & H2). apply Nat.leb_le in H2. specialize (Len es H1). lia. }
    rewrite E. fold dot. destruct (Req_EM_T (norm dot b) 0); [contradiction|]. cbn [dist_loop]. fold dot. fold r. destruct (Req_EM_T (norm dot r) 0); [contradiction|]. cbn [inner_loop]. rewrite EC, Ey. cbv zeta. fold u. reflexivity.
Qed.
End Pass.

(** four entries, two on each process: the first process starts from its part of the solution *)
Definition pair_ : ModuleSpace R_Ring := prod_ModuleSpace R_Ring R_ModuleSpace R_ModuleSpace.
Definition four : ModuleSpace R_Ring := prod_ModuleSpace R_Ring pair_ pair_.
Definition at_first : list (four -> R) := [fun v => fst (fst v); fun v => snd (fst v)].
Definition at_second : list (four -> R) := [fun v => fst (snd v); fun v => snd (snd v)].
Definition diag (v : four) : four := ((fst (fst v), snd (fst v)), (fst (snd v), 2 * snd (snd v))).
Definition ones : four := ((1, 1), (1, 1)).
Definition guess : four := ((1, 1), (0, 0)).
Definition same_four (v : four) : four := v.
Lemma four_eq (a b c d a' b' c' d' : R) : a = a' -> b = b' -> c = c' -> d = d' -> ((a, b), (c, d)) = ((a', b'), (c', d')) :> four. Proof. now intros -> -> -> ->. Qed.
Lemma four_plus (u v : four) : plus u v = ((fst (fst u) + fst (fst v), snd (fst u) + snd (fst v)), (fst (snd u) + fst (snd v), snd (snd u) + snd (snd v))). Proof. reflexivity. Qed.
Lemma four_opp (u : four) : opp u = ((- fst (fst u), - snd (fst u)), (- fst (snd u), - snd (snd u))). Proof. reflexivity. Qed.
Lemma four_scal (a : R) (u : four) : scal (V := four) a u = ((a * fst (fst u), a * snd (fst u)), (a * fst (snd u), a * snd (snd u))). Proof. reflexivity. Qed.
Lemma diag_linear : linear_map diag.
Proof. split; [intros [[a b] [c d]] [[a' b'] [c' d']]|intros t [[a b] [c d]]]; unfold diag; rewrite ?four_plus, ?four_scal; cbn [fst snd]; apply four_eq; ring. Qed.
Lemma diag_inj v : diag v = zero -> v = zero.
Proof.
  destruct v as [[a b] [c d]]. unfold diag. cbn [fst snd]. intro E.
  assert (E1 : a = 0 :> R) by exact (f_equal (fun v : four => fst (fst v) : R) E). assert (E2 : b = 0 :> R) by exact (f_equal (fun v : four => snd (fst v) : R) E).
  assert (E3 : c = 0 :> R) by exact (f_equal (fun v : four => fst (snd v) : R) E). assert (E4 : 2 * d = 0 :> R) by exact (f_equal (fun v : four => snd (snd v) : R) E).
  apply four_eq; [exact E1|exact E2|exact E3|]. change (d = 0 :> R). clear - E4. revert E4. generalize (d : R). intros. lra.
Qed.
Lemma id_linear : linear_map same_four. Proof. split; reflexivity. Qed.
Lemma sum_two (a b c d a' b' c' d' : R) : a * a' + (b * b' + 0) + (c * c' + (d * d' + 0) + 0) = a * a' + b * b' + (c * c' + d * d').
Proof. ring. Qed.
Lemma sum_one (a b c d a' b' c' d' : R) : a * a' + (b * b' + (c * c' + (d * d' + 0))) + 0 = a * a' + b * b' + (c * c' + d * d').
Proof. ring. Qed.
Lemma dot_two u v : global_dotprod [at_first; at_second] u v = fst (fst u) * fst (fst v) + snd (fst u) * snd (fst v) + (fst (snd u) * fst (snd v) + snd (snd u) * snd (snd v)).
Proof. apply sum_two. Qed.
Lemma dot_one u v : global_dotprod [at_first ++ at_second] u v = global_dotprod [at_first; at_second] u v.
Proof. rewrite dot_two. apply sum_one. Qed.
Lemma squares (a b c d : R) : a * a + b * b + (c * c + d * d) = 0 -> a = 0 /\ b = 0 /\ c = 0 /\ d = 0.
Proof. intro H. pose proof (Rle_0_sqr a). pose proof (Rle_0_sqr b). pose proof (Rle_0_sqr c). pose proof (Rle_0_sqr d). unfold Rsqr in *. repeat split; apply Rsqr_0_uniq; unfold Rsqr; lra. Qed.
Lemma four_product (dot : four -> four -> R) : (forall u v, dot u v = fst (fst u) * fst (fst v) + snd (fst u) * snd (fst v) + (fst (snd u) * fst (snd v) + snd (snd u) * snd (snd v))) -> scalar_product dot.
Proof.
  intro E. repeat split.
  - intros u v. rewrite !E. ring.
  - intros u v w. rewrite !E, four_plus. cbn [fst snd]. ring.
  - intros a u v. rewrite !E, four_scal. cbn [fst snd]. ring.
  - intros u. rewrite E. pose proof (Rle_0_sqr (fst (fst u))). pose proof (Rle_0_sqr (snd (fst u))). pose proof (Rle_0_sqr (fst (snd u))). pose proof (Rle_0_sqr (snd (snd u))). unfold Rsqr in *. lra.
  - intros [[a b] [c d]]. rewrite E. cbn [fst snd]. intro H. destruct (squares _ _ _ _ H) as (H1 & H2 & H3 & H4). apply four_eq; assumption.
Qed.
Lemma start_residual : plus ones (opp (diag guess)) = ((0, 0), (1, 1)) :> four.
Proof. unfold diag, ones, guess. rewrite four_opp, four_plus. cbn [fst snd]. apply four_eq; ring. Qed.
Lemma residual_at a : plus ones (opp (diag (plus guess (scal (V := four) a (same_four (plus ones (opp (diag guess)))))))) = ((0, 0), (1 - a, 1 - 2 * a)) :> four.
Proof. rewrite start_residual. unfold same_four, diag, ones, guess. rewrite four_scal, four_plus, four_opp, four_plus. cbn [fst snd]. apply four_eq; ring. Qed.

Lemma best (a : R) : sqrt (0 * 0 + 0 * 0 + ((1 - a) * (1 - a) + (1 - 2 * a) * (1 - 2 * a))) <= sqrt (0 * 0 + 0 * 0 + ((1 - 3 / 5) * (1 - 3 / 5) + (1 - 2 * (3 / 5)) * (1 - 2 * (3 / 5)))) -> a = 3 / 5.
Proof.
  intro H. pose proof (Rle_0_sqr (1 - a)) as H1. pose proof (Rle_0_sqr (1 - 2 * a)) as H2. unfold Rsqr in *. apply sqrt_le_0 in H; [|lra|lra].
  pose proof (Rle_0_sqr (a - 3 / 5)) as H3. assert (E : a - 3 / 5 = 0) by (apply Rsqr_0_uniq; unfold Rsqr in *; lra). lra.
Qed.
Lemma not_small_one (a : R) : small 1 = false.
Proof. unfold small. destruct (Rlt_dec _ _) as [H|]; [|reflexivity]. exfalso. rewrite Rabs_R1 in H. assert (1 < 10 ^ 12) by (cbn; lra). apply (Rmult_lt_compat_l (10 ^ 12)) in H; [|lra]. rewrite Rinv_r in H; lra. Qed.
Lemma small_zero (a : R) : small (0 / a) = true.
Proof. unfold small. destruct (Rlt_dec _ _) as [|H]; [reflexivity|]. exfalso. apply H. unfold Rdiv. rewrite Rmult_0_l, Rabs_R0. apply Rinv_0_lt_compat. cbn. lra. Qed.
Lemma is_zero_no a : a <> 0 -> is_zero a = false.
Proof. intro H. unfold is_zero. now destruct (Req_EM_T a 0). Qed.
Lemma out_of_step rest : dist_fgmres [at_first; at_second] diag same_four ones (Some guess) (1 / 10) 1 (S (S rest)) false = Split.
Proof.
  set (dot := global_dotprod [at_first; at_second]). assert (D : scalar_product dot) by (apply four_product, dot_two).
  assert (NB : norm dot ones = 2). { unfold norm, dot. rewrite dot_two. unfold ones. cbn [fst snd]. replace (1 * 1 + 1 * 1 + (1 * 1 + 1 * 1)) with (2 * 2) by ring. apply sqrt_square. lra. }
  assert (NB0 : norm dot ones <> 0) by (rewrite NB; lra).
  assert (NR : norm dot (plus ones (opp (diag guess))) <> 0). { rewrite start_residual. unfold norm, dot. rewrite dot_two. cbn [fst snd]. intro E. apply sqrt_eq_0 in E; lra. }
  destruct (one_pass [at_first; at_second] diag same_four ones guess (1 / 10) D diag_linear id_linear diag_inj (fun v E => E) ltac:(lra) NB0 NR (S rest)) as (a & Opt & E).
  { intros es [<-|[<-|[]]]; cbn; lia. }
  fold dot in E, Opt. rewrite NB in E. cbv zeta in E, Opt. assert (Ha : a = 3 / 5).
  { specialize (Opt (3 / 5)). rewrite !residual_at in Opt. unfold norm, dot in Opt. rewrite !dot_two in Opt. cbn [fst snd] in Opt. apply best. exact Opt. }
  subst a. rewrite residual_at in E. assert (NX : norm dot ((0, 0), (1 - 3 / 5, 1 - 2 * (3 / 5))) = sqrt (1 / 5)). { unfold norm, dot. rewrite dot_two. cbn [fst snd]. f_equal. field. }
  rewrite NX in E. rewrite E. clear E. rewrite start_residual. unfold same_four, guess. rewrite four_scal, four_plus. cbn [fst snd].
  unfold stagnated, at_first, at_second. cbn [map existsb forallb fst snd]. rewrite !(is_zero_no (1 + _)) by lra. rewrite !(is_zero_no (0 + _)) by lra. cbn [negb orb andb].
  replace (3 / 5 * 1 / (0 + 3 / 5 * 1)) with 1 by field. rewrite (not_small_one 0). replace (3 / 5 * 0) with 0 by ring. rewrite !small_zero. cbn [orb andb].
  destruct (Rlt_dec (sqrt (1 / 5)) _) as [H|]; [|reflexivity]. exfalso. assert (1 / 5 <= sqrt (1 / 5)); [|lra]. rewrite <- (sqrt_square (1 / 5)) at 1 by lra. apply sqrt_le_1; lra.
Qed.
Lemma in_step maxiter : exists a, dist_fgmres [at_first ++ at_second] diag same_four ones (Some guess) (1 / 10) 1 maxiter false = Returned a.
Proof.
  rewrite one_process. set (dot := global_dotprod [at_first ++ at_second]). assert (D : scalar_product dot) by (apply four_product; intros; unfold dot; rewrite dot_one; apply dot_two).
  destruct (C69_returns_partial four dot diag same_four (stagnated (at_first ++ at_second)) D diag_linear id_linear diag_inj (fun v E => E) ones 4 (Some guess) (1 / 10) 1 maxiter ltac:(lra) ltac:(lia)) as (res & H).
  { rewrite start_residual. unfold norm, dot. rewrite dot_one, dot_two. cbn [fst snd]. intro E. apply sqrt_eq_0 in E; lra. }
  assert (E : of_result (fgmres dot diag same_four (stagnated (at_first ++ at_second)) ones 4 (Some guess) (1 / 10) 1 maxiter false) = of_result (Some res)) by (f_equal; exact H).
  eexists. exact E.
Qed.
