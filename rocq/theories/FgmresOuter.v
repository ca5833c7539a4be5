From Coq Require Import Reals List Bool Arith ZArith Lra Lia.
From Coquelicot Require Import Hierarchy.
From Verif Require Import InnerSpec InnerFacts FgmresModel FgmresFacts FgmresProofs FgmresCycle VecTac.
Import ListNotations.
Local Open Scope R_scope.

Section Outer.
Context {V : ModuleSpace R_Ring}.
Variable dot : V -> V -> R.
Variables A M : V -> V.
Variable stalled : V -> V -> bool.
Hypothesis D : scalar_product dot.
Hypothesis L : linear_map A.
Notation nrm := (norm dot).
Notation sc := (scal (V := V)).
Notation res_of b x := (norm dot (plus b (opp (A x)))).
Notation outer := (outer_loop dot A M stalled).

(** one cycle *)
Lemma cycle_ok : forall b tol restart x C n y, let r := plus b (opp (A x)) in nrm r <> 0 -> inner_loop dot A M tol restart 0 (first_cycle dot A M r (nrm r)) = Some (C, n) -> upper_solve (rev (hs C)) (g C) = Some y ->
  let x' := plus x (vsum n (fun i => sc (nth i y 0) (zs C i))) in
  (n <= restart)%nat /\ res_of b x' = Rabs (g C n) /\ (n = restart \/ res_of b x' < tol) /\ (forall y', res_of b x' <= res_of b (plus x (vsum n (fun i => sc (y' i) (zs C i))))) /\
  (linear_map M -> forall a, res_of b x' <= res_of b (plus x (vsum n (fun k => sc (a k) (M (Nat.iter k (fun v => A (M v)) r)))))).
Proof.
  intros b tol restart x C n y r NZ HI HU x'. destruct (first_ok dot A M D r NZ) as (hraw0 & I0). destruct (inner_ok dot A M D L tol restart 0 _ C n r (nrm r) (ex_intro _ hraw0 (ex_intro _ [] I0)) HI) as ((hraw & rs & I) & B & F).
  destruct (cycle_min dot A M D L r (nrm r) C n hraw rs y I HU) as [E MIN].
  assert (SH : forall u, plus b (opp (A (plus x u))) = plus r (opp (A u))) by (intros u; unfold r; rewrite (proj1 L); vec).
  assert (E' : res_of b x' = Rabs (g C n)) by (unfold x'; rewrite SH; exact E). split; [lia|]. split; [exact E'|]. split; [destruct F as [F|F]; [left; lia|right; rewrite E'; exact F]|].
  assert (MIN' : forall y', res_of b x' <= res_of b (plus x (vsum n (fun i => sc (y' i) (zs C i))))) by (intros y'; rewrite SH, E'; apply MIN). split; [exact MIN'|].
  intros LM a. destruct (krylov_span dot A M L r (nrm r) C n hraw rs I LM a) as (y' & ->). apply MIN'.
Qed.
Lemma cycle_down : forall b tol restart x C n y, let r := plus b (opp (A x)) in nrm r <> 0 -> inner_loop dot A M tol restart 0 (first_cycle dot A M r (nrm r)) = Some (C, n) -> upper_solve (rev (hs C)) (g C) = Some y ->
  res_of b (plus x (vsum n (fun i => sc (nth i y 0) (zs C i)))) <= res_of b x.
Proof.
  intros b tol restart x C n y r NZ HI HU. destruct (cycle_ok b tol restart x C n y NZ HI HU) as (_ & _ & _ & MIN & _). specialize (MIN (fun _ => 0)). cbv beta in MIN. rewrite (vsum_zero n (fun i => sc 0 (zs C i))) in MIN by (intros; exact (scal_zero_l _)). rewrite plus_zero_r in MIN. exact MIN.
Qed.

Lemma outer_ok : forall b tol restart rest x r nr it res, r = plus b (opp (A x)) -> nr = nrm r -> outer b tol restart rest x r nr it = Some res ->
  norm_r res = res_of b (FgmresModel.x res) /\ norm_r res <= res_of b x /\ (niter res <= it + rest * restart)%nat /\ norm_b res = nrm b /\ (flag res = 0%Z /\ norm_r res < tol \/ flag res = (-1)%Z /\ (tol <= norm_r res \/ exists u, stalled u (FgmresModel.x res) = true)).
Proof.
  intros b tol restart. induction rest as [|rest IH]; intros x r nr it res ER EN H; cbn [outer_loop] in H; subst r nr.
  - injection H as <-. cbn [norm_r FgmresModel.x niter norm_b flag]. split; [reflexivity|]. split; [lra|]. split; [lia|]. split; [reflexivity|]. destruct (Rle_dec _ _); [right; auto|left; split; [reflexivity|lra]].
  - destruct (Req_EM_T _ 0) as [|NZ]; [discriminate|]. destruct (inner_loop _ _ _ _ _ _ _) as [[C n]|] eqn:HI; [|discriminate]. destruct (upper_solve _ _) as [y|] eqn:HU; [|discriminate].
    pose proof (cycle_ok b tol restart x C n y NZ HI HU) as (B & _). pose proof (cycle_down b tol restart x C n y NZ HI HU) as DN. set (u := vsum n _) in *.
    destruct (stalled u (plus x u)) eqn:ST; [|destruct (Rlt_dec _ tol) as [LT|LT]].
    + injection H as <-. cbn [norm_r FgmresModel.x niter norm_b flag]. split; [reflexivity|]. split; [exact DN|]. split; [cbn; lia|]. split; [reflexivity|]. right. split; [reflexivity|]. right. now exists u.
    + injection H as <-. cbn [norm_r FgmresModel.x niter norm_b flag]. split; [reflexivity|]. split; [exact DN|]. split; [cbn; lia|]. split; [reflexivity|]. left. auto.
    + destruct (IH _ _ _ _ _ eq_refl eq_refl H) as (E1 & E2 & E3 & E4 & E5). split; [exact E1|]. split; [lra|]. split; [cbn; lia|]. split; [exact E4|exact E5].
Qed.

Lemma hegedus_ok : forall b v, dot (A v) (A v) <> 0 -> res_of b (sc (dot b (A v) / dot (A v) (A v)) v) <= res_of b v.
Proof.
  intros b v N. apply (norm_le dot D). rewrite (proj2 L). set (w := A v) in *. rewrite !(dot_plus_l dot D), !(dot_plus_r dot D), !(dot_opp_l dot D), !(dot_opp_r dot D), !(dot_scal_l dot D), !(dot_scal_r dot D), (dot_sym dot D w b). set (p := dot b w) in *. set (q := dot w w) in *.
  assert (QP : 0 < q) by (pose proof (dot_pos dot D w); unfold q in *; lra). apply Rminus_le.
  replace (_ - _) with (- ((q - p) * (q - p) / q)) by (field; exact N). pose proof (Rle_0_sqr (q - p)) as S. unfold Rsqr in S. assert (0 <= (q - p) * (q - p) / q) by (apply Rmult_le_pos; [exact S|apply Rlt_le, Rinv_0_lt_compat, QP]). lra.
Qed.
Definition guess (x0 : option V) : V := match x0 with None => zero | Some v => v end.
Lemma fgmres_ok : forall b len_b x0 tol restart maxiter hegedus res, nrm b <> 0 -> fgmres dot A M stalled b len_b x0 tol restart maxiter hegedus = Some res ->
  norm_r res = res_of b (x res) /\ norm_r res <= res_of b (guess x0) /\ (niter res <= maxiter * restart)%nat /\ norm_b res = nrm b /\ (flag res = 0%Z /\ norm_r res < tol * nrm b \/ flag res = (-1)%Z /\ (tol * nrm b <= norm_r res \/ exists u, stalled u (x res) = true)).
Proof.
  intros b len_b x0 tol restart maxiter hegedus res NB H. unfold fgmres in H. destruct (Nat.leb len_b restart); [discriminate|]. destruct (Req_EM_T _ 0) as [|_]; [contradiction|].
  assert (G : forall v, outer b (tol * nrm b) restart maxiter v (plus b (opp (A v))) (res_of b v) 0 = Some res -> res_of b v <= res_of b (guess x0) -> _ /\ norm_r res <= res_of b (guess x0) /\ _) by
    (intros v Hv LE; destruct (outer_ok _ _ _ _ _ _ _ _ _ eq_refl eq_refl Hv) as (E1 & E2 & E); split; [exact E1|]; split; [lra|exact E]).
  destruct hegedus; [|apply (G _ H); apply Rle_refl]. destruct (Req_EM_T _ 0) as [Z|NZ]; [apply (G _ H); apply Rle_refl|]. destruct x0 as [v|]; [|discriminate]. apply (G _ H). now apply hegedus_ok.
Qed.

Lemma fgmres_zero : forall b len_b x0 tol restart maxiter hegedus, nrm b = 0 -> (restart < len_b)%nat -> fgmres dot A M stalled b len_b x0 tol restart maxiter hegedus = Some (Result zero 0 0 0 0%Z).
Proof. intros b len_b x0 tol restart maxiter hegedus Z Hl. unfold fgmres. destruct (Nat.leb_spec len_b restart); [lia|]. destruct (Req_EM_T _ 0); [reflexivity|contradiction]. Qed.

(** one cycle of the full solver *)
Lemma fgmres_optimal : forall b len_b x0 tol restart res, linear_map M -> nrm b <> 0 -> fgmres dot A M stalled b len_b x0 tol restart 1 false = Some res ->
  forall a, norm_r res <= res_of b (plus (guess x0) (vsum (niter res) (fun k => sc (a k) (M (Nat.iter k (fun v => A (M v)) (plus b (opp (A (guess x0)))))))))
         /\ (niter res = restart \/ norm_r res < tol * nrm b).
Proof.
  intros b len_b x0 tol restart res LM NB H a. unfold fgmres in H. destruct (Nat.leb len_b restart); [discriminate|]. destruct (Req_EM_T _ 0) as [|_]; [contradiction|]. fold (guess x0) in H. cbn [outer_loop] in H.
  destruct (Req_EM_T _ 0) as [|NZ]; [discriminate|]. destruct (inner_loop _ _ _ _ _ _ _) as [[C n]|] eqn:HI; [|discriminate]. destruct (upper_solve _ _) as [y|] eqn:HU; [|discriminate].
  destruct (cycle_ok b (tol * nrm b) restart (guess x0) C n y NZ HI HU) as (B & E & F & _ & MIN). specialize (MIN LM a). set (u := vsum n _) in *. cbn [Nat.add] in H.
  assert (R : norm_r res = res_of b (plus (guess x0) u) /\ niter res = n). { destruct (stalled u _); [injection H as <-; split; reflexivity|]. destruct (Rlt_dec _ _); injection H as <-; split; reflexivity. }
  destruct R as [-> ->]. split; [exact MIN|exact F].
Qed.

(** it returns *)
Lemma outer_returns : forall b tol restart rest x it, 0 < tol -> linear_map M -> (forall v, A v = zero -> v = zero) -> (forall v, M v = zero -> v = zero) -> res_of b x <> 0 -> outer b tol restart rest x (plus b (opp (A x))) (res_of b x) it <> None.
Proof.
  intros b tol restart rest x it T LM IA IM. revert x it. induction rest as [|rest IH]; intros x it NZ; cbn [outer_loop]; [discriminate|]. destruct (Req_EM_T _ 0) as [|_]; [contradiction|]. destruct (first_ok dot A M D _ NZ) as (hraw0 & I0).
  destruct (inner_loop _ _ _ _ _ _ _) as [[C n]|] eqn:HI.
  - destruct (inner_ok dot A M D L tol restart 0 _ C n _ _ (ex_intro _ hraw0 (ex_intro _ [] I0)) HI) as ((hraw & rs & I) & _ & _). destruct (upper_solve _ _) as [y|] eqn:HU; [|exfalso; exact (solvable dot A M D L _ _ C n hraw rs I LM IA IM HU)].
    destruct (stalled _ _); [discriminate|]. destruct (Rlt_dec _ tol) as [LT|LT]; [discriminate|]. apply IH. lra.
  - exfalso. apply (inner_succeeds dot A M D L tol T restart 0 (first_cycle dot A M (plus b (opp (A x))) (res_of b x)) (plus b (opp (A x))) (res_of b x)); [now exists hraw0, []| |exact HI].
    destruct restart; [now right|left]. unfold first_cycle. destruct (ortho _ _ _) as [nn B] eqn:EB. cbn [v_norm]. pose proof (ortho_ok dot (Basis (set1 (set1 (fun _ => zero) 0 (sc (/ res_of b x) (plus b (opp (A x))))) 1 (A (M (sc (/ res_of b x) (plus b (opp (A x))))))) (fun _ _ => 0) (fun _ _ => 0) (fun _ _ => 0)) 0) as OK.
    cbn [Nat.add] in OK. rewrite EB in OK. destruct OK as (E & _); [intros; lia|]. cbn [fst] in E. rewrite E. cbn [rows]. change (set1 (set1 (fun _ : nat => zero) 0 (sc (/ res_of b x) (plus b (opp (A x))))) 1 (A (M (sc (/ res_of b x) (plus b (opp (A x)))))) 0%nat) with (sc (/ res_of b x) (plus b (opp (A x)))).
    assert (U := normal_unit dot D _ NZ). apply (norm_unit dot D) in U. rewrite U. lra.
Qed.
Lemma fgmres_returns : forall b len_b x0 tol restart maxiter, 0 < tol -> linear_map M -> (forall v, A v = zero -> v = zero) -> (forall v, M v = zero -> v = zero) -> (restart < len_b)%nat -> res_of b (guess x0) <> 0 -> fgmres dot A M stalled b len_b x0 tol restart maxiter false <> None.
Proof.
  intros b len_b x0 tol restart maxiter T LM IA IM Hl NZ. unfold fgmres. destruct (Nat.leb_spec len_b restart); [lia|]. destruct (Req_EM_T _ 0) as [|NB]; [discriminate|]. apply outer_returns; auto. apply Rmult_lt_0_compat; [exact T|]. pose proof (norm_pos dot b). lra.
Qed.
Lemma fgmres_exact_guess : forall b len_b x0 tol restart maxiter, nrm b <> 0 -> (1 <= maxiter)%nat -> A (guess x0) = b -> fgmres dot A M stalled b len_b x0 tol restart maxiter false = None.
Proof.
  intros b len_b x0 tol restart maxiter NB HM E. unfold fgmres. destruct (Nat.leb len_b restart); [reflexivity|]. destruct (Req_EM_T _ 0) as [|_]; [contradiction|]. fold (guess x0). rewrite E. destruct maxiter; [lia|]. cbn [outer_loop]. rewrite plus_opp_r, (norm_zero dot D). destruct (Req_EM_T 0 0) as [_|N]; [reflexivity|now contradiction N].
Qed.
End Outer.
