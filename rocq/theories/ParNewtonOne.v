(** On one process newton_dist is newton_krylov of NewtonModel. *)
From Coq Require Import Reals List ZArith Bool Arith Lia Lra.
From Coquelicot Require Import Hierarchy.
From Verif Require Import InnerSpec StepModel StableModel SrerkModel FgmresModel NewtonModel ParExpModel ParSolveModel ParSolveSpec ParSolve ParNewtonModel ParNewtonSpec ParNewton.
Import ListNotations.
Local Open Scope R_scope.

Section One.
Context {V : ModuleSpace R_Ring}.
Variable es : list (V -> R).
Notation arr := (array_of es).
Hypothesis Lin : forall e, In e es -> linear_entry e.
Lemma arr_axpy x s d : arr (plus x (scal (V := V) s d)) = axpy (arr x) s (arr d).
Proof.
  unfold array_of, axpy. revert Lin. generalize es. intro l. induction l as [|e l IH]; intro H; [reflexivity|]. cbn [map combine fst snd]. rewrite IH by (intros; apply H; now right). destruct (H e (or_introl eq_refl)) as (H1 & H2). rewrite H1, H2. reflexivity.
Qed.
Lemma entry_opp e v : In e es -> e (opp v) = - e v.
Proof.
  intro H. destruct (Lin e H) as (H1 & H2). pose proof (H2 (-1) v) as E. replace (scal (V := V) (-1) v) with (opp v) in E; [lra|].
  change (opp v = scal (V := V) (opp (one : R_Ring)) v). symmetry. apply scal_opp_one.
Qed.
Lemma arr_opp v : arr (opp v) = vneg (arr v).
Proof. unfold array_of, vneg. rewrite map_map. apply map_ext_in. intros e H. now apply entry_opp. Qed.
Lemma arr_minus u v : arr (minus u v) = vsub (arr u) (arr v).
Proof.
  assert (G : forall e, In e es -> e (minus u v) = e u - e v) by (intros e H; unfold minus; rewrite (proj1 (Lin e H)), entry_opp by exact H; reflexivity).
  unfold array_of, vsub. revert G. generalize es. intro l. induction l as [|e l IH]; intro H; [reflexivity|]. cbn [map combine fst snd]. rewrite IH by (intros; apply H; now right). rewrite (H e (or_introl eq_refl)). reflexivity.
Qed.
Lemma arr_scal a v : arr (scal (V := V) a v) = vscale a (arr v).
Proof. unfold array_of, vscale. rewrite map_map. apply map_ext_in. intros e H. apply (proj2 (Lin e H)). Qed.
Lemma arr_norm v : gnorm [es] v = norm2 (arr v).
Proof. unfold gnorm, norm2, array_of. rewrite dot_concat. cbn [concat]. rewrite app_nil_r, map_map. reflexivity. Qed.
Lemma arr_inf v : ginf [es] v = inf_norm (arr v).
Proof. rewrite ginf_concat. cbn [concat]. rewrite app_nil_r. unfold inf_norm, array_of, largest. rewrite map_map. reflexivity. Qed.

Variables (F : V -> V) (F' : vec -> vec) (M : V -> V) (rdiff : R) (o : goptions) (solve : (vec -> vec) -> vec -> R -> vec).
Hypothesis HF : forall v, F' (arr v) = arr (F v).
Hypothesis HS : forall A A' b tol a, (forall v, A' (arr v) = arr (A v)) -> dist_fgmres [es] A M b None tol (go_restart o) (go_fmaxiter o) false = Returned a -> solve A' (arr b) tol = arr (a_x a).
Notation o' := (options_of o).
Lemma one_jac x f v : jac_matvec F' rdiff (arr x) (arr f) (arr v) = arr (jac_product [es] F rdiff x f v).
Proof.
  unfold jac_matvec, jac_product, omega, diff_step. rewrite <- arr_norm, <- !arr_inf. destruct (Req_EM_T _ _); [now rewrite arr_scal|]. cbv zeta. rewrite arr_scal, arr_minus, <- HF, arr_axpy. reflexivity.
Qed.
Lemma one_search x dx t m m' : m_s m' = g_s m -> m_phi m' = g_phi m -> m_fx m' = arr (g_fx m) ->
  fst (run_search F' (arr x) (arr dx) m' t) = fst (gsearch [es] F x dx m t) /\ m_s (snd (run_search F' (arr x) (arr dx) m' t)) = g_s (snd (gsearch [es] F x dx m t)) /\ m_fx (snd (run_search F' (arr x) (arr dx) m' t)) = arr (g_fx (snd (gsearch [es] F x dx m t))).
Proof.
  revert m m'. induction t as [s store next IH|s]; intros m m' H1 H2 H3; [|cbn; auto]. cbn [run_search gsearch]. unfold phi, gphi. rewrite H1. destruct (Req_EM_T s (g_s m)); [rewrite H2; now apply IH|]. cbv zeta.
  rewrite <- arr_axpy, HF, <- arr_norm. apply IH; destruct store; cbn; auto.
Qed.
Lemma one_line x fx dx st : line_search F' (arr x) (arr fx) (arr dx) (st (norm2 (arr x)) (norm2 (arr dx))) = (arr (fst (gline [es] F x fx dx st)), arr (snd (gline [es] F x fx dx st))).
Proof.
  unfold line_search, gline. rewrite <- !arr_norm. cbv zeta.
  pose proof (one_search x dx (st (gnorm [es] x) (gnorm [es] dx) (gnorm [es] fx * gnorm [es] fx)) (GMem 0 (gnorm [es] fx * gnorm [es] fx) fx) (Mem 0 (gnorm [es] fx * gnorm [es] fx) (arr fx)) eq_refl eq_refl eq_refl) as (E1 & E2 & E3).
  destruct (run_search _ _ _ _ _) as [s m], (gsearch _ _ _ _ _ _) as [s' m']. cbn [fst snd] in *. subst s'. rewrite E2, arr_axpy. destruct (Req_EM_T _ _); [now rewrite E3|]. rewrite <- arr_axpy, HF, arr_axpy. reflexivity.
Qed.
Definition state_of (s : gstate (V := V)) : state := St (arr (gs_x s)) (arr (gs_fx s)) (gs_norm s) (gs_eta s) (gs_dx s).
Lemma one_step s s1 : gstep [es] F M rdiff o s = Value s1 -> newton_step F' rdiff solve o' (state_of s) = state_of s1.
Proof.
  unfold gstep, jac_solve. destruct (dist_fgmres _ _ _ _ _ _ _ _ _) as [| |a] eqn:E; try discriminate. cbn [bind]. intro H. unfold newton_step, state_of. cbn [s_x s_fx s_norm s_eta].
  rewrite (HS (jac_product [es] F rdiff (gs_x s) (gs_fx s)) (jac_matvec F' rdiff (arr (gs_x s)) (arr (gs_fx s))) (gs_fx s) _ a (fun v => one_jac (gs_x s) (gs_fx s) v) E), <- arr_opp. unfold options_of at 1. cbn [o_search].
  destruct (go_search o) as [st|]; cbn [option_map] in *.
  - pose proof (one_line (gs_x s) (gs_fx s) (opp (a_x a)) st) as El. rewrite El. destruct (gline _ _ _ _ _ _) as [x' fx']. injection H as <-. cbn [gs_x gs_fx gs_norm gs_eta gs_dx fst snd]. rewrite <- arr_norm, <- arr_inf. reflexivity.
  - injection H as <-. cbn [gs_x gs_fx gs_norm gs_eta gs_dx]. assert (E1 : axpy (arr (gs_x s)) 1 (arr (opp (a_x a))) = arr (plus (gs_x s) (opp (a_x a)))).
    { rewrite <- arr_axpy. f_equal. f_equal. exact (scal_one (K := R_Ring) (opp (a_x a))). }
    rewrite E1, HF, <- arr_norm, <- arr_inf. reflexivity.
Qed.
Lemma one_loop k n f0 s r a : gloop [es] F M rdiff o k n f0 s r false = Value a -> newton_loop F' rdiff solve o' k n f0 (state_of s) r = Done (arr (f_x a)) (f_it a) (f_residuals a) (f_ok a).
Proof.
  revert n s r. induction k as [|k IH]; intros n s r H; cbn [gloop newton_loop] in *; [injection H as <-; reflexivity|].
  replace (converged o' f0 (state_of s)) with (gconverged [es] o f0 s). 2: { unfold gconverged, converged, state_of, options_of. cbn [s_fx s_dx s_x o_ftol o_frtol o_xtol o_xrtol]. rewrite !arr_inf. reflexivity. }
  replace (inf_norm (s_fx (state_of s))) with (ginf [es] (gs_fx s)) by (rewrite arr_inf; reflexivity).
  destruct (gconverged _ _ _ _); [injection H as <-; reflexivity|]. destruct (gstep _ _ _ _ _ _) as [| |s1] eqn:E; try discriminate. cbn [bind] in H. rewrite (one_step s s1 E). exact (IH _ _ _ H).
Qed.
Lemma newton_one n x a : go_maxiter o = Some n -> newton_dist [es] F M rdiff o x = Value a -> newton F' rdiff solve o' (arr x) = Done (arr (f_x a)) (f_it a) (f_residuals a) (f_ok a).
Proof.
  intros E H. unfold newton_dist in H. unfold newton. cbv zeta in *. destruct (limit_some [es] o n) as (E1 & E2); [discriminate|exact E|]. rewrite E1, E2, Nat.eqb_refl in H.
  replace (o_maxiter o') with n by (unfold options_of; cbn [o_maxiter]; now rewrite E). destruct (Nat.eqb n 0); [discriminate|].
  rewrite HF, <- arr_norm, <- arr_inf. exact (one_loop _ _ _ _ _ _ H).
Qed.
End One.

(** such a solver exists: fgmres on the arrays *)
Section Solver.
Context {V : ModuleSpace R_Ring}.
Variables (es : list (V -> R)) (inv : list R -> V) (M : V -> V) (restart fmax : nat).
Notation arr := (array_of es).
Hypothesis Lin : forall e, In e es -> linear_entry e.
Hypothesis Hinv : forall v, arr (inv (arr v)) = arr v.
Hypothesis HM : forall u v, arr u = arr v -> arr (M u) = arr (M v).
Hypothesis HR : (restart < length es)%nat.
Hypothesis HF : (fmax <= 1)%nat.
Definition array_solver (A : list R -> list R) (b : list R) (tol : R) : list R :=
  match dist_fgmres [es] (fun v => inv (A (arr v))) M (inv b) None tol restart fmax false with Returned a => arr (a_x a) | _ => [] end.
Lemma arr_each u v : arr u = arr v -> forall e, In e es -> e u = e v.
Proof. unfold array_of. generalize es. intro l. induction l as [|e l IH]; intros H f K; [destruct K|]. cbn [map] in H. injection H as H1 H2. destruct K as [<-|K]; auto. Qed.
Lemma same_array : redistribution [es] [es] (fun u v => arr u = arr v).
Proof.
  split; [reflexivity| | |].
  - intros u u' w w' H H'. apply map_ext_in. intros e He. rewrite !(proj1 (Lin e He)), (arr_each _ _ H e He), (arr_each _ _ H' e He). reflexivity.
  - intros a u w H. apply map_ext_in. intros e He. rewrite !(proj2 (Lin e He)), (arr_each _ _ H e He). reflexivity.
  - intros u u' w w' H H'. cbn [concat]. rewrite app_nil_r. replace (map (fun e => (e u, e u')) es) with (map (fun e => (e w, e w')) es); [apply Permutation.Permutation_refl|]. apply map_ext_in. intros e He. rewrite (arr_each _ _ H e He), (arr_each _ _ H' e He). reflexivity.
Qed.
Lemma array_solver_same A A' b tol a : (forall v, A' (arr v) = arr (A v)) -> dist_fgmres [es] A M b None tol restart fmax false = Returned a -> array_solver A' (arr b) tol = arr (a_x a).
Proof.
  intros HA E. unfold array_solver.
  assert (L : forall l, In l [es] -> (restart < length l)%nat) by (intros l [<-|[]]; exact HR).
  pose proof (dist_same [es] [es] (fun u v => arr u = arr v) same_array ltac:(discriminate) ltac:(discriminate) A M (fun v => inv (A' (arr v))) M) as S.
  assert (HA' : same_map (fun u v : V => arr u = arr v) A (fun v => inv (A' (arr v)))). { intros u w H. rewrite HA, Hinv, <- !HA, H. reflexivity. }
  specialize (S HA' HM).
  specialize (S b (inv (arr b)) None None tol restart fmax false L L (eq_sym (Hinv b)) Logic.I).
  pose proof (one_pass [es] (fun v => inv (A' (arr v))) M (inv (arr b)) None tol restart fmax false HF) as P.
  rewrite E in S. destruct (dist_fgmres [es] (fun v => inv (A' (arr v))) M (inv (arr b)) None tol restart fmax false) as [| |a']; [contradiction|now destruct P|]. symmetry. exact (proj1 S).
Qed.
End Solver.
(** 31 numbers on one process *)
Definition cells (n : nat) : list (FieldSpace.states -> R) := map (fun i (v : FieldSpace.states) => v 0%Z 0%nat 0%nat 0%nat i) (seq 0 n).
Definition field_of (l : list R) : FieldSpace.states := fun _ _ _ _ i => nth i l 0.
Lemma cells_linear n e : In e (cells n) -> linear_entry (V := FieldSpace.st_module) e.
Proof. intro H. apply in_map_iff in H. destruct H as (i & <- & _). split; reflexivity. Qed.
Lemma cells_inv n v : array_of (V := FieldSpace.st_module) (cells n) (field_of (array_of (V := FieldSpace.st_module) (cells n) v)) = array_of (V := FieldSpace.st_module) (cells n) v.
Proof.
  unfold array_of, cells. rewrite !map_map. apply map_ext_in. intros i H. unfold field_of. apply in_seq in H.
  rewrite (nth_indep _ 0 (v 0%Z 0%nat 0%nat 0%nat 0%nat)) by (rewrite map_length, seq_length; lia). rewrite (map_nth (fun x => v 0%Z 0%nat 0%nat 0%nat x)), seq_nth by lia. reflexivity.
Qed.

(** ** the integrators around a solver that always gives a value *)
Section Steps.
Context {V : ModuleSpace R_Ring}.
Variables (newton : newton_t (V := V)) (rhs : V -> V) (dt : R).
Notation nw := (fun F x => Value (newton F x)).
Lemma iter_value {S : Type} (step : S -> res S) (g : S -> S) : (forall s, step s = Value (g s)) -> forall n s, res_steps step n s = Value (Nat.iter n g s).
Proof.
  intros H n. induction n as [|n IH]; intro s; [reflexivity|]. cbn [res_steps]. rewrite H. cbn [bind]. rewrite IH. f_equal. clear. revert s. induction n as [|n IH]; intro s; [reflexivity|]. cbn [Nat.iter nat_rect]. f_equal. exact (IH s).
Qed.
Lemma first_value d n q : bdf2_first rhs nw d n q = Value (bdf2_start newton rhs d n q).
Proof. revert q. induction n as [|n IH]; intro q; [reflexivity|]. cbn [bdf2_first bind]. rewrite IH. reflexivity. Qed.
Lemma implicit_value sc n q : implicit_steps sc nw nw rhs dt n q = Value (implicit_plain sc newton rhs dt n q).
Proof.
  destruct sc as [| | |sub]; unfold implicit_steps, implicit_plain.
  - apply iter_value. reflexivity.
  - apply iter_value. reflexivity.
  - apply iter_value. reflexivity.
  - rewrite (iter_value _ (fun s => bdf2 newton rhs sub (fst s) (snd s) dt)); [reflexivity|]. intros [[P|] Q]; unfold bdf2_dist, bdf2; cbn [fst snd bind]; [reflexivity|]. rewrite first_value. reflexivity.
Qed.
End Steps.
Lemma srerk_value {V : ModuleSpace R_Ring} alpha (sol : list R -> (V -> V) -> list V -> list V) rhs nodes dt size q :
  srerk_dist alpha (fun size ts A us => Some (size, sol ts A us)) rhs nodes dt (size, q) = option_map (fun v => (size, v)) (srerk_step V alpha sol rhs (fun v => matvec_fd v dt q (rhs q) rhs) q dt nodes).
Proof.
  unfold srerk_dist, srerk_step. cbn [fst snd]. destruct nodes as [|c0 rest]; [reflexivity|].
  assert (H : forall z prev, projections_dist alpha (fun size ts A us => Some (size, sol ts A us)) rhs (fun v => matvec_fd v dt q (rhs q) rhs) q dt prev rest size z = Some (size, projections V alpha sol rhs (fun v => matvec_fd v dt q (rhs q) rhs) q dt prev rest z)).
  { clear c0. induction rest as [|c r IH]; intros z prev; [reflexivity|]. cbn [projections_dist projections]. apply IH. }
  rewrite H. destruct (projections _ _ _ _ _ _ _ _ _ _) as [|z [|]]; reflexivity.
Qed.
