(** newton_krylov on two distributions of the same vectors. *)
From Coq Require Import Reals List ZArith Bool Arith Lia Lra Permutation.
From Coquelicot Require Import Hierarchy.
From Verif Require Import StepModel StableModel FgmresModel NewtonModel ParSolveModel ParSolveSpec ParSolve ParNewtonModel ParNewtonSpec.
Import ListNotations.
Local Open Scope R_scope.

Lemma largest_perm l l' : Permutation l l' -> largest l = largest l'.
Proof. unfold largest. induction 1; cbn [fold_right] in *; try congruence. rewrite !Rmax_assoc. f_equal. apply Rmax_comm. Qed.
Lemma largest_pos l : 0 <= largest l.
Proof. induction l as [|a l IH]; cbn; [lra|]. eapply Rle_trans; [exact IH|apply Rmax_r]. Qed.
Lemma largest_app l l' : largest (l ++ l') = Rmax (largest l) (largest l').
Proof.
  induction l as [|a l IH]; cbn [app]; [|change (Rmax a (largest (l ++ l')) = Rmax (Rmax a (largest l)) (largest l')); rewrite IH; apply Rmax_assoc].
  change (largest []) with 0. symmetry. apply Rmax_right, largest_pos.
Qed.
Lemma ginf_concat {V : ModuleSpace R_Ring} (holds : list (list (V -> R))) v : ginf holds v = largest (map (fun e => Rabs (e v)) (concat holds)).
Proof. unfold ginf. induction holds as [|es holds IH]; [reflexivity|]. cbn [map concat]. rewrite map_app, largest_app, <- IH. reflexivity. Qed.
(** with one pass fgmres cannot be left by some processes only *)
Lemma one_pass {V : ModuleSpace R_Ring} (holds : list (list (V -> R))) A M b x0 tol restart maxiter h : (maxiter <= 1)%nat -> dist_fgmres holds A M b x0 tol restart maxiter h <> Split.
Proof.
  intro Hm. assert (L : forall t x r n it, dist_loop holds A M b t restart maxiter x r n it <> Split).
  { intros t x r n it. destruct maxiter as [|[|m]]; [discriminate| |lia]. cbn [dist_loop].
    destruct (Req_EM_T _ _); [discriminate|]. destruct (inner_loop _ _ _ _ _ _ _) as [[C k]|]; [|discriminate]. destruct (upper_solve _ _); [|discriminate]. cbv zeta.
    destruct (forallb _ _); [discriminate|]. destruct (Rlt_dec _ _); [discriminate|]. rewrite andb_comm. cbn. discriminate. }
  unfold dist_fgmres. destruct (existsb _ _); [discriminate|]. destruct (Req_EM_T _ _); [discriminate|]. cbv zeta. destruct h; [|apply L]. destruct (Req_EM_T _ _); [apply L|]. destruct x0; [apply L|discriminate].
Qed.
Lemma bind_same {X Y X' Y'} (r : X -> Y -> Prop) (r' : X' -> Y' -> Prop) a b f g : same_res r a b -> (forall v w, r v w -> same_res r' (f v) (g w)) -> same_res r' (bind a f) (bind b g).
Proof. intros H Hf. destruct a, b; cbn in *; try contradiction; auto. Qed.

Section Related.
Context {V W : ModuleSpace R_Ring}.
Variables (holds : list (list (V -> R))) (holds' : list (list (W -> R))) (rel : V -> W -> Prop).
Hypothesis D : redistribution holds holds' rel.
Hypothesis N : holds <> [].
Hypothesis N' : holds' <> [].
Let r0 := same_zero _ _ _ D. Let rp := same_plus _ _ _ D. Let rs := same_scal _ _ _ D.
Lemma gnorm_same u w : rel u w -> gnorm holds u = gnorm holds' w.
Proof. exact (norm_same holds holds' rel D u w). Qed.
Lemma ginf_same u w : rel u w -> ginf holds u = ginf holds' w.
Proof.
  intro H. rewrite !ginf_concat. pose proof (same_entries _ _ _ D _ _ _ _ H H) as P. apply (Permutation_map (fun q : R * R => Rabs (fst q))) in P. rewrite !map_map in P. exact (largest_perm _ _ P).
Qed.
Variables (M : V -> V) (M' : W -> W) (rdiff : R) (o : goptions).
Hypothesis HM : same_map rel M M'.
Hypothesis L : forall es, In es holds -> (go_restart o < length es)%nat.
Hypothesis L' : forall es, In es holds' -> (go_restart o < length es)%nat.
Hypothesis O1 : (go_fmaxiter o <= 1)%nat.

Section Fun.
Variables (F : V -> V) (F' : W -> W).
Hypothesis HF : same_map rel F F'.
Lemma jac_same x x' f f' : rel x x' -> rel f f' -> same_map rel (jac_product holds F rdiff x f) (jac_product holds' F' rdiff x' f').
Proof.
  intros Hx Hf u w H. unfold jac_product, diff_step. rewrite (gnorm_same _ _ H), (ginf_same _ _ Hx), (ginf_same _ _ Hf). destruct (Req_EM_T _ _); [now apply rs|]. cbv zeta.
  apply rs, (minus_same holds holds' rel D); [|exact Hf]. apply HF, rp; [exact Hx|]. now apply rs.
Qed.
Lemma jac_solve_same x x' f f' tol : rel x x' -> rel f f' -> same_res rel (jac_solve holds F M rdiff (go_restart o) (go_fmaxiter o) x f tol) (jac_solve holds' F' M' rdiff (go_restart o) (go_fmaxiter o) x' f' tol).
Proof.
  intros Hx Hf. unfold jac_solve.
  pose proof (dist_same holds holds' rel D N N' _ M _ M' (jac_same x x' f f' Hx Hf) HM f f' None None tol (go_restart o) (go_fmaxiter o) false L L' Hf I) as E.
  pose proof (one_pass holds (jac_product holds F rdiff x f) M f None tol (go_restart o) (go_fmaxiter o) false O1) as E1.
  pose proof (one_pass holds' (jac_product holds' F' rdiff x' f') M' f' None tol (go_restart o) (go_fmaxiter o) false O1) as E2.
  destruct (dist_fgmres holds _ _ _ _ _ _ _ _), (dist_fgmres holds' _ _ _ _ _ _ _ _); cbn in E |- *; try contradiction; try exact I; try apply E; congruence.
Qed.
Definition relm (m : gmemory (V := V)) (m' : gmemory (V := W)) : Prop := g_s m = g_s m' /\ g_phi m = g_phi m' /\ rel (g_fx m) (g_fx m').
Lemma gphi_same x x' dx dx' m m' s store : rel x x' -> rel dx dx' -> relm m m' -> fst (gphi holds F x dx m s store) = fst (gphi holds' F' x' dx' m' s store) /\ relm (snd (gphi holds F x dx m s store)) (snd (gphi holds' F' x' dx' m' s store)).
Proof.
  intros Hx Hd (H1 & H2 & H3). unfold gphi. rewrite H1. destruct (Req_EM_T _ _); [split; [exact H2|repeat split; assumption]|]. cbv zeta.
  assert (Hv : rel (F (plus x (scal (V := V) s dx))) (F' (plus x' (scal (V := W) s dx')))) by (apply HF, rp; [exact Hx|]; now apply rs).
  rewrite (gnorm_same _ _ Hv). cbn [fst snd]. split; [reflexivity|]. destruct store; repeat split; assumption.
Qed.
Lemma gsearch_same x x' dx dx' t m m' : rel x x' -> rel dx dx' -> relm m m' -> fst (gsearch holds F x dx m t) = fst (gsearch holds' F' x' dx' m' t) /\ relm (snd (gsearch holds F x dx m t)) (snd (gsearch holds' F' x' dx' m' t)).
Proof.
  intros Hx Hd. revert m m'. induction t as [s store next IH|s]; intros m m' H; [|cbn; split; [reflexivity|exact H]]. cbn [gsearch].
  pose proof (gphi_same x x' dx dx' m m' s store Hx Hd H) as (E1 & E2). destruct (gphi holds F x dx m s store) as [p m1], (gphi holds' F' x' dx' m' s store) as [p' m1']. cbn [fst snd] in *. subst p'. now apply IH.
Qed.
Lemma gline_same x x' fx fx' dx dx' st : rel x x' -> rel fx fx' -> rel dx dx' -> rel (fst (gline holds F x fx dx st)) (fst (gline holds' F' x' fx' dx' st)) /\ rel (snd (gline holds F x fx dx st)) (snd (gline holds' F' x' fx' dx' st)).
Proof.
  intros Hx Hf Hd. unfold gline. rewrite (gnorm_same _ _ Hx), (gnorm_same _ _ Hf), (gnorm_same _ _ Hd). cbv zeta.
  match goal with |- context [gsearch holds F x dx ?m ?t] => match goal with |- context [gsearch holds' F' x' dx' ?m' ?t'] => pose proof (gsearch_same x x' dx dx' t m m' Hx Hd (conj eq_refl (conj eq_refl Hf))) as (E1 & E2) end end.
  destruct (gsearch holds _ _ _ _ _) as [s m], (gsearch holds' _ _ _ _ _) as [s' m']. cbn [fst snd] in *. subst s'. destruct E2 as (E3 & E4 & E5). rewrite E3.
  assert (Hn : forall a, rel (plus x (scal (V := V) a dx)) (plus x' (scal (V := W) a dx'))) by (intro a; apply rp; [exact Hx|]; now apply rs).
  split; [apply Hn|]. destruct (Req_EM_T _ _); [exact E5|apply HF, Hn].
Qed.
Definition relst (s : gstate (V := V)) (s' : gstate (V := W)) : Prop := rel (gs_x s) (gs_x s') /\ rel (gs_fx s) (gs_fx s') /\ gs_norm s = gs_norm s' /\ gs_eta s = gs_eta s' /\ gs_dx s = gs_dx s'.
Lemma gstep_same s s' : relst s s' -> same_res relst (gstep holds F M rdiff o s) (gstep holds' F' M' rdiff o s').
Proof.
  intros (H1 & H2 & H3 & H4 & H5). unfold gstep. rewrite H3, H4. eapply bind_same; [apply jac_solve_same; assumption|]. intros v w Hv. cbv zeta.
  pose proof (opp_same holds holds' rel D _ _ Hv) as Ho.
  match goal with |- same_res _ (let (_, _) := ?p1 in _) (let (_, _) := ?p2 in _) => set (p := p1); set (p' := p2) end.
  assert (E : rel (fst p) (fst p') /\ rel (snd p) (snd p')).
  { unfold p, p'. destruct (go_search o); [now apply gline_same|]. cbn [fst snd]. assert (Hn : rel (plus (gs_x s) (opp v)) (plus (gs_x s') (opp w))) by (apply rp; assumption). split; [exact Hn|apply HF, Hn]. }
  destruct p as [y fy], p' as [y' fy']. cbn [fst snd] in E. destruct E as (E1 & E2). cbn [same_res]. rewrite (gnorm_same _ _ E2), (ginf_same _ _ Ho). repeat split; assumption.
Qed.
Lemma gconverged_same f0 s s' : relst s s' -> gconverged holds o f0 s = gconverged holds' o f0 s'.
Proof. intros (H1 & H2 & H3 & H4 & H5). unfold gconverged. now rewrite (ginf_same _ _ H1), (ginf_same _ _ H2), H5. Qed.
Lemma gloop_same k n f0 s s' r : relst s s' -> same_res (same_found rel) (gloop holds F M rdiff o k n f0 s r false) (gloop holds' F' M' rdiff o k n f0 s' r false).
Proof.
  revert n s s' r. induction k as [|k IH]; intros n s s' r H; [cbn; repeat split; apply H|]. cbn [gloop]. rewrite (gconverged_same f0 s s' H), (ginf_same _ _ (proj1 (proj2 H))).
  destruct (gconverged _ _ _ _); [cbn; repeat split; apply H|]. eapply bind_same; [exact (gstep_same s s' H)|]. intros v w Hv. now apply IH.
Qed.
End Fun.
Lemma gstart_same F F' x x' : same_map rel F F' -> rel x x' -> relst (GSt x (F x) (gnorm holds (F x)) (1 / 1000) Inf) (GSt x' (F' x') (gnorm holds' (F' x')) (1 / 1000) Inf).
Proof. intros HF Hx. repeat split; cbn; auto. apply gnorm_same. auto. Qed.
End Related.

(** a run that ends early ends in the same way with another number of passes *)
Lemma gloop_longer {V : ModuleSpace R_Ring} (holds : list (list (V -> R))) F M rdiff o k k' n f0 s r more more' a : gloop holds F M rdiff o k n f0 s r more = Value a -> f_ok a = true -> (f_it a < n + k')%nat -> gloop holds F M rdiff o k' n f0 s r more' = Value a.
Proof.
  revert k' n s r. induction k as [|k IH]; intros k' n s r E T B; cbn [gloop] in E.
  - destruct more; [discriminate|]. injection E as <-. discriminate.
  - destruct k' as [|k']; cbn [gloop].
    + exfalso. assert (G : (n <= f_it a)%nat). { clear - E T. revert E. change (gloop holds F M rdiff o (S k) n f0 s r more = Value a -> (n <= f_it a)%nat). generalize (S k). clear k. intro k. revert n s r. induction k as [|k IH]; intros n s r E; cbn [gloop] in E.
        - destruct more; [discriminate|]. injection E as <-. discriminate.
        - destruct (gconverged _ _ _ _); [injection E as <-; apply le_n|]. destruct (gstep _ _ _ _ _ _); try discriminate. cbn [bind] in E. specialize (IH _ _ _ E). lia. }
      lia.
    + destruct (gconverged _ _ _ _); [exact E|]. destruct (gstep _ _ _ _ _ _); try discriminate. cbn [bind] in *. apply (IH k' (S n) v _ E T). lia.
Qed.
Lemma limit_some {V : ModuleSpace R_Ring} (holds : list (list (V -> R))) o n : holds <> [] -> go_maxiter o = Some n -> lowest (limits holds o) = n /\ highest (limits holds o) = n.
Proof.
  intros N E. unfold limits. rewrite E. destruct holds as [|es hs]; [congruence|]. clear. cbn [map lowest highest fold_right]. induction hs as [|e hs IH]; cbn [map fold_right]; [lia|]. cbn in IH. lia.
Qed.
Lemma newton_same {V W : ModuleSpace R_Ring} (holds : list (list (V -> R))) (holds' : list (list (W -> R))) rel M M' rdiff o F F' x x' n : redistribution holds holds' rel -> holds <> [] -> holds' <> [] -> same_map rel M M' ->
  (forall es, In es holds -> (go_restart o < length es)%nat) -> (forall es, In es holds' -> (go_restart o < length es)%nat) -> (go_fmaxiter o <= 1)%nat -> go_maxiter o = Some n -> same_map rel F F' -> rel x x' ->
  same_res (same_found rel) (newton_dist holds F M rdiff o x) (newton_dist holds' F' M' rdiff o x').
Proof.
  intros D N N' HM L L' O1 E HF Hx. unfold newton_dist. cbv zeta.
  destruct (limit_some holds o n N E) as (E1 & E2). destruct (limit_some holds' o n N' E) as (E1' & E2'). rewrite E1, E2, E1', E2', Nat.eqb_refl. cbn [negb].
  destruct (Nat.eqb n 0); [exact I|]. rewrite (ginf_same holds holds' rel D _ _ (HF _ _ Hx)). apply (gloop_same holds holds' rel D N N' M M' rdiff o HM L L' O1 F F' HF). now apply (gstart_same holds holds' rel D).
Qed.
(** with the limit of nonlin.py 57-58 *)
Lemma default_limit {V : ModuleSpace R_Ring} (holds : list (list (V -> R))) o n : holds <> [] -> go_maxiter o = None -> (forall es, In es holds -> length es = n) -> lowest (limits holds o) = (100 * (n + 1))%nat /\ highest (limits holds o) = (100 * (n + 1))%nat.
Proof.
  intros N E H. unfold limits. rewrite E. destruct holds as [|es hs]; [congruence|]. rewrite <- (H es (or_introl eq_refl)). assert (H' : forall e, In e hs -> length e = length es) by (intros e He; rewrite (H e (or_intror He)), (H es (or_introl eq_refl)); reflexivity). clear - H'.
  assert (G : map (fun e : list (V -> R) => (100 * (length e + 1))%nat) hs = map (fun _ => (100 * (length es + 1))%nat) hs) by (apply map_ext_in; intros e He; now rewrite H').
  cbn [map]. rewrite G. clear. generalize (100 * (length es + 1))%nat. intro c. cbn [lowest highest fold_right]. induction hs as [|e hs IH]; cbn [map fold_right]; [lia|]. cbn in IH. lia.
Qed.
Lemma newton_default {V : ModuleSpace R_Ring} (holds : list (list (V -> R))) F M rdiff tol xs n x : holds <> [] -> (forall es, In es holds -> length es = n) ->
  newton_dist holds F M rdiff (usual xs tol None) x = newton_dist holds F M rdiff (usual xs tol (Some (100 * (n + 1))%nat)) x.
Proof.
  intros N H. unfold newton_dist. cbv zeta.
  destruct (default_limit holds (usual xs tol None) n N eq_refl H) as (E1 & E2). destruct (limit_some holds (usual xs tol (Some (100 * (n + 1))%nat)) _ N eq_refl) as (E3 & E4). rewrite E1, E2, E3, E4. destruct (Nat.eqb _ 0); [reflexivity|].
  reflexivity.
Qed.
Lemma newton_found {V W : ModuleSpace R_Ring} (holds : list (list (V -> R))) (holds' : list (list (W -> R))) rel M M' rdiff xs tol F F' x x' n n' a : redistribution holds holds' rel -> holds <> [] -> holds' <> [] -> same_map rel M M' ->
  (forall es, In es holds -> length es = n) -> (forall es, In es holds' -> length es = n') -> (30 < n)%nat -> (30 < n')%nat -> same_map rel F F' -> rel x x' ->
  newton_dist holds F M rdiff (usual xs tol None) x = Value a -> f_ok a = true -> (f_it a < 100 * (n' + 1))%nat ->
  same_res (same_found rel) (Value a) (newton_dist holds' F' M' rdiff (usual xs tol None) x').
Proof.
  intros D N N' HM E E' B B' HF Hx H T I. rewrite (newton_default holds' F' M' rdiff tol xs n' x' N' E').
  assert (L : forall es, In es holds -> (go_restart (usual xs tol (Some (100 * (n' + 1))%nat)) < length es)%nat) by (intros es He; rewrite (E es He); exact B).
  assert (L' : forall es, In es holds' -> (go_restart (usual xs tol (Some (100 * (n' + 1))%nat)) < length es)%nat) by (intros es He; rewrite (E' es He); exact B').
  pose proof (newton_same holds holds' rel M M' rdiff (usual xs tol (Some (100 * (n' + 1))%nat)) F F' x x' _ D N N' HM L L' (le_n 1) eq_refl HF Hx) as G.
  replace (newton_dist holds F M rdiff (usual xs tol (Some (100 * (n' + 1))%nat)) x) with (Value a) in G; [exact G|]. symmetry.
  rewrite (newton_default holds F M rdiff tol xs n x N E) in H. revert H. unfold newton_dist. cbv zeta.
  destruct (limit_some holds (usual xs tol (Some (100 * (n + 1))%nat)) _ N eq_refl) as (E3 & E4). destruct (limit_some holds (usual xs tol (Some (100 * (n' + 1))%nat)) _ N eq_refl) as (E5 & E6). rewrite E3, E5.
  destruct (Nat.eqb_spec (100 * (n + 1)) 0); [discriminate|]. destruct (Nat.eqb_spec (100 * (n' + 1)) 0); [lia|]. intro H.
  refine (gloop_longer holds F M rdiff (usual xs tol (Some (100 * (n + 1))%nat)) _ _ _ _ _ _ _ _ a H T _). exact I.
Qed.
(** ** integrators; [rr]: [same_res] or [gives] *)
Section Integrators.
Context {V W : ModuleSpace R_Ring}.
Variables (holds : list (list (V -> R))) (holds' : list (list (W -> R))) (rel : V -> W -> Prop).
Hypothesis D : redistribution holds holds' rel.
Variable rr : forall X Y : Type, (X -> Y -> Prop) -> res X -> res Y -> Prop.
Hypothesis rr_value : forall X Y (r : X -> Y -> Prop) v w, r v w -> rr X Y r (Value v) (Value w).
Hypothesis rr_bind : forall X Y X' Y' (r : X -> Y -> Prop) (r' : X' -> Y' -> Prop) a b f g, rr X Y r a b -> (forall v w, r v w -> rr X' Y' r' (f v) (g w)) -> rr X' Y' r' (bind a f) (bind b g).
Variables (nw nw1 : (V -> V) -> V -> res V) (nw' nw1' : (W -> W) -> W -> res W) (f : V -> V) (f' : W -> W).
Definition related (m : (V -> V) -> V -> res V) (m' : (W -> W) -> W -> res W) : Prop := forall F F' x x', same_map rel F F' -> rel x x' -> rr V W rel (m F x) (m' F' x').
Hypothesis Hn : related nw nw'.
Hypothesis Hn1 : related nw1 nw1'.
Hypothesis Hf : same_map rel f f'.
Let rp := same_plus _ _ _ D. Let rs := same_scal _ _ _ D.
Ltac go := repeat (assumption || apply (minus_same holds holds' rel D) || apply rp || apply rs || apply Hf).
Lemma cn_same dt q q' : rel q q' -> rr V W rel (cn_dist nw f dt q) (cn_dist nw' f' dt q').
Proof. intro H. apply Hn; [|exact H]. intros u w Hu. unfold cn_fun. go. Qed.
Lemma be_same dt q q' : rel q q' -> rr V W rel (be_dist nw f dt q) (be_dist nw' f' dt q').
Proof. intro H. apply Hn; [|exact H]. intros u w Hu. unfold be_fun. go. Qed.
Lemma sdirk_same dt q q' : rel q q' -> rr V W rel (sdirk_dist nw f dt q) (sdirk_dist nw' f' dt q').
Proof.
  intro H. eapply rr_bind; [apply Hn; [|exact H]; intros u w Hu; unfold sdirk_fun1; go|]. intros v w Hv.
  eapply rr_bind; [apply Hn; [|exact H]; intros u z Hu; unfold sdirk_fun2; go|]. intros v2 w2 Hv2. apply rr_value. go.
Qed.
Lemma bdf2_first_same dt n q q' : rel q q' -> rr V W rel (bdf2_first f nw1 dt n q) (bdf2_first f' nw1' dt n q').
Proof.
  revert q q'. induction n as [|n IH]; intros q q' H; [now apply rr_value|]. cbn [bdf2_first]. eapply rr_bind; [apply Hn1; [|exact H]; intros u w Hu; unfold bdf2_start_fun; go|exact IH].
Qed.
Lemma bdf2_same n dt p p' q q' : same_option rel p p' -> rel q q' -> rr _ _ (same_previous rel) (bdf2_dist nw f nw1 n dt p q) (bdf2_dist nw' f' nw1' n dt p' q').
Proof.
  intros Hp H. unfold bdf2_dist. apply (rr_bind _ _ _ _ rel); [|intros v w Hv; apply rr_value; split; assumption].
  destruct p, p'; cbn in Hp; try contradiction; [|now apply bdf2_first_same]. apply Hn; [|exact H]. intros u w Hu. unfold bdf2_fun. go.
Qed.
Lemma res_steps_same {S T : Type} (r : S -> T -> Prop) s s' n q q' : (forall u w, r u w -> rr S T r (s u) (s' w)) -> r q q' -> rr S T r (res_steps s n q) (res_steps s' n q').
Proof. intro Hs. revert q q'. induction n as [|n IH]; intros q q' H; [now apply rr_value|]. cbn [res_steps]. eapply rr_bind; [apply Hs, H|exact IH]. Qed.
Lemma steps_related sc dt n q q' : rel q q' -> rr V W rel (implicit_steps sc nw nw1 f dt n q) (implicit_steps sc nw' nw1' f' dt n q').
Proof.
  intro H. destruct sc; cbn [implicit_steps].
  - apply res_steps_same; [|exact H]. intros; now apply cn_same.
  - apply res_steps_same; [|exact H]. intros; now apply be_same.
  - apply res_steps_same; [|exact H]. intros; now apply sdirk_same.
  - eapply rr_bind; [apply (res_steps_same (same_previous rel))|].
    + intros u w Hu. apply bdf2_same; apply Hu.
    + split; [exact I|exact H].
    + intros v w Hv. apply rr_value. apply Hv.
Qed.
End Integrators.

Lemma gives_bind X Y X' Y' (r : X -> Y -> Prop) (r' : X' -> Y' -> Prop) a b f g : gives r a b -> (forall v w, r v w -> gives r' (f v) (g w)) -> gives r' (bind a f) (bind b g).
Proof. intros H Hf v E. destruct a as [| |x]; try discriminate. cbn [bind] in E. destruct (H x eq_refl) as (y & -> & Hy). exact (Hf x y Hy v E). Qed.
Lemma gives_value X Y (r : X -> Y -> Prop) v w : r v w -> gives r (Value v) (Value w).
Proof. intros H x E. injection E as <-. eauto. Qed.
Lemma implicit_holds {V W : ModuleSpace R_Ring} (holds : list (list (V -> R))) (holds' : list (list (W -> R))) rel size size' f f' : redistribution holds holds' rel -> holds <> [] -> holds' <> [] -> (forall es, In es holds -> length es = size) -> (forall es, In es holds' -> length es = size') ->
  (30 < size)%nat -> (30 < size')%nat -> same_map rel f f' -> implicit_same holds holds' rel size size' f f'.
Proof.
  intros D N N' E E' B B' Hf M M' rdiff xs tol dt n sc q q' HM Hq. assert (HI : same_map rel (fun v : V => v) (fun w : W => w)) by (intros u w H; exact H). split.
  - intro k. assert (G : forall P P', same_map rel P P' -> related rel (@same_res) (call holds P rdiff (usual xs tol (Some k))) (call holds' P' rdiff (usual xs tol (Some k)))).
    { intros P P' HP F F' x x' HF Hx. unfold call. apply (bind_same (same_found rel)); [|intros a a' Ha; apply Ha].
      apply (newton_same holds holds' rel P P' rdiff _ F F' x x' k); auto; cbn [go_restart usual]; intros es He; [rewrite (E es He); exact B|rewrite (E' es He); exact B']. }
    apply (steps_related holds holds' rel D (@same_res)); auto. intros; now apply (bind_same r).
  - assert (G : forall P P', same_map rel P P' -> related rel (@gives) (call_within (100 * (size' + 1)) holds P rdiff (usual xs tol None)) (call holds' P' rdiff (usual xs tol None))).
    { intros P P' HP F F' x x' HF Hx v H. unfold call_within in H. destruct (newton_dist holds F P rdiff (usual xs tol None) x) as [| |a] eqn:En; try discriminate. cbn [bind] in H. destruct (f_ok a) eqn:T; [|discriminate]. destruct (Nat.ltb_spec (f_it a) (100 * (size' + 1))); [|discriminate]. injection H as <-.
      pose proof (newton_found holds holds' rel P P' rdiff xs tol F F' x x' size size' a D N N' HP E E' B B' HF Hx En T H0) as G. unfold call. destruct (newton_dist holds' _ _ _ _ _) as [| |a']; cbn in G; try contradiction. cbn [bind]. eexists; split; [reflexivity|apply G]. }
    apply (steps_related holds holds' rel D (@gives)); auto. + intros; now apply gives_value. + exact gives_bind.
Qed.
