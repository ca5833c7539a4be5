(** A state at rest: newton_krylov finds it in one iteration, on any distribution. *)
From Coq Require Import Reals List ZArith Bool Arith Lia Lra.
From Coquelicot Require Import Hierarchy.
From Verif Require Import InnerSpec FieldSpace StepModel StableModel FgmresModel NewtonModel ParSolveModel ParSolveSpec ParSolve ParSolveInst ParNewtonModel ParNewtonSpec ParNewton.
Import ListNotations.
Local Open Scope R_scope.

Lemma largest_zero {X : Type} (f : X -> R) l : (forall e, In e l -> f e = 0) -> largest (map f l) = 0.
Proof. unfold largest. intro H. induction l as [|e l IH]; [reflexivity|]. cbn [map fold_right]. rewrite IH by (intros; apply H; now right). rewrite (H e (or_introl eq_refl)). apply Rmax_left. lra. Qed.
Lemma total_zero {X : Type} (f : X -> R) l : (forall e, In e l -> f e = 0) -> total (map f l) = 0.
Proof. unfold total. intro H. induction l as [|e l IH]; [reflexivity|]. cbn [map fold_right]. rewrite IH by (intros; apply H; now right). rewrite (H e (or_introl eq_refl)). lra. Qed.
Lemma concat_zero {V : ModuleSpace R_Ring} (holds : list (list (V -> R))) : (forall es, In es holds -> forall e, In e es -> e zero = 0) -> forall e, In e (concat holds) -> e zero = 0.
Proof. intros H e He. apply in_concat in He. destruct He as (es & H1 & H2). eauto. Qed.
Lemma ginf_zero {V : ModuleSpace R_Ring} (holds : list (list (V -> R))) : (forall es, In es holds -> forall e, In e es -> e zero = 0) -> ginf holds zero = 0.
Proof. intro H. rewrite ginf_concat. apply largest_zero. intros e He. rewrite (concat_zero holds H e He). apply Rabs_R0. Qed.
Lemma gnorm_zero {V : ModuleSpace R_Ring} (holds : list (list (V -> R))) : (forall es, In es holds -> forall e, In e es -> e zero = 0) -> gnorm holds zero = 0.
Proof. intro H. unfold gnorm. rewrite dot_concat, total_zero; [apply sqrt_0|]. intros e He. rewrite (concat_zero holds H e He). ring. Qed.
Lemma newton_rest {V : ModuleSpace R_Ring} (holds : list (list (V -> R))) F M rdiff tol k x : holds <> [] -> (forall es, In es holds -> forall e, In e es -> e zero = 0) -> (forall es, In es holds -> (30 < length es)%nat) -> 0 <= tol -> (2 <= k)%nat -> F x = zero ->
  newton_dist holds F M rdiff (usual None tol (Some k)) x = Value (Found x 1 [0; 0] true).
Proof.
  intros N Z L T K E. unfold newton_dist. cbv zeta. destruct (limit_some holds (usual None tol (Some k)) k N eq_refl) as (E1 & E2). rewrite E1, E2, Nat.eqb_refl, E.
  pose proof (ginf_zero holds Z) as G0. pose proof (gnorm_zero holds Z) as G1. rewrite G0.
  destruct k as [|[|k]]; [lia|lia|]. cbn [Nat.eqb negb gloop app]. unfold gconverged. cbn [gs_fx gs_dx gs_x usual go_ftol go_frtol go_xtol go_xrtol]. rewrite G0. cbn [le_num div_num]. destruct (Rle_dec 0 tol); [|contradiction]. destruct (Rle_dec 0 0) as [r0|]; [|lra]. cbn [andb].
  unfold gstep, jac_solve. cbn [gs_x gs_fx gs_eta gs_norm usual go_restart go_fmaxiter go_search]. unfold dist_fgmres.
  replace (existsb (fun es => (length es <=? 30)%nat) holds) with false. 2: { symmetry. apply not_true_iff_false. intro X. apply existsb_exists in X. destruct X as (es & H1 & H2). apply Nat.leb_le in H2. specialize (L es H1). lia. }
  change (InnerSpec.norm (global_dotprod holds) zero) with (gnorm holds zero). rewrite G1. destruct (Req_EM_T 0 0) as [e0|]; [|contradiction]. cbn [a_x bind]. rewrite opp_zero, plus_zero_r, E. cbn [gs_fx gs_dx gs_x]. rewrite !G0. cbn [le_num div_num].
  destruct (Rle_dec 0 tol); [|contradiction]. destruct (Rle_dec 0 0); [|lra]. cbn [andb]. destruct (Rle_dec 0 (ginf holds x)) as [|n]; [reflexivity|]. exfalso. apply n, largest_pos.
Qed.
Lemma sw_zero ranks N ns : forall es, In es (sw_entries ranks N ns) -> forall e : states -> R, In e es -> e zero = 0.
Proof.
  unfold sw_entries, loop. intros es H e He. apply in_map_iff in H. destruct H as (r & <- & _). do 4 (apply in_flat_map in He; destruct He as (? & _ & He)). destruct He as [<-|[]]. reflexivity.
Qed.
