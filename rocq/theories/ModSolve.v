(** Linear combinations in a module over the reals. *)
From Coq Require Import Reals Lra Lia List Arith.
From Coquelicot Require Import Coquelicot.
Import ListNotations.
Local Open Scope R_scope.
(** equations between linear combinations of vectors, decided coefficient by coefficient *)
Inductive mexp := MV (n : nat) | MZ | MP (a b : mexp) | MO (a : mexp) | MM (a b : mexp) | MS (r : R) (a : mexp).
Section Solve.
Variable V : ModuleSpace R_Ring.
Fixpoint meval (env : list V) (e : mexp) : V := match e with
  | MV n => nth n env zero | MZ => zero | MP a b => plus (meval env a) (meval env b) | MO a => opp (meval env a) | MM a b => minus (meval env a) (meval env b) | MS r a => scal (V := V) r (meval env a) end.
Fixpoint mcoef (e : mexp) (i : nat) : R := match e with
  | MV n => if Nat.eqb n i then 1 else 0 | MZ => 0 | MP a b => mcoef a i + mcoef b i | MO a => - mcoef a i | MM a b => mcoef a i - mcoef b i | MS r a => r * mcoef a i end.
Fixpoint lincomb (env : list V) (f : nat -> R) : V := match env with [] => zero | x :: r => plus (scal (V := V) (f O) x) (lincomb r (fun i => f (S i))) end.
Lemma lc_ext env : forall f g, (forall i, (i < length env)%nat -> f i = g i) -> lincomb env f = lincomb env g.
Proof. induction env as [|x r IH]; intros f g H; trivial. cbn [lincomb length] in *. rewrite (H O) by lia. f_equal. apply IH. intros i Hi. apply H. lia. Qed.
Lemma lc_plus env : forall f g, lincomb env (fun i => f i + g i) = plus (lincomb env f) (lincomb env g).
Proof.
  induction env as [|x r IH]; intros f g; cbn [lincomb]; [now rewrite plus_zero_l|]. rewrite (IH (fun i => f (S i)) (fun i => g (S i))).
  change (f O + g O) with (plus (f O) (g O : R_Ring)). rewrite (scal_distr_r (V := V)). set (p := scal _ x). set (p' := scal _ x). set (s := lincomb _ _). set (s' := lincomb _ _).
  now rewrite !plus_assoc, <- (plus_assoc p p' s), (plus_comm p' s), !plus_assoc.
Qed.
Lemma lc_scal env : forall k f, lincomb env (fun i => k * f i) = scal (V := V) k (lincomb env f).
Proof.
  induction env as [|x r IH]; intros k f; cbn [lincomb]; [now rewrite (scal_zero_r (V := V))|]. rewrite (IH k (fun i => f (S i))), (scal_distr_l (V := V)), (scal_assoc (V := V)). reflexivity.
Qed.
Lemma lc_zero env : lincomb env (fun _ => 0) = zero.
Proof. induction env as [|x r IH]; trivial. cbn [lincomb]. rewrite IH, plus_zero_r. exact (scal_zero_l (V := V) x). Qed.
Lemma lc_var env : forall n, lincomb env (fun i => if Nat.eqb n i then 1 else 0) = nth n env zero.
Proof.
  induction env as [|x r IH]; intros [|n]; trivial; cbn [lincomb nth Nat.eqb].
  - rewrite lc_zero, plus_zero_r. exact (scal_one (V := V) x).
  - rewrite IH. etransitivity; [|apply plus_zero_l]. f_equal. exact (scal_zero_l (V := V) x).
Qed.
Lemma meval_lc env e : meval env e = lincomb env (mcoef e).
Proof.
  induction e; cbn [meval].
  - symmetry. apply lc_var.
  - symmetry. apply lc_zero.
  - rewrite IHe1, IHe2. symmetry. apply (lc_plus env (mcoef e1) (mcoef e2)).
  - rewrite IHe, <- (scal_opp_one (V := V)). change (opp (one : R_Ring)) with (-1). rewrite <- lc_scal. apply lc_ext. intros i _. cbn [mcoef]. ring.
  - unfold minus. rewrite IHe1, IHe2, <- (scal_opp_one (V := V)). change (opp (one : R_Ring)) with (-1). rewrite <- lc_scal, <- lc_plus. apply lc_ext. intros i _. cbn [mcoef]. ring.
  - rewrite IHe. symmetry. apply (lc_scal env r (mcoef e)).
Qed.
Fixpoint upto (n : nat) (P : nat -> Prop) : Prop := match n with O => True | S k => upto k P /\ P k end.
Lemma upto_all n P : upto n P -> forall i, (i < n)%nat -> P i.
Proof. induction n; intros H i Hi; [lia|]. destruct H. destruct (Nat.eq_dec i n) as [->|]; trivial. apply IHn; trivial; lia. Qed.
Lemma meval_eq env e1 e2 : upto (length env) (fun i => mcoef e1 i = mcoef e2 i) -> meval env e1 = meval env e2.
Proof. intro H. rewrite !meval_lc. apply lc_ext. exact (upto_all _ _ H). Qed.
End Solve.
Ltac midx env x n := match env with cons ?y ?r => match constr:(y = x) with ?z = ?z => n | _ => midx r x (S n) end end.
Ltac mreify env t := match t with
  | @plus _ ?a ?b => let a' := mreify env a in let b' := mreify env b in constr:(MP a' b')
  | @minus _ ?a ?b => let a' := mreify env a in let b' := mreify env b in constr:(MM a' b')
  | @opp _ ?a => let a' := mreify env a in constr:(MO a')
  | @scal _ _ ?r ?a => let a' := mreify env a in constr:(MS r a')
  | @zero _ => constr:(MZ)
  | _ => let n := midx env t O in constr:(MV n) end.
Ltac madd env x := match env with context [cons x _] => env | _ => constr:(cons x env) end.
Ltac mvars env t := match t with
  | @plus _ ?a ?b => let e := mvars env a in mvars e b
  | @minus _ ?a ?b => let e := mvars env a in mvars e b
  | @opp _ ?a => mvars env a
  | @scal _ _ ?r ?a => mvars env a
  | @zero _ => env
  | _ => madd env t end.
(** [modsolve V]: the goal is an equation in the module V; leaves the equations of the coefficients that [ring] and [field] do not settle *)
Ltac modsolve W := match goal with |- ?l = ?r => let nl := constr:(@nil (ModuleSpace.sort R_Ring W)) in let e := mvars nl l in let env := mvars e r in let a := mreify env l in let b := mreify env r in
  change (meval W env a = meval W env b); apply meval_eq; cbn [length upto mcoef Nat.eqb]; repeat split; try ring end.
