(** A decision procedure for equalities of linear combinations in a vector space over R (used in proofs only). *)
From Coq Require Import Reals List Lra Lia.
From Coquelicot Require Import Hierarchy.
Import ListNotations.
Local Open Scope R_scope.

Inductive vexp := VAtom (n : nat) | VZero | VPlus (a b : vexp) | VScal (r : R) (a : vexp) | VOpp (a : vexp) | VMinus (a b : vexp).

Section Den.
Context {V : ModuleSpace R_Ring}.
Fixpoint vden (env : list V) (e : vexp) : V :=
  match e with
  | VAtom n => nth n env zero
  | VZero => zero
  | VPlus a b => plus (vden env a) (vden env b)
  | VScal r a => scal (V := V) r (vden env a)
  | VOpp a => opp (vden env a)
  | VMinus a b => minus (vden env a) (vden env b)
  end.
Fixpoint vcoef (e : vexp) (i : nat) : R :=
  match e with
  | VAtom n => if Nat.eqb n i then 1 else 0
  | VZero => 0
  | VPlus a b => vcoef a i + vcoef b i
  | VScal r a => r * vcoef a i
  | VOpp a => - vcoef a i
  | VMinus a b => vcoef a i - vcoef b i
  end.
Fixpoint vlin (env : list V) (c : nat -> R) (i : nat) : V :=
  match env with [] => zero | x :: r => plus (scal (V := V) (c i) x) (vlin r c (S i)) end.
Lemma scal_Rplus : forall (a b : R) (x : V), scal (V := V) (a + b) x = plus (scal (V := V) a x) (scal (V := V) b x).
Proof. intros. exact (scal_distr_r a b x). Qed.
Lemma scal_Rmult : forall (a b : R) (x : V), scal (V := V) (a * b) x = scal (V := V) a (scal (V := V) b x).
Proof. intros. symmetry. exact (scal_assoc a b x). Qed.
Lemma vlin_plus : forall env c d i, vlin env (fun j => c j + d j) i = plus (vlin env c i) (vlin env d i).
Proof.
  induction env as [|x r IH]; intros c d i; cbn; [rewrite plus_zero_l; reflexivity|]. rewrite IH.
  rewrite scal_Rplus. rewrite <- !plus_assoc. f_equal. rewrite !plus_assoc. f_equal. apply plus_comm.
Qed.
Lemma vlin_scal : forall env c k i, vlin env (fun j => k * c j) i = scal (V := V) k (vlin env c i).
Proof.
  induction env as [|x r IH]; intros c k i; cbn; [rewrite scal_zero_r; reflexivity|]. rewrite IH, scal_distr_l, scal_Rmult. reflexivity.
Qed.
Lemma vlin_zero : forall env i, vlin env (fun _ => 0) i = zero.
Proof.
  induction env as [|x r IH]; intros i; cbn; [reflexivity|]. rewrite IH, plus_zero_r. exact (scal_zero_l x).
Qed.
Lemma vlin_ext : forall env c d i, (forall j, c j = d j) -> vlin env c i = vlin env d i.
Proof. induction env as [|x r IH]; intros c d i H; cbn; [reflexivity|]. rewrite H, (IH c d); auto. Qed.
Lemma vlin_opp : forall env c i, vlin env (fun j => - c j) i = opp (vlin env c i).
Proof.
  intros env c i. rewrite (vlin_ext env _ (fun j => (-1) * c j)) by (intros; ring). rewrite vlin_scal.
  exact (scal_opp_one (vlin env c i)).
Qed.
Lemma vlin_shift : forall env c i, vlin env c (S i) = vlin env (fun j => c (S j)) i.
Proof. induction env as [|x r IH]; intros c i; cbn; [reflexivity|]. rewrite IH. reflexivity. Qed.
Lemma vlin_atom : forall env n, vlin env (fun j => if Nat.eqb n j then 1 else 0) 0 = nth n env zero.
Proof.
  induction env as [|x r IH]; intros n; cbn; [destruct n; reflexivity|]. destruct n as [|n]; cbn.
  - rewrite vlin_shift. assert (E : vlin r (fun j => if Nat.eqb 0 (S j) then 1 else 0) 0 = zero) by exact (vlin_zero r 0).
    cbn in E. cbn. rewrite E, plus_zero_r. exact (scal_one x).
  - rewrite vlin_shift. cbn. rewrite IH. rewrite (scal_zero_l x : scal (V := V) 0 x = zero). apply plus_zero_l.
Qed.
Lemma vden_vlin : forall env e, vden env e = vlin env (vcoef e) 0.
Proof.
  intros env. induction e as [n| |a IHa b IHb|r a IH|a IH|a IHa b IHb]; cbn [vden vcoef].
  - symmetry. apply vlin_atom.
  - symmetry. apply vlin_zero.
  - rewrite IHa, IHb. symmetry. apply (vlin_plus env (vcoef a) (vcoef b)).
  - rewrite IH. symmetry. apply (vlin_scal env (vcoef a)).
  - rewrite IH. symmetry. apply (vlin_opp env (vcoef a)).
  - rewrite IHa, IHb. unfold minus. rewrite <- vlin_opp, <- vlin_plus. apply vlin_ext. reflexivity.
Qed.
Fixpoint all_below (n : nat) (P : nat -> Prop) : Prop := match n with O => True | S n' => all_below n' P /\ P n' end.
Lemma all_below_lt : forall n P, all_below n P -> forall i, (i < n)%nat -> P i.
Proof.
  induction n as [|n IH]; intros P H i Hi; [lia|]. destruct H as [H1 H2]. destruct (Nat.eq_dec i n) as [->|N]; [exact H2|]. apply IH; auto. lia.
Qed.
Lemma vlin_below : forall env c d i, (forall j, (j < i + length env)%nat -> c j = d j) -> vlin env c i = vlin env d i.
Proof.
  induction env as [|x r IH]; intros c d i H; cbn; [reflexivity|]. rewrite (H i) by (cbn; lia). f_equal. apply IH.
  intros j Hj. apply H. cbn. lia.
Qed.
Lemma vec_eq : forall env a b, all_below (length env) (fun i => vcoef a i = vcoef b i) -> vden env a = vden env b.
Proof. intros env a b H. rewrite !vden_vlin. apply vlin_below. intros j Hj. apply (all_below_lt _ _ H). exact Hj. Qed.
End Den.

(** atoms are compared up to conversion *)
Ltac vfind x l :=
  lazymatch l with
  | ?y :: ?r => match goal with
                | _ => let _ := constr:(eq_refl x : x = y) in constr:(O)
                | _ => let n := vfind x r in constr:(S n)
                end
  end.
Ltac vmem x l :=
  lazymatch l with
  | nil => constr:(false)
  | ?y :: ?r => match goal with
                | _ => let _ := constr:(eq_refl x : x = y) in constr:(true)
                | _ => vmem x r
                end
  end.
Ltac vadd x l := let b := vmem x l in lazymatch b with true => l | false => constr:(x :: l) end.
Ltac vatoms V e l :=
  lazymatch e with
  | plus ?a ?b => let l1 := vatoms V a l in vatoms V b l1
  | minus ?a ?b => let l1 := vatoms V a l in vatoms V b l1
  | opp ?a => vatoms V a l
  | scal ?r ?a => vatoms V a l
  | zero => l
  | ?x => vadd x l
  end.
Ltac vreify V e l :=
  lazymatch e with
  | plus ?a ?b => let x := vreify V a l in let y := vreify V b l in constr:(VPlus x y)
  | minus ?a ?b => let x := vreify V a l in let y := vreify V b l in constr:(VMinus x y)
  | opp ?a => let x := vreify V a l in constr:(VOpp x)
  | scal ?r ?a => let x := vreify V a l in constr:(VScal r x)
  | zero => constr:(VZero)
  | ?x => let n := vfind x l in constr:(VAtom n)
  end.
(** Reduces an equality of vectors to the equality of the coefficients of each atom, left to [tac]. *)
Ltac vspace a :=
  lazymatch type of a with
  | ModuleSpace.sort _ ?W => constr:(W)
  | NormedModule.sort ?K ?W => constr:(NormedModule.ModuleSpace K W)
  | AbelianGroup.sort (ModuleSpace.AbelianGroup _ ?W) => constr:(W)
  | AbelianGroup.sort (NormedModule.AbelianGroup ?K ?W) => constr:(NormedModule.ModuleSpace K W)
  end.
Ltac vec_with tac :=
  lazymatch goal with
  | |- @eq ?T ?a ?b =>
      let V := match goal with |- context [@scal _ ?W _ _] => constr:(W) | _ => vspace a end in
      let l0 := constr:(@nil (ModuleSpace.sort R_Ring V)) in
      let l1 := vatoms V a l0 in
      let l := vatoms V b l1 in
      let x := vreify V a l in
      let y := vreify V b l in
      change (vden (V := V) l x = vden (V := V) l y);
      apply vec_eq; cbn [all_below length vcoef Nat.eqb]; repeat split; tac
  end.
Ltac vec := vec_with ltac:(try reflexivity; try ring; try (field; lra)).
