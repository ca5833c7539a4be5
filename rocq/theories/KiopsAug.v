From Coq Require Import Reals ZArith List Bool Lia Lra.
From Coquelicot Require Import Coquelicot.
From Verif Require Import KiopsModel KiopsSpec.
Local Open Scope R_scope.

Lemma mu_nu : forall ex, mu ex * nu ex = 1.
Proof. intros ex. unfold mu, nu. rewrite <- powerRZ_add by lra. replace (ex + - ex)%Z with 0%Z by lia. reflexivity. Qed.
Lemma mu_neq_0 : forall ex, mu ex <> 0.
Proof. intros ex H. pose proof (mu_nu ex). rewrite H in H0. lra. Qed.

Lemma monomial_0 : forall i, monomial (S i) 0 = 0.
Proof. intros i. unfold monomial. rewrite pow_ne_zero by lia. unfold Rdiv. ring. Qed.
Lemma monomial_derive : forall i t, is_derive (monomial (S i)) t (monomial i t).
Proof.
  intros i t. unfold monomial. auto_derive; [exact I|]. rewrite plus_INR, mult_INR. pose proof (INR_fact_neq_0 i). replace (match i with | 0%nat => 1 | S _ => INR i + 1 end) with (INR i + 1) by (destruct i; [cbn; ring|reflexivity]).
  assert (INR i + 1 <> 0) by (pose proof (pos_INR i); lra). field_simplify_eq; [ring|split; auto]. intros E. apply H0, Rmult_eq_reg_r with (INR (fact i)); [lra|exact H].
Qed.
Lemma monomial_derive_0 : forall t, is_derive (monomial 0) t 0.
Proof. intros t. apply (is_derive_ext (fun _ => 1)); [intros x; unfold monomial; cbn; lra|]. auto_derive; [exact I|reflexivity]. Qed.

(** the solution of the augmented part, with the model's shift *)
Definition aug_solves (p : nat) (e : nat -> R -> R) : Prop := forall k t, (k < p)%nat -> is_derive (e k) t (shift p (fun i => e i t) k).

Lemma chain_solves : forall p e, (1 <= p)%nat -> chain p e -> aug_solves p e.
Proof.
  intros p e P C k t K. destruct (C t) as [A B]. unfold shift. destruct (Nat.ltb_spec k (p - 1)).
  - replace (Datatypes.S k) with (k + 1)%nat by lia. apply A. lia.
  - replace k with (p - 1)%nat by lia. exact B.
Qed.
Lemma solves_chain : forall p e, (1 <= p)%nat -> aug_solves p e -> chain p e.
Proof.
  intros p e P C t. split; [intros k K|]; [specialize (C k t ltac:(lia))|specialize (C (p - 1)%nat t ltac:(lia))]; unfold shift in C.
  - destruct (Nat.ltb_spec k (p - 1)); [|lia]. now replace (k + 1)%nat with (Datatypes.S k) by lia.
  - destruct (Nat.ltb_spec (p - 1) (p - 1)); [lia|exact C].
Qed.

Lemma monomials_solve : forall p c, aug_solves p (fun k t => monomial (p - 1 - k) t * c).
Proof.
  intros p c k t K. unfold shift. destruct (Nat.ltb_spec k (p - 1)) as [L|L].
  - replace (p - 1 - k)%nat with (S (p - 1 - S k)) by lia. apply (is_derive_ext (fun x => scal c (monomial (S (p - 1 - S k)) x))); [intros x; apply Rmult_comm|].
    replace (monomial (p - 1 - S k) t * c) with (scal c (monomial (p - 1 - S k) t)) by apply Rmult_comm. apply is_derive_scal, monomial_derive.
  - replace (p - 1 - k)%nat with 0%nat by lia. apply (is_derive_ext (fun x => scal c (monomial 0 x))); [intros x; apply Rmult_comm|]. replace 0 with (scal c 0) by (unfold scal; cbn; unfold mult; cbn; ring). apply is_derive_scal, monomial_derive_0.
Qed.

Lemma aug_unique : forall p e c, aug_solves p e -> (forall k, (k < p)%nat -> e k 0 = monomial (p - 1 - k) 0 * c) -> forall d k t, (d = p - 1 - k)%nat -> (k < p)%nat -> 0 <= t -> e k t = monomial (p - 1 - k) t * c.
Proof.
  intros p e c S I d. induction d as [|d IH]; intros k t D K T; destruct (Rle_lt_or_eq_dec 0 t T) as [P|<-]; auto.
  - assert (Q : e k 0 - monomial (p - 1 - k) 0 * c = e k t - monomial (p - 1 - k) t * c).
    { apply (eq_is_derive (fun x => e k x - monomial (p - 1 - k) x * c)); [|exact P]. intros x X. pose proof (is_derive_minus (e k) (fun x => monomial (p - 1 - k) x * c) x _ _ (S k x K) (monomials_solve p c k x K)) as DD.
      match type of DD with is_derive _ _ ?d => refine (eq_ind d (is_derive _ x) DD zero _) end.
      unfold shift. destruct (Nat.ltb_spec k (p - 1)); [lia|]. apply minus_eq_zero. }
    rewrite I in Q by exact K. lra.
  - assert (Q : e k 0 - monomial (p - 1 - k) 0 * c = e k t - monomial (p - 1 - k) t * c).
    { apply (eq_is_derive (fun x => e k x - monomial (p - 1 - k) x * c)); [|exact P]. intros x X. pose proof (is_derive_minus (e k) (fun x => monomial (p - 1 - k) x * c) x _ _ (S k x K) (monomials_solve p c k x K)) as DD.
      match type of DD with is_derive _ _ ?d => refine (eq_ind d (is_derive _ x) DD zero _) end.
      unfold shift. destruct (Nat.ltb_spec k (p - 1)); [|apply minus_eq_zero]. rewrite (IH (Datatypes.S k) x) by (try lia; apply X). apply minus_eq_zero. }
    rewrite I in Q by exact K. lra.
Qed.

Lemma augmented_0 : forall p c k, (k < p)%nat -> augmented p 0 c k = monomial (p - 1 - k) 0 * c.
Proof.
  intros p c k K. unfold augmented. destruct (Nat.ltb_spec k (p - 1)) as [L|L].
  - replace (p - 1 - k)%nat with (S (p - 1 - S k)) by lia. rewrite monomial_0. rewrite pow_ne_zero by lia. unfold Rdiv. ring.
  - replace (p - 1 - k)%nat with 0%nat by lia. unfold monomial. cbn. lra.
Qed.

(** the code's exponents are two too large *)
Theorem restart_wrong : forall p now ex e, (2 <= p)%nat -> 0 < now < 2 -> chain p e -> (forall k, (k < p)%nat -> e k 0 = augmented p 0 (mu ex) k) ->
  forall k, (k < p - 1)%nat -> augmented p now (mu ex) k <> e k now.
Proof.
  intros p now ex e P N S0 I k K. pose proof (chain_solves p e ltac:(lia) S0) as S. rewrite (aug_unique p e (mu ex) S ltac:(intros i Hi; rewrite I by exact Hi; now apply augmented_0) (p - 1 - k) k now eq_refl ltac:(lia) ltac:(lra)).
  unfold augmented. destruct (Nat.ltb_spec k (p - 1)) as [_|L]; [|lia]. replace (p - k + 1)%nat with (Datatypes.S (Datatypes.S (p - 1 - k))) by lia. set (i := (p - 1 - k)%nat). assert (Hi : (1 <= i)%nat) by (unfold i; lia).
  unfold monomial. rewrite !fact_simpl, !mult_INR. pose proof (INR_fact_neq_0 i) as F. pose proof (mu_neq_0 ex) as M. rewrite !S_INR. assert (X : 1 <= INR i) by (apply (le_INR 1); exact Hi).
  assert (W : now ^ i <> 0) by (apply pow_nonzero; lra). intros H.
  replace (now ^ Datatypes.S (Datatypes.S i) / ((INR i + 1 + 1) * ((INR i + 1) * INR (fact i))) * mu ex) with (now ^ i / INR (fact i) * mu ex * (now * now / ((INR i + 2) * (INR i + 1)))) in H by (cbn [pow]; field; repeat split; lra).
  set (Y := now ^ i / INR (fact i) * mu ex) in *. assert (YN : Y <> 0) by (unfold Y, Rdiv; repeat apply Rmult_integral_contrapositive_currified; auto; now apply Rinv_neq_0_compat).
  assert (Z : now * now / ((INR i + 2) * (INR i + 1)) = 1) by (apply Rmult_eq_reg_l with Y; [lra|exact YN]).
  assert (V : now * now = (INR i + 2) * (INR i + 1)). { transitivity (now * now / ((INR i + 2) * (INR i + 1)) * ((INR i + 2) * (INR i + 1))); [field; split; lra|]. rewrite Z. ring. }
  nra.
Qed.

Theorem restart_right : forall p now ex e, (1 <= p)%nat -> p = 1%nat \/ now = 0 -> 0 <= now -> chain p e -> (forall k, (k < p)%nat -> e k 0 = augmented p 0 (mu ex) k) ->
  forall k, (k < p)%nat -> augmented p now (mu ex) k = e k now.
Proof.
  intros p now ex e P O N S0 I k K. pose proof (chain_solves p e P S0) as S. destruct O as [-> | ->]; [|symmetry; auto].
  rewrite (aug_unique 1 e (mu ex) S ltac:(intros i Hi; rewrite I by exact Hi; now apply augmented_0) (1 - 1 - k) k now eq_refl K N). unfold augmented, monomial. destruct (Nat.ltb_spec k (1 - 1)); [lia|]. replace (1 - 1 - k)%nat with 0%nat by lia. cbn. lra.
Qed.

(** the solution of w' = A w + sum over j of t^(j-1)/(j-1)! u_j solves the augmented system *)
Lemma sum_n_reverse : forall (E : NormedModule R_AbsRing) (f : nat -> E) n, sum_n (fun k => f (n - k)%nat) n = sum_n f n.
Proof.
  intros E f n. revert f. induction n as [|n IH]; intros f; [rewrite !sum_O; reflexivity|]. rewrite sum_Sn. replace (Datatypes.S n - Datatypes.S n)%nat with 0%nat by lia.
  rewrite (sum_n_ext_loc _ (fun k => (fun i => f (Datatypes.S i)) (n - k)%nat)); [|intros k K; f_equal; lia]. rewrite (IH (fun i => f (Datatypes.S i))).
  clear IH. revert f. induction n as [|n IH]; intros f; [rewrite !sum_Sn, !sum_O; apply plus_comm|]. rewrite sum_Sn, (sum_Sn f (Datatypes.S n)). rewrite <- plus_assoc, (plus_comm _ (f 0%nat)), plus_assoc. now rewrite IH.
Qed.

Theorem product_right : forall (E : NormedModule R_AbsRing) (A : E -> E) (u : nat -> E) ex p (v : E) t, (1 <= p)%nat ->
  product A u ex p v (fun k => monomial (p - 1 - k) t * mu ex) = plus (A v) (sum_n (fun k => scal (monomial k t) (u (Datatypes.S k))) (p - 1)).
Proof.
  intros E A u ex p v t P. unfold product. f_equal. rewrite <- (sum_n_reverse E (fun k => scal (monomial k t) (u (Datatypes.S k)))). apply sum_n_ext_loc. intros k K.
  replace (Datatypes.S (p - 1 - k)) with (p - k)%nat by lia. rewrite scal_assoc. f_equal. unfold mult. cbn. rewrite Rmult_assoc, mu_nu. ring.
Qed.

Theorem augmented_system : forall (E : NormedModule R_AbsRing) (A : E -> E) (u : nat -> E) ex p (w : R -> E), (1 <= p)%nat ->
  (forall t, is_derive w t (plus (A (w t)) (sum_n (fun k => scal (monomial k t) (u (Datatypes.S k))) (p - 1)))) ->
  exists e, chain p e /\ (forall k t, (k < p)%nat -> is_derive (e k) t (shift p (fun i => e i t) k)) /\ (forall k, (k < p)%nat -> e k 0 = augmented p 0 (mu ex) k) /\ forall t, is_derive w t (product A u ex p (w t) (fun k => e k t)).
Proof.
  intros E A u ex p w P W. exists (fun k t => monomial (p - 1 - k) t * mu ex). split; [apply solves_chain; [exact P|apply monomials_solve]|]. split; [apply monomials_solve|]. split; [intros k K; symmetry; now apply augmented_0|].
  intros t. rewrite product_right by exact P. apply W.
Qed.

Lemma restart_values : monomial (3 - 1 - 0) (1/2) * mu 2 = 1/2 /\ augmented 3 (1/2) (mu 2) 0 = 1/96 /\ monomial (3 - 1 - 1) (1/2) * mu 2 = 2 /\ augmented 3 (1/2) (mu 2) 1 = 1/12.
Proof.
  assert (M : mu 2 = 4) by (unfold mu, powerRZ; change (Pos.to_nat 2) with 2%nat; cbn; lra). rewrite M. unfold monomial, augmented. cbn [Nat.sub Nat.ltb Nat.leb Nat.add pow].
  change (fact 2) with 2%nat. change (fact 1) with 1%nat. change (fact 4) with 24%nat. change (fact 3) with 6%nat. rewrite !INR_IZR_INZ. cbn [Z.of_nat Pos.of_succ_nat Pos.succ]. repeat split; field.
Qed.
