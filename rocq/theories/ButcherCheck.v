(** A checker for the order conditions, over an arbitrary representation of numbers, and its soundness.  Part of the proofs of C30. *)
From Coq Require Import List Arith ZArith QArith Qabs Qreals Reals Lra Lia Bool.
From Verif Require Import RkModel ButcherTables ButcherModel ButcherSpec.
Import ListNotations.
Local Open Scope R_scope.

Section Check.
Variables (T : Type) (tz to : T) (ad mu : T -> T -> T) (inj : Q -> T) (near : T -> Q -> bool).

Fixpoint dot (a v : list T) : T := match a, v with x :: a', y :: v' => ad (mu x y) (dot a' v') | _, _ => tz end.
Definition matvec (A : list (list T)) (v : list T) : list T := map (fun row => dot row v) A.
Fixpoint vmul (v w : list T) : list T := match v, w with x :: v', y :: w' => mu x y :: vmul v' w' | _, _ => [] end.

(** Pairs of the weight vector and the density: of forests of a given size, and of the trees made of them *)
Definition level : Type := list (list T * positive).
Definition mktrees (A : list (list T)) (n : nat) (l : level) : level := map (fun d => (matvec A (fst d), Pos.mul (Pos.of_succ_nat n) (snd d))) l.
Definition join (t l : level) : level := flat_map (fun x => map (fun y => (vmul (fst x) (fst y), Pos.mul (snd x) (snd y))) l) t.
Fixpoint levels (A : list (list T)) (n : nat) : list (level * level) :=
  match n with
  | O => let l := [(map (fun _ => to) A, 1%positive)] in [(l, mktrees A 0 l)]
  | S n' =>
      let s := levels A n' in
      let l := flat_map (fun p => join (fst p) (snd p)) (combine (rev (map snd s)) (map fst s)) in
      (l, mktrees A n l) :: s
  end.

(** The extended tableau *)
Definition ext_A (m : method) : list (list T) := map (map inj) (mA m) ++ [map inj (mB m)].

Definition check_level (b e : list T) (q n : nat) (l : level) : bool :=
  forallb (fun d => near (dot b (fst d)) (1 # (Pos.of_succ_nat n * snd d)) && (Nat.leb q n || near (dot e (fst d)) 0%Q)) l.
Fixpoint check_levels (b e : list T) (q : nat) (s : list (level * level)) : bool :=
  match s with [] => true | (l, _) :: r => check_level b e q (List.length r) l && check_levels b e q r end.
(** Order conditions up to the order S p, null conditions up to the order q <= S p *)
Definition check_trees (m : method) (p q : nat) : bool :=
  check_levels (map inj (mB m)) (map inj (mE m)) q (levels (ext_A m) p).

Fixpoint pfact (n : nat) : positive := match n with O => 1%positive | S n' => Pos.mul (Pos.of_succ_nat n') (pfact n') end.
(** sum_i b_i (A^k c^j)_i = j! / (k+j+1)!, for k = n, n-1, ... *)
Fixpoint check_powers (A : list (list T)) (b e : list T) (q j : nat) (n k : nat) (v : list T) : bool :=
  match n with
  | O => true
  | S n' =>
      near (dot b v) (Zpos (pfact j) # pfact (k + j + 1)) && (Nat.leb q (k + j) || near (dot e v) 0%Q) &&
      check_powers A b e q j n' (S k) (matvec A v)
  end.
Fixpoint check_linear_from (A : list (list T)) (b e c : list T) (q p : nat) (n j : nat) (cj : list T) : bool :=
  match n with
  | O => true
  | S n' => check_powers A b e q j (p - j) 0 cj && check_linear_from A b e c q p n' (S j) (vmul c cj)
  end.
Definition check_linear (m : method) (p q : nat) : bool :=
  let A := ext_A m in
  check_linear_from A (map inj (mB m)) (map inj (mE m)) (map inj (mC m) ++ [to]) q p p 0 (map (fun _ => to) A).

(** ** Soundness *)
Variables (rel : T -> R -> Prop) (eps : R).
Hypothesis rel_z : rel tz 0.
Hypothesis rel_o : rel to 1.
Hypothesis rel_ad : forall x y r s, rel x r -> rel y s -> rel (ad x y) (r + s).
Hypothesis rel_mu : forall x y r s, rel x r -> rel y s -> rel (mu x y) (r * s).
Hypothesis rel_inj : forall q, rel (inj q) (Q2R q).
Hypothesis near_ok : forall x r q, rel x r -> near x q = true -> Rabs (r - Q2R q) <= eps.

Lemma rsum_ext : forall n g g', (forall j, (j < n)%nat -> g j = g' j) -> rsum n g = rsum n g'.
Proof. induction n; intros g g' H; cbn [rsum]; [reflexivity|]. rewrite (IHn g g'), (H n) by (intros; auto with arith). reflexivity. Qed.
Lemma rsum_shift : forall n g, rsum (S n) g = g 0%nat + rsum n (fun j => g (S j)).
Proof. induction n; intros g; [cbn; lra|]. cbn [rsum] in *. rewrite IHn. lra. Qed.
Lemma rsum_0 : forall n g, (forall j, (j < n)%nat -> g j = 0) -> rsum n g = 0.
Proof. induction n; intros g H; cbn [rsum]; [reflexivity|]. rewrite IHn, H by auto with arith. lra. Qed.

(** [v] represents the function [f] on 0..n-1 *)
Definition reps (v : list T) (n : nat) (f : nat -> R) : Prop := List.length v = n /\ forall i d, (i < n)%nat -> rel (nth i v d) (f i).

Lemma dot_ok : forall n (row : list Q) v f, (List.length row <= n)%nat -> reps v n f ->
  rel (dot (map inj row) v) (rsum n (fun j => nth j (map Q2R row) 0 * f j)).
Proof.
  induction n; intros row v f L [Lv H].
  - destruct row; [|cbn in L; lia]. exact rel_z.
  - destruct v as [|y v]; [discriminate|]. destruct row as [|x row].
    + cbn [map dot]. replace (rsum (S n) _) with 0; [exact rel_z|]. symmetry. apply rsum_0. intros j _. destruct j; cbn; ring.
    + rewrite rsum_shift. cbn [map dot nth]. apply rel_ad.
      * apply rel_mu; [apply rel_inj|]. apply (H 0%nat y). lia.
      * apply (IHn row v (fun j => f (S j))); [cbn in L; lia|]. split; [cbn in Lv; lia|]. intros i d Hi. apply (H (S i) d). lia.
Qed.

Lemma nth_rows : forall (A : list (list Q)) i (v : list T) d, (i < List.length A)%nat ->
  nth i (matvec (map (map inj) A) v) d = dot (map inj (nth i A [])) v.
Proof.
  induction A as [|row A IH]; intros i v d Hi; [cbn in Hi; lia|]. destruct i; [reflexivity|]. cbn [map matvec nth]. apply IH. cbn in Hi. lia.
Qed.

Section M.
Variable m : method.
Let tb := method_tab m.
Let n := m_stages m.
Hypothesis LA : List.length (mA m) = n.
Hypothesis LR : forall row, In row (mA m) -> (List.length row <= S n)%nat.
Hypothesis LB : (List.length (mB m) <= S n)%nat.
Hypothesis LE : (List.length (mE m) <= S n)%nat.
Hypothesis LC : List.length (mC m) = n.

Lemma matvec_ok : forall v f, reps v (S n) f -> reps (matvec (ext_A m) v) (S n) (fun i => rsum (S n) (fun j => ea_ tb i j * f j)).
Proof.
  intros v f H. split.
  - unfold matvec, ext_A. rewrite map_length, app_length, map_length. cbn. lia.
  - intros i d Hi. unfold matvec, ext_A. rewrite map_app. unfold ea_. cbn [n_stages tb method_tab].
    destruct (Nat.ltb_spec i (m_stages m)) as [Q|Q].
    + rewrite app_nth1 by (rewrite !map_length; fold n in Q; lia).
      change (map (fun row => dot row v) (map (map inj) (mA m))) with (matvec (map (map inj) (mA m)) v).
      rewrite nth_rows by (fold n in Q; lia).
      replace (rsum (S n) _) with (rsum (S n) (fun j => nth j (map Q2R (nth i (mA m) [])) 0 * f j)).
      * apply dot_ok; [|exact H]. apply LR. apply nth_In. fold n in Q. lia.
      * apply rsum_ext. intros j _. unfold a_. cbn [tA tb method_tab]. rewrite <- (map_nth (map Q2R)). reflexivity.
    + assert (i = n) by (unfold n in *; lia). rewrite app_nth2 by (rewrite !map_length; lia). rewrite !map_length, LA.
      replace (i - n)%nat with 0%nat by lia. cbn [map nth].
      replace (rsum (S n) _) with (rsum (S n) (fun j => nth j (map Q2R (mB m)) 0 * f j)) by (apply rsum_ext; reflexivity).
      apply dot_ok; assumption.
Qed.
Lemma b_ok : forall v f, reps v (S n) f -> rel (dot (map inj (mB m)) v) (rsum (S n) (fun i => b_ tb i * f i)).
Proof. intros v f H. apply dot_ok; assumption. Qed.
Lemma e_ok : forall v f, reps v (S n) f -> rel (dot (map inj (mE m)) v) (rsum (S n) (fun i => e_ tb i * f i)).
Proof. intros v f H. apply dot_ok; assumption. Qed.
Lemma vmul_ok : forall N v w f g, reps v N f -> reps w N g -> reps (vmul v w) N (fun i => f i * g i).
Proof.
  induction N; intros v w f g [Lv Hv] [Lw Hw].
  - destruct v; [|discriminate]. split; [reflexivity|]. intros; lia.
  - destruct v as [|x v]; [discriminate|]. destruct w as [|y w]; [discriminate|]. cbn in Lv, Lw.
    destruct (IHN v w (fun i => f (S i)) (fun i => g (S i))) as [L H].
    { split; [lia|]. intros i d Hi. apply (Hv (S i) d). lia. }
    { split; [lia|]. intros i d Hi. apply (Hw (S i) d). lia. }
    split; [cbn; lia|]. intros [|i] d Hi; cbn [vmul nth].
    + apply rel_mu; [apply (Hv 0%nat x)|apply (Hw 0%nat y)]; lia.
    + apply H. lia.
Qed.
Lemma ones_ok : reps (map (fun _ => to) (ext_A m)) (S n) (fun _ => 1).
Proof.
  assert (L : List.length (ext_A m) = S n) by (unfold ext_A; rewrite app_length, map_length; cbn; lia).
  split; [rewrite map_length; exact L|]. intros i d Hi. rewrite (nth_indep _ d to) by (rewrite map_length; lia).
  rewrite (map_nth (fun _ : list T => to) (ext_A m) []). exact rel_o.
Qed.

(** The weights of a forest and its data *)
Definition fweight (l : list tree) (i : nat) : R := weight (S n) (ea_ tb) (Node l) i.
Definition fsize (l : list tree) : nat := list_sum (map size l).
Definition fdens (l : list tree) : nat := fold_right Nat.mul 1%nat (map density l).
Definition has (lv : level) (l : list tree) : Prop := exists d, In d lv /\ reps (fst d) (S n) (fweight l) /\ Pos.to_nat (snd d) = fdens l.
Definition complete (s : list (level * level)) : Prop :=
  forall k, (k < List.length s)%nat ->
    let p := nth k (rev s) ([], []) in
    (forall l, fsize l = k -> has (fst p) l) /\ (forall t, size t = S k -> exists d, In d (snd p) /\
       reps (fst d) (S n) (fun i => rsum (S n) (fun j => ea_ tb i j * weight (S n) (ea_ tb) t j)) /\ Pos.to_nat (snd d) = density t).

Lemma trees_ok : forall k lv, (forall l, fsize l = k -> has lv l) -> forall t, size t = S k -> exists d, In d (mktrees (ext_A m) k lv) /\
       reps (fst d) (S n) (fun i => rsum (S n) (fun j => ea_ tb i j * weight (S n) (ea_ tb) t j)) /\ Pos.to_nat (snd d) = density t.
Proof.
  intros k lv H [l] E. cbn [size] in E. destruct (H l) as (d & I & W & D); [unfold fsize; lia|].
  exists (matvec (ext_A m) (fst d), Pos.mul (Pos.of_succ_nat k) (snd d)). repeat split.
  - unfold mktrees. apply (in_map (fun d => (matvec (ext_A m) (fst d), Pos.mul (Pos.of_succ_nat k) (snd d))) lv d I).
  - apply matvec_ok in W. apply W.
  - apply matvec_ok in W. apply W.
  - cbn [snd density]. rewrite Pos2Nat.inj_mul, SuccNat2Pos.id_succ, D. unfold fdens. cbn [size]. rewrite <- E. reflexivity.
Qed.

Lemma levels_length : forall k A, List.length (levels A k) = S k.
Proof. induction k; intros A; cbn [levels]; [reflexivity|]. cbn [List.length]. rewrite IHk. reflexivity. Qed.

Lemma nth_combine_rev : forall (s : list (level * level)) k d1 d2, (k < List.length s)%nat ->
  nth k (combine (rev (map snd s)) (map fst s)) (d1, d2) = (snd (nth k (rev s) (d2, d1)), fst (nth (List.length s - S k) (rev s) (d2, d1))).
Proof.
  intros s k d1 d2 Hk. rewrite combine_nth by (rewrite rev_length, !map_length; reflexivity). f_equal.
  - rewrite <- map_rev. apply (map_nth snd (rev s) (d2, d1) k).
  - rewrite rev_nth by lia. replace (List.length s - S (List.length s - S k))%nat with k by lia. apply (map_nth fst s (d2, d1) k).
Qed.

Lemma complete_grow : forall k, complete (levels (ext_A m) k).
Proof.
  induction k as [|k IH].
  - intros [|k] Hk; [|cbn in Hk; lia]. cbn [levels List.length rev app nth fst snd].
    assert (H0 : forall l, fsize l = 0%nat -> has [(map (fun _ => to) (ext_A m), 1%positive)] l).
    { intros l E. assert (l = []) by (destruct l as [|[l'] l]; [reflexivity|cbn in E; discriminate]). subst l.
      exists (map (fun _ => to) (ext_A m), 1%positive). repeat split; [left; reflexivity|apply ones_ok|]. intros i d Hi. apply ones_ok. exact Hi. }
    split; [exact H0|]. apply trees_ok. exact H0.
  - intros j Hj. cbn [levels]. set (s := levels (ext_A m) k) in *. rewrite levels_length in Hj.
    set (lv := flat_map (fun p => join (fst p) (snd p)) (combine (rev (map snd s)) (map fst s))). cbn [rev].
    assert (Ls : List.length s = S k) by apply levels_length.
    destruct (Nat.eq_dec j (S k)) as [->|Nj].
    + cbv zeta. rewrite app_nth2 by (rewrite rev_length; lia). rewrite rev_length, Ls, Nat.sub_diag. cbn [nth fst snd].
      assert (H0 : forall l, fsize l = S k -> has lv l).
      { intros [|t l] E; [discriminate|]. unfold fsize in E. cbn [map list_sum fold_right] in E. fold (fsize l) in E. destruct t as [l'].
        pose (i := fsize l'). assert (Ei : size (Node l') = S i) by reflexivity. change (list_sum (map size l)) with (fsize l) in E.
        assert (E' : (S i + fsize l = S k)%nat) by (rewrite <- Ei; exact E).
        destruct (IH i) as [_ IHt]; [lia|]. destruct (IH (fsize l)) as [IHf _]; [lia|].
        destruct (IHt (Node l') Ei) as (d & Id & Wd & Dd). destruct (IHf l eq_refl) as (f & If & Wf & Df).
        exists (vmul (fst d) (fst f), Pos.mul (snd d) (snd f)). split; [|split].
        - unfold lv. apply in_flat_map. exists (nth i (combine (rev (map snd s)) (map fst s)) ([], [])). split.
          + apply nth_In. rewrite combine_length, rev_length, !map_length. lia.
          + rewrite nth_combine_rev by lia. cbn [fst snd]. replace (List.length s - S i)%nat with (fsize l) by lia.
            unfold join. apply in_flat_map. exists d. split; [exact Id|].
            apply (in_map (fun y => (vmul (fst d) (fst y), Pos.mul (snd d) (snd y))) _ f If).
        - cbn [fst]. apply (vmul_ok (S n) (fst d) (fst f) _ _ Wd Wf).
        - cbn [snd]. rewrite Pos2Nat.inj_mul, Dd, Df. reflexivity. }
      split; [exact H0|]. apply trees_ok. exact H0.
    + cbv zeta. rewrite app_nth1 by (rewrite rev_length; lia). apply IH. lia.
Qed.

Lemma check_levels_nth : forall b e q s k, check_levels b e q s = true -> (k < List.length s)%nat ->
  check_level b e q k (fst (nth k (rev s) ([], []))) = true.
Proof.
  induction s as [|[l t] s IH]; intros k C Hk; [cbn in Hk; lia|]. cbn [check_levels] in C. apply andb_true_iff in C. destruct C as [C1 C2].
  cbn [rev]. cbn [List.length] in Hk. destruct (Nat.eq_dec k (List.length s)) as [->|N].
  - rewrite app_nth2 by (rewrite rev_length; lia). rewrite rev_length, Nat.sub_diag. exact C1.
  - rewrite app_nth1 by (rewrite rev_length; lia). apply IH; [exact C2|lia].
Qed.

Lemma Q2R_inv_pos : forall k, Q2R (1 # k) = / INR (Pos.to_nat k).
Proof. intros k. unfold Q2R. cbn [Qnum Qden]. rewrite INR_IPR. unfold IZR. rewrite Rmult_1_l. reflexivity. Qed.

Lemma density_pos : forall t, (1 <= density t)%nat.
Proof.
  fix IH 1. intros [l]. cbn [density]. assert (H : (1 <= fold_right Nat.mul 1 (map density l))%nat).
  { induction l as [|t l IHl]; [cbn; lia|]. cbn [map fold_right]. pose proof (IH t). nia. }
  cbn [size]. nia.
Qed.

Theorem check_trees_ok : forall p q, check_trees m p q = true ->
  order_conditions (S n) (ea_ tb) (b_ tb) (S p) eps /\ ((q <= S p)%nat -> null_conditions (S n) (ea_ tb) (e_ tb) q eps).
Proof.
  intros p q C.
  assert (H : forall t, (size t <= S p)%nat ->
    Rabs (rsum (S n) (fun i => b_ tb i * weight (S n) (ea_ tb) t i) - / INR (density t)) <= eps /\
    ((size t <= q)%nat -> Rabs (rsum (S n) (fun i => e_ tb i * weight (S n) (ea_ tb) t i)) <= eps)).
  { intros [l] St. set (k := fsize l). assert (Sz : size (Node l) = S k) by reflexivity.
    assert (Hk : (k < List.length (levels (ext_A m) p))%nat) by (rewrite levels_length; lia).
    destruct (complete_grow p k Hk) as [Hf _]. destruct (Hf l eq_refl) as (d & Id & Wd & Dd).
    pose proof (check_levels_nth _ _ _ _ k C Hk) as Ck. unfold check_level in Ck. rewrite forallb_forall in Ck. specialize (Ck d Id).
    apply andb_true_iff in Ck. destruct Ck as [C1 C2]. split.
    - pose proof (near_ok _ _ _ (b_ok _ _ Wd) C1) as N. rewrite Q2R_inv_pos, Pos2Nat.inj_mul, SuccNat2Pos.id_succ, Dd in N. exact N.
    - intros Sq. apply orb_true_iff in C2. destruct C2 as [C2|C2]; [apply Nat.leb_le in C2; lia|].
      pose proof (near_ok _ _ _ (e_ok _ _ Wd) C2) as N. rewrite RMicromega.Q2R_0, Rminus_0_r in N. exact N. }
  split.
  - intros t St. apply (H t St).
  - intros Hq t St. apply (H t); lia.
Qed.

(** ** Powers *)
(** A^k c^j, for the extended tableau *)
Fixpoint powers (k j : nat) (i : nat) : R :=
  match k with O => (if Nat.ltb i n then c_ tb i else 1) ^ j | S k' => rsum (S n) (fun l => ea_ tb i l * powers k' j l) end.
Definition factq (k j : nat) : R := INR (fact j) / INR (fact (k + j + 1)).

Lemma pfact_nat : forall i, Pos.to_nat (pfact i) = fact i.
Proof. induction i as [|k IH]; [reflexivity|]. cbn [pfact]. rewrite Pos2Nat.inj_mul, SuccNat2Pos.id_succ, IH. reflexivity. Qed.
Lemma Q2R_factq : forall k j, Q2R (Zpos (pfact j) # pfact (k + j + 1)) = factq k j.
Proof.
  intros k j. unfold Q2R, factq. cbn [Qnum Qden]. rewrite <- !pfact_nat, !INR_IPR. reflexivity.
Qed.

Definition lin_ok (q k j : nat) : Prop :=
  Rabs (rsum (S n) (fun i => b_ tb i * powers k j i) - factq k j) <= eps /\ ((k + j < q)%nat -> Rabs (rsum (S n) (fun i => e_ tb i * powers k j i)) <= eps).

Lemma check_powers_ok : forall q j N k v, reps v (S n) (powers k j) ->
  check_powers (ext_A m) (map inj (mB m)) (map inj (mE m)) q j N k v = true -> forall k', (k <= k' < k + N)%nat -> lin_ok q k' j.
Proof.
  intros q j. induction N; intros k v W C k' Hk'; [lia|]. cbn [check_powers] in C.
  apply andb_true_iff in C. destruct C as [C C3]. apply andb_true_iff in C. destruct C as [C1 C2].
  destruct (Nat.eq_dec k' k) as [->|Nk].
  - split.
    + pose proof (near_ok _ _ _ (b_ok _ _ W) C1) as X. rewrite Q2R_factq in X. exact X.
    + intros Q. apply orb_true_iff in C2. destruct C2 as [C2|C2]; [apply Nat.leb_le in C2; lia|].
      pose proof (near_ok _ _ _ (e_ok _ _ W) C2) as X. rewrite RMicromega.Q2R_0, Rminus_0_r in X. exact X.
  - apply (IHN (S k) (matvec (ext_A m) v)); [|exact C3|lia]. exact (matvec_ok _ _ W).
Qed.

Lemma c_ok : reps (map inj (mC m) ++ [to]) (S n) (fun i => if Nat.ltb i n then c_ tb i else 1).
Proof.
  split; [rewrite app_length, map_length; cbn; lia|]. intros i d Hi. destruct (Nat.ltb_spec i n).
  - rewrite app_nth1 by (rewrite map_length; lia). rewrite (nth_indep _ d (inj 0%Q)) by (rewrite map_length; lia).
    rewrite (map_nth inj). unfold c_. cbn [tC tb method_tab].
    rewrite (nth_indep _ 0 (Q2R 0%Q)) by (rewrite map_length; lia). rewrite (map_nth Q2R). apply rel_inj.
  - rewrite app_nth2 by (rewrite map_length; lia). rewrite map_length. replace (i - List.length (mC m))%nat with 0%nat by lia. exact rel_o.
Qed.

Lemma check_linear_from_ok : forall q p N j cj, reps cj (S n) (powers 0 j) ->
  check_linear_from (ext_A m) (map inj (mB m)) (map inj (mE m)) (map inj (mC m) ++ [to]) q p N j cj = true ->
  forall k j', (j <= j' < j + N)%nat -> (k + j' < p)%nat -> lin_ok q k j'.
Proof.
  intros q p. induction N; intros j cj W C k j' Hj Hk; [lia|]. cbn [check_linear_from] in C. apply andb_true_iff in C. destruct C as [C1 C2].
  destruct (Nat.eq_dec j' j) as [->|Nj].
  - apply (check_powers_ok q j (p - j) 0 cj W C1). lia.
  - apply (IHN (S j) (vmul (map inj (mC m) ++ [to]) cj)); [|exact C2|lia|exact Hk].
    pose proof (vmul_ok (S n) _ _ _ _ c_ok W) as X. exact X.
Qed.

Theorem check_linear_ok : forall p q, check_linear m p q = true -> forall k j, (k + j < p)%nat -> lin_ok q k j.
Proof.
  intros p q C k j H. apply (check_linear_from_ok q p p 0 (map (fun _ => to) (ext_A m))) with (1 := ones_ok); [exact C|lia|exact H].
Qed.
End M.
End Check.
