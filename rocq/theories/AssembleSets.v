(** Proofs: matrix sets are read back as they were stored. *)
From Coq Require Import Reals ZArith String List Arith Bool Lia.
From Verif Require Import AssembleModel AssembleSpec AssembleProofs.
Import ListNotations.
Local Open Scope string_scope.
Local Open Scope list_scope.

Lemma get_app {V} (a b : list (string * V)) k : get (a ++ b) k = match get a k with Some v => Some v | None => get b k end.
Proof. induction a as [|[k' v] a IH]; [reflexivity|]. cbn. destruct (String.eqb k k'); [reflexivity|exact IH]. Qed.
Lemma get_in {V} (s : list (string * V)) k : In k (map fst s) -> exists v, get s k = Some v.
Proof.
  induction s as [|[k' v] s IH]; intros H; [destruct H|]. cbn. destruct (String.eqb k k') eqn:E; [exists v; reflexivity|].
  apply IH. destruct H as [H|H]; [|exact H]. cbn in H. subst k'. rewrite String.eqb_refl in E. discriminate E.
Qed.
Lemma in_get {V} (s : list (string * V)) k v : get s k = Some v -> In k (map fst s).
Proof.
  induction s as [|[k' v'] s IH]; intros H; [discriminate H|]. cbn in *. destruct (String.eqb k k') eqn:E; [left; symmetry; apply String.eqb_eq; exact E|right; apply IH; exact H].
Qed.
Lemma ignored_in k : ignored k = true <-> In k ["param"; "permutation"; "precond"; "precond_p"].
Proof.
  unfold ignored. rewrite existsb_exists. split.
  - intros [x [Hx E]]. apply String.eqb_eq in E. subst x. exact Hx.
  - intros H. exists k. split; [exact H|apply String.eqb_refl].
Qed.
Lemma not_ignored k : ignored k = false -> ~ In k ["param"; "permutation"; "precond"; "precond_p"].
Proof. intros H I. apply ignored_in in I. rewrite I in H. discriminate H. Qed.

Section Sets.
Variable O : Type.
Notation mset := (list (string * value O)).
Definition systems (s : mset) (l : list string) : mset :=
  flat_map (fun k => if ignored k then [] else match get s k with Some (System _ r rp m mp) => [(k, System O r rp m mp)] | _ => [] end) l.
Definition arrays (e : string * value O) : list (item O) := match snd e with System _ r rp _ _ => [Npy O r; Npy O rp] | _ => [] end.
Definition mats (e : string * value O) : list sparse := match snd e with System _ _ _ m mp => [m; mp] | _ => [] end.
Definition strip (e : string * value O) : string * (arr R * arr R) := (fst e, match snd e with System _ r rp _ _ => (r, rp) | _ => (Arr [] [], Arr [] []) end).
Definition regular (s : mset) (l : list string) : Prop := forall k, In k l -> ignored k = false -> exists r rp m mp, get s k = Some (System O r rp m mp) /\ plain m /\ plain mp.
Lemma regular_tail s k l : regular s (k :: l) -> regular s l.
Proof. intros H k' Hk. apply H. right. exact Hk. Qed.
Lemma collect_spec s l : regular s l -> collect O s l = Some (flat_map arrays (systems s l), flat_map mats (systems s l)).
Proof.
  induction l as [|k l IH]; intros H; [reflexivity|]. specialize (IH (regular_tail _ _ _ H)). cbn [collect systems flat_map]. fold (systems s l).
  destruct (ignored k) eqn:E; [exact IH|]. destruct (H k (or_introl eq_refl) E) as [r [rp [m [mp [G _]]]]]. rewrite G, IH. reflexivity.
Qed.
Lemma read_spec s l rest : regular s l -> read_arrays O l (flat_map arrays (systems s l) ++ rest) = Some (map strip (systems s l), rest).
Proof.
  induction l as [|k l IH]; intros H; [reflexivity|]. specialize (IH (regular_tail _ _ _ H)). cbn [read_arrays systems flat_map]. fold (systems s l).
  destruct (ignored k) eqn:E; [exact IH|]. destruct (H k (or_introl eq_refl) E) as [r [rp [m [mp [G _]]]]]. rewrite G. cbn [app flat_map arrays snd]. fold (systems s l). rewrite IH. reflexivity.
Qed.
Lemma attach_spec s l rest : regular s l -> attach O (map strip (systems s l)) (flat_map mats (systems s l) ++ rest) = Some (systems s l, rest).
Proof.
  induction l as [|k l IH]; intros H; [reflexivity|]. specialize (IH (regular_tail _ _ _ H)). cbn [systems flat_map]. fold (systems s l).
  destruct (ignored k) eqn:E; [exact IH|]. destruct (H k (or_introl eq_refl) E) as [r [rp [m [mp [G _]]]]]. rewrite G. cbn [app flat_map map strip fst snd attach mats]. rewrite IH. reflexivity.
Qed.
Lemma mats_plain s l : regular s l -> Forall plain (flat_map mats (systems s l)).
Proof.
  induction l as [|k l IH]; intros H; [constructor|]. specialize (IH (regular_tail _ _ _ H)). cbn [systems flat_map]. fold (systems s l).
  destruct (ignored k) eqn:E; [exact IH|]. destruct (H k (or_introl eq_refl) E) as [r [rp [m [mp [G [P1 P2]]]]]]. rewrite G. cbn. constructor; [exact P1|]. constructor; [exact P2|exact IH].
Qed.
Lemma systems_get s l k : regular s l -> get (systems s l) k = if ignored k then None else if existsb (String.eqb k) l then get s k else None.
Proof.
  induction l as [|k' l IH]; intros H; [destruct (ignored k); reflexivity|]. specialize (IH (regular_tail _ _ _ H)). cbn [systems flat_map existsb]. fold (systems s l).
  destruct (ignored k') eqn:E.
  - cbn [app]. rewrite IH. destruct (String.eqb k k') eqn:E2; [|reflexivity]. apply String.eqb_eq in E2. subst k'. rewrite E. reflexivity.
  - destruct (H k' (or_introl eq_refl) E) as [r [rp [m [mp [G _]]]]]. rewrite G. cbn [app get]. destruct (String.eqb k k') eqn:E2; [|exact IH].
    apply String.eqb_eq in E2. subst k'. rewrite E, G. reflexivity.
Qed.
Lemma existsb_keys (s : mset) k : existsb (String.eqb k) (map fst s) = match get s k with Some _ => true | None => false end.
Proof.
  destruct (existsb (String.eqb k) (map fst s)) eqn:E.
  - apply existsb_exists in E. destruct E as [x [Hx E]]. apply String.eqb_eq in E. subst x. destruct (get_in s k Hx) as [v ->]. reflexivity.
  - destruct (get s k) as [v|] eqn:G; [|reflexivity]. exfalso. assert (I := in_get s k v G). assert (X : existsb (String.eqb k) (map fst s) = true); [|congruence].
    apply existsb_exists. exists k. split; [exact I|apply String.eqb_refl].
Qed.
Lemma good_regular s : good_set s -> regular s (map fst s).
Proof.
  intros [_ [_ [_ [_ H]]]] k Hk E. destruct (get_in s k Hk) as [v G]. destruct (H k v G (not_ignored k E)) as [r [rp [m [mp [-> [P1 P2]]]]]]. exists r, rp, m, mp. auto.
Qed.
Lemma systems_nil s k v : get s k = Some v -> ignored k = false -> regular s (map fst s) -> flat_map mats (systems s (map fst s)) <> [].
Proof.
  intros G E R N. assert (X := systems_get s (map fst s) k R). rewrite E, existsb_keys, G in X.
  destruct (systems s (map fst s)) as [|e l] eqn:S; [discriminate X|].
  assert (In e (systems s (map fst s))) as Hin by (rewrite S; left; reflexivity). unfold systems in Hin. apply in_flat_map in Hin. destruct Hin as [k' [_ Hin]].
  destruct (ignored k'); [destruct Hin|]. destruct (get s k') as [[x|r rp m mp|m]|]; try destruct Hin; [|contradiction]. subst e. cbn in N. discriminate N.
Qed.
Lemma set_back s : good_set s -> has_matrix s -> exists f s', store_set O s = Some f /\ load_set O f = Some s' /\ forall k, get s' k = get s k.
Proof.
  intros Hg [k0 [v0 [G0 N0]]]. assert (R := good_regular s Hg). destruct Hg as [ND [[p Gp] [[q Gq] [Hpre _]]]].
  set (S := systems s (map fst s)). set (M := flat_map mats S).
  assert (Main : forall M' extra, M' = M ++ extra -> Forall plain extra -> M' <> [] ->
     match (if existsb (String.eqb "precond") (map fst s) then match get s "precond", get s "precond_p" with Some (Mat _ a), Some (Mat _ b) => Some (M ++ [a; b]) | _, _ => None end else Some M) with Some x => x = M' | None => False end ->
     (extra = [] \/ exists a b, extra = [a; b]) -> (existsb (String.eqb "precond") (map fst s) = match extra with [] => false | _ => true end) ->
     exists f, write_set O s = Some f /\ load_set O f = Some (("param", Obj O p) :: ("permutation", Obj O q) :: S ++ match extra with [a; b] => [("precond", Mat O a); ("precond_p", Mat O b)] | _ => [] end)).
  { intros M' extra EM Fe NM Hall Hex Hb.
    assert (FM : Forall plain M') by (rewrite EM; apply Forall_app; split; [apply mats_plain; exact R|exact Fe]).
    destruct (matrices_back M' FM NM) as [d [Hs Hl]].
    exists (Pickled O p :: Pickled O q :: Keys O (map fst s) :: flat_map arrays S ++ [Npz O d]). split.
    - unfold write_set. rewrite Gp, Gq, (collect_spec s _ R). fold S. fold M. cbv zeta.
      destruct (if existsb (String.eqb "precond") (map fst s) then _ else Some M) as [x|]; [|contradiction]. subst x. rewrite Hs. reflexivity.
    - unfold load_set. unfold S at 1. rewrite (read_spec s _ _ R). fold S. rewrite Hl, EM. unfold M. unfold S at 1 2. rewrite (attach_spec s _ _ R). fold S. cbv zeta. rewrite Hb.
      destruct Hex as [->|[a [b ->]]]; [rewrite app_nil_r; reflexivity|reflexivity]. }
  assert (GS : forall k, get S k = if ignored k then None else get s k).
  { intros k. unfold S. rewrite (systems_get s _ k R), existsb_keys. destruct (ignored k); [reflexivity|]. destruct (get s k); reflexivity. }
  destruct Hpre as [[Pn Ppn]|[a [b [Pa [Pb [Fa Fb]]]]]].
  - destruct (Main M []) as [f [W L]].
    + rewrite app_nil_r. reflexivity.
    + constructor.
    + unfold M, S. apply (systems_nil s k0 v0 G0); [|exact R]. destruct (ignored k0) eqn:E; [|reflexivity]. exfalso. apply ignored_in in E. cbn in E, N0.
      destruct E as [E|[E|[E|[E|[]]]]]; subst k0; [tauto|tauto|congruence|congruence].
    + rewrite existsb_keys, Pn. reflexivity.
    + left. reflexivity.
    + rewrite existsb_keys, Pn. reflexivity.
    + exists f. eexists. split; [unfold store_set; rewrite W, L; reflexivity|]. split; [exact L|]. intros k. rewrite app_nil_r. cbn [get].
      destruct (String.eqb k "param") eqn:E1; [apply String.eqb_eq in E1; subst k; symmetry; exact Gp|].
      destruct (String.eqb k "permutation") eqn:E2; [apply String.eqb_eq in E2; subst k; symmetry; exact Gq|].
      rewrite GS. destruct (ignored k) eqn:E; [|reflexivity]. apply ignored_in in E. cbn in E. destruct E as [E|[E|[E|[E|[]]]]]; subst k; try discriminate; congruence.
  - destruct (Main (M ++ [a; b]) [a; b]) as [f [W L]].
    + reflexivity.
    + repeat constructor; assumption.
    + intros E. destruct M; discriminate E.
    + rewrite existsb_keys, Pa, Pb. reflexivity.
    + right. exists a, b. reflexivity.
    + rewrite existsb_keys, Pa. reflexivity.
    + exists f. eexists. split; [unfold store_set; rewrite W, L; reflexivity|]. split; [exact L|]. intros k. cbn [get].
      destruct (String.eqb k "param") eqn:E1; [apply String.eqb_eq in E1; subst k; symmetry; exact Gp|].
      destruct (String.eqb k "permutation") eqn:E2; [apply String.eqb_eq in E2; subst k; symmetry; exact Gq|].
      rewrite get_app, GS. destruct (ignored k) eqn:E.
      * cbn [get]. apply ignored_in in E. cbn in E. destruct E as [E|[E|[E|[E|[]]]]]; subst k; try discriminate; cbn; congruence.
      * destruct (get s k) eqn:G; [reflexivity|]. cbn [get]. destruct (String.eqb k "precond") eqn:E3; [apply String.eqb_eq in E3; subst k; discriminate E|].
        destruct (String.eqb k "precond_p") eqn:E4; [apply String.eqb_eq in E4; subst k; discriminate E|reflexivity].
Qed.
Lemma empty_set_raises s : good_set s -> ~ has_matrix s -> store_set O s = None.
Proof.
  intros Hg HN. assert (R := good_regular s Hg). destruct Hg as [ND [[p Gp] [[q Gq] [Hpre _]]]].
  assert (SN : systems s (map fst s) = []).
  { destruct (systems s (map fst s)) as [|e l] eqn:E; [reflexivity|]. exfalso. apply HN.
    assert (In e (systems s (map fst s))) as Hin by (rewrite E; left; reflexivity). unfold systems in Hin. apply in_flat_map in Hin. destruct Hin as [k' [_ Hin]].
    destruct (ignored k') eqn:Ei; [destruct Hin|]. destruct (get s k') as [v|] eqn:G; [|destruct Hin]. exists k', v. split; [exact G|]. intros I. apply not_ignored in Ei. apply Ei. cbn in *. tauto. }
  assert (PN : get s "precond" = None).
  { destruct Hpre as [[Pn _]|[a [b [Pa _]]]]; [exact Pn|]. exfalso. apply HN. exists "precond", (Mat O a). split; [exact Pa|]. cbn. intros [I|[I|[]]]; discriminate I. }
  unfold store_set, write_set. rewrite Gp, Gq, (collect_spec s _ R), SN. rewrite existsb_keys, PN. cbn [flat_map app].
  unfold save_matrices. cbn [save_from]. unfold load_set.
  assert (RS := read_spec s (map fst s) [Npz O []] R). rewrite SN in RS. cbn [flat_map app map] in RS. rewrite RS. reflexivity.
Qed.
End Sets.
