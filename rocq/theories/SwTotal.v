(** The sum over all sides of all tiles of what leaves them is zero. *)
From Coq Require Import Reals ZArith Arith List Bool Lia Lra Permutation.
From Verif Require Import TopologyModel TopologySpec TopologyProofs FluxModel SwModel SwSpec SwEdges.
Import ListNotations.
Local Open Scope R_scope.

Definition total {A} (f : A -> R) (l : list A) : R := fold_right (fun a s => f a + s) 0 l.
Lemma total_app {A} (f : A -> R) l1 l2 : total f (l1 ++ l2) = total f l1 + total f l2.
Proof. induction l1 as [|a l1 IH]; cbn [app total fold_right]; [unfold total; cbn; ring|]. fold (total f (l1 ++ l2)). rewrite IH. unfold total; cbn [fold_right]. ring. Qed.
Lemma total_map {A B} (g : A -> B) (f : B -> R) l : total f (map g l) = total (fun a => f (g a)) l.
Proof. induction l as [|a l IH]; [reflexivity|]. cbn [map total fold_right]. unfold total in IH. now rewrite IH. Qed.
Lemma total_ext {A} (f g : A -> R) l : (forall a, In a l -> f a = g a) -> total f l = total g l.
Proof. induction l as [|a l IH]; intro H; [reflexivity|]. cbn [total fold_right]. rewrite (H a) by (left; reflexivity). f_equal. apply IH. intros; apply H; right; assumption. Qed.
Lemma total_opp {A} (f : A -> R) l : total (fun a => - f a) l = - total f l.
Proof. induction l as [|a l IH]; cbn [total fold_right]; [ring|]. unfold total in IH. rewrite IH. ring. Qed.
Lemma total_perm {A} (f : A -> R) l1 l2 : Permutation l1 l2 -> total f l1 = total f l2.
Proof. intro P. induction P; cbn [total fold_right] in *; unfold total in *; lra. Qed.
Lemma total_prod {A B} (f : A -> B -> R) la lb : total (fun a => total (f a) lb) la = total (fun c => f (fst c) (snd c)) (list_prod la lb).
Proof.
  induction la as [|a la IH]; [reflexivity|]. cbn [list_prod]. rewrite total_app, total_map. cbn [total fold_right]. unfold total in *. cbn [fst snd]. now rewrite IH.
Qed.
Lemma NoDup_map_on {A B} (f : A -> B) l : NoDup l -> (forall x y, In x l -> In y l -> f x = f y -> x = y) -> NoDup (map f l).
Proof.
  induction l as [|a l IH]; intros N H; cbn [map]; [constructor|]. inversion N as [|? ? Na Nl]; subst. constructor.
  - intro I. apply in_map_iff in I as (y & E & I). apply Na. rewrite (H a y); [exact I|left; reflexivity|right; exact I|now symmetry].
  - apply IH; [exact Nl|]. intros x y Hx Hy. apply H; right; assumption.
Qed.
Lemma NoDup_both {A} (l1 l2 : list A) : NoDup l1 -> NoDup l2 -> (forall x, In x l1 -> ~ In x l2) -> NoDup (l1 ++ l2).
Proof.
  induction l1 as [|a l1 IH]; intros N1 N2 H; cbn [app]; [exact N2|]. inversion N1 as [|? ? Na Nl]; subst. constructor.
  - intro I. apply in_app_or in I as [I|I]; [now apply Na|]. apply (H a); [left; reflexivity|exact I].
  - apply IH; [exact Nl|exact N2|]. intros x Hx. apply H. right. exact Hx.
Qed.
Lemma NoDup_prod {A B} (la : list A) (lb : list B) : NoDup la -> NoDup lb -> NoDup (list_prod la lb).
Proof.
  induction la as [|a la IH]; intros Na Nb; cbn [list_prod]; [constructor|]. inversion Na as [|? ? Ha Nl]; subst. apply NoDup_both.
  - apply NoDup_map_on; [exact Nb|]. intros x y _ _ [= E]. exact E.
  - apply IH; assumption.
  - intros [x y] I J. apply in_map_iff in I as (z & [= <- <-] & _). apply in_prod_iff in J as [J _]. now apply Ha.
Qed.
(** terms that cancel in pairs *)
Lemma pairs_cancel {A} (l : list A) (f : A -> A) (g : A -> R) : NoDup l ->
  (forall a, In a l -> In (f a) l /\ f (f a) = a /\ g (f a) = - g a) -> total g l = 0.
Proof.
  intros N H. assert (P : Permutation (map f l) l).
  { apply NoDup_Permutation_bis.
    - apply NoDup_map_on; [exact N|]. intros x y Hx Hy E. destruct (H x Hx) as (_ & <- & _). destruct (H y Hy) as (_ & <- & _). now rewrite E.
    - rewrite map_length. apply Nat.le_refl.
    - intros y I. apply in_map_iff in I as (x & <- & I). now destruct (H x I). }
  pose proof (total_perm g _ _ P) as E. rewrite total_map in E. rewrite (total_ext (fun a => g (f a)) (fun a => - g a)) in E by (intros a Ha; now destruct (H a Ha) as (_ & _ & ?)).
  rewrite total_opp in E. lra.
Qed.

Section Sphere.
Variables (k N ns : nat) (pts ws : nat -> R) (radius : R) (ext_i ext_j : Z -> nat -> nat -> face) (topo_i topo_j : Z -> nat -> face).
Hypothesis Hk : (1 <= k)%nat.
Hypothesis HN : (1 <= N)%nat.
Hypothesis Hns : (1 <= ns)%nat.
Hypothesis sym : forall i, (i < ns)%nat -> pts (ns - 1 - i)%nat = - pts i.
Hypothesis symw : forall i, (i < ns)%nat -> ws (ns - 1 - i)%nat = ws i.
Hypothesis surface : one_surface k N ns pts topo_i topo_j.
Let K := Z.of_nat k.
Let n := (N * ns)%nat.
Definition leaves := out k N ns pts radius ext_i ext_j topo_i topo_j.
Definition term (a : Z * side * nat) : R := ws (snd a mod ns) * leaves (fst (fst a)) 0 (snd (fst a)) (snd a).
Definition partner (a : Z * side * nat) : Z * side * nat :=
  let t := tile_of_rank K (fst (fst a)) in let d := snd (fst a) in
  (rank_of_tile K (nb K t d), back_side K t d, back_index n (nb_flip K t d) (snd a)).
Definition ranks : list Z := map Z.of_nat (seq 0 (6 * k * k)).
Lemma in_ranks r : In r ranks <-> (0 <= r < 6 * K * K)%Z.
Proof.
  unfold ranks. rewrite in_map_iff. split.
  - intros (m & <- & I). apply in_seq in I. unfold K. lia.
  - intro H. exists (Z.to_nat r). split; [lia|]. apply in_seq. unfold K in H. lia.
Qed.
Lemma all_leaves : total (fun r => total (fun d => total (fun x => ws (x mod ns) * leaves r 0 d x) (seq 0 n)) all_sides) ranks = 0.
Proof.
  rewrite (total_ext _ (fun r => total (fun c => (fun d x => ws (x mod ns) * leaves r 0 d x) (fst c) (snd c)) (list_prod all_sides (seq 0 n)))) by (intros r _; apply (total_prod (fun d x => ws (x mod ns) * leaves r 0 d x))).
  rewrite (total_prod (fun r c => ws (snd c mod ns) * leaves r 0 (fst c) (snd c))).
  assert (HK : (1 <= K)%Z) by (unfold K; lia).
  apply (pairs_cancel _ (fun c => let a := partner (fst c, fst (snd c), snd (snd c)) in (fst (fst a), (snd (fst a), snd a)))).
  - apply NoDup_prod; [|apply NoDup_prod; [|apply seq_NoDup]].
    + apply NoDup_map_on; [apply seq_NoDup|]. intros x y _ _. apply Nat2Z.inj.
    + unfold all_sides. repeat constructor; cbn; intuition discriminate.
  - intros [r [d x]] I. apply in_prod_iff in I as [Ir I]. apply in_prod_iff in I as [Id Ix]. apply in_ranks in Ir. apply in_seq in Ix. cbn [fst snd partner].
    pose proof (tile_of_rank_ok K r HK Ir) as Ht. set (t := tile_of_rank K r) in *.
    assert (Er : r = rank_of_tile K t) by (symmetry; apply rank_of_tile_of_rank; exact HK).
    pose proof (nb_ok K t d HK Ht) as Hs. destruct (nb_back K t d HK Ht) as [B1 B2].
    assert (Hx : (x < n)%nat) by lia.
    assert (B3 : back_side K (nb K t d) (back_side K t d) = d).
    { apply (nb_distinct K t); [exact HK|exact Ht|]. destruct (nb_back K (nb K t d) (back_side K t d) HK Hs) as [C _]. now rewrite B1 in C. }
    split; [|split].
    + apply in_prod_iff. split; [apply in_ranks, rank_of_tile_range; assumption|]. apply in_prod_iff. split.
      * unfold all_sides. destruct (back_side K t d); cbn; tauto.
      * apply in_seq. unfold back_index. destruct (nb_flip K t d); lia.
    + rewrite tile_of_rank_of by assumption. rewrite B1, B2, B3, <- Er. f_equal. f_equal. unfold back_index. destruct (nb_flip K t d); [|reflexivity]. lia.
    + unfold leaves. pose proof (out_cancels k N ns pts radius ext_i ext_j topo_i topo_j Hk HN Hns sym t d x surface Ht Hx) as C. fold K n in C. rewrite C, <- Er.
      replace (ws (back_index n (nb_flip K t d) x mod ns)) with (ws (x mod ns)); [ring|].
      unfold back_index. destruct (nb_flip K t d); [|reflexivity]. destruct (div_flip k N ns pts ext_i ext_j topo_i topo_j Hk HN Hns sym x Hx) as (_ & M' & _ & M). fold n in M'. rewrite M'. symmetry. apply symw, M.
Qed.
End Sphere.
Lemma sqrtG_nonzero radius d X Y : radius <> 0 -> 0 < d -> GeoModel.sqrtG radius d d X Y <> 0.
Proof.
  intros Hr Hd. unfold GeoModel.sqrtG, GeoModel.delta, GeoModel.delta2. assert (0 < 1 + X ^ 2 + Y ^ 2) by nra. assert (0 < sqrt (1 + X ^ 2 + Y ^ 2)) by (apply sqrt_lt_R0; assumption).
  assert (0 < radius ^ 2) by nra. apply Rgt_not_eq. apply Rmult_lt_0_compat; [|apply Rdiv_lt_0_compat; nra].
  apply Rdiv_lt_0_compat; [|apply Rmult_lt_0_compat; assumption]. apply Rmult_lt_0_compat; [apply Rmult_lt_0_compat|]; nra.
Qed.
Lemma dx_pos k N : (1 <= k)%nat -> (1 <= N)%nat -> 0 < dx k N.
Proof. intros. unfold dx. apply GeoTiles.delta_x_pos; lia. Qed.
