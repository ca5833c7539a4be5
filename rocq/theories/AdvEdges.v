(** What the tracer flux takes out of a tile enters its neighbour. *)
From Coq Require Import Reals ZArith Arith List Bool Lia Lra.
From Verif Require Import TopologyModel TopologySpec TopologyProofs ExchangeProofs GeoModel GeoProofs GeoArea GeoTiles FluxModel SwModel SwSpec SwEdges SwTotal.
From Verif Require Import RField SwSplitModel AdvModel AdvSides.
Import ListNotations.
Local Open Scope R_scope.

Lemma rusanov_mirror G hl ul hr ur : rusanov G hl ul hr ur = - rusanov G hr (- ur) hl (- ul).
Proof. unfold rusanov. rewrite !Rabs_Ropp. rewrite (Rmax_comm (Rabs ur)). cbv zeta. field. Qed.

Section Sphere.
Variables (k N ns : nat) (pts : list R) (radius : R) (Q : Z -> nat -> nat -> nat -> R).
Hypothesis Hk : (1 <= k)%nat.
Hypothesis HN : (1 <= N)%nat.
Hypothesis Hns : (1 <= ns)%nat.
Hypothesis sym : forall i, (i < ns)%nat -> b_point pts (ns - 1 - i)%nat = - b_point pts i.
Let K := Z.of_nat k.
Let n := (N * ns)%nat.
Let e0 : Z -> nat -> nat -> face := fun _ _ _ _ _ => R0.
Let t0 : Z -> nat -> face := fun _ _ _ _ => R0.
Definition tracer_out (r : Z) (d : side) (x : nat) : R :=
  match d with
  | East => adv_i k N ns pts radius Q r N x | West => - adv_i k N ns pts radius Q r 0 x
  | North => adv_j k N ns pts radius Q r N x | South => - adv_j k N ns pts radius Q r 0 x
  end.
Definition b_own (r : Z) (v : nat) (d : side) (x : nat) : R :=
  match d with South => b_ext_j ns pts None Q r v x 1 0 | North => b_ext_j ns pts None Q r v x N 1 | West => b_ext_i ns pts None Q r v x 1 0 | East => b_ext_i ns pts None Q r v x N 1 end.
Let hal := b_halo k N ns pts None Q.
Lemma KP : (1 <= K)%Z.
Proof. unfold K. exact (proj1 (Nat2Z.inj_le 1 k) Hk). Qed.
Section Pair.
Variables (t : tile) (d : side).
Hypothesis Ht : tile_ok K t.
Let s := nb K t d.
Let e := back_side K t d.
Let r := rank_of_tile K t.
Let rs := rank_of_tile K s.
Lemma nb_tile : tile_ok K s.
Proof. apply nb_ok; [apply KP|exact Ht]. Qed.
Lemma tracer_halo x : (x < n)%nat -> hal r 0%nat d x = b_own rs 0%nat e (back_index n (nb_flip K t d) x).
Proof.
  intro Hx. unfold hal, b_halo, b_halo_h, exchange_scalars, r. rewrite size_K. rewrite alltoall_spec by (apply KP || exact Ht). cbn [received].
  fold K s e. rewrite built_flip by (exact KP || exact nb_tile). unfold s at 1, e at 1. rewrite (proj2 (nb_back K t d KP Ht)).
  unfold b_sent. change (ssrnat.muln N ns) with n. rewrite nth_flip by exact Hx. fold K s e rs. unfold b_own. reflexivity.
Qed.
Lemma wind_halo x : (x < n)%nat -> exists y,
  (hal r 1%nat d x, hal r 2%nat d x) = (if at_edge K s e then lookup2 convert_contras (panel s) e convert_default else convert_default) (b_own rs 1%nat e (back_index n (nb_flip K t d) x)) (b_own rs 2%nat e (back_index n (nb_flip K t d) x)) y.
Proof.
  intro Hx. unfold hal, b_halo, b_halo_u, exchange_vectors, r. rewrite size_K. rewrite alltoall_spec by (apply KP || exact Ht). cbn [received].
  fold K s e. cbv zeta. rewrite built_flip, built_contra by (exact KP || exact nb_tile). assert (F : nb_flip K s e = nb_flip K t d) by (exact (proj2 (nb_back K t d KP Ht))). rewrite F. set (cv := if at_edge K s e then _ else _).
  unfold b_sent_u, b_sent. change (ssrnat.muln N ns) with n.
  assert (exists b, boundary_of (boundary_sn k N ns (b_point pts) (rank_of_tile K s)) (boundary_we k N ns (b_point pts) (rank_of_tile K s)) e = map b (seq 0 n)) as [b ->].
  { unfold boundary_of, boundary_sn, boundary_we. destruct e; eexists; reflexivity. }
  rewrite convert_seq. rewrite !nth_flip by exact Hx. cbn [fst snd]. exists (b (back_index n (nb_flip K t d) x)).
  unfold b_own. fold rs. symmetry. apply surjective_pairing.
Qed.
Lemma there_and_back : back_side K s e = d /\ nb K s e = t.
Proof.
  destruct (nb_back K t d KP Ht) as [B _]. fold s e in B. split; [|exact B].
  destruct (nb_back K s e KP nb_tile) as [B2 _]. rewrite B in B2.
  apply (nb_distinct K t); [apply KP|exact Ht|]. exact B2.
Qed.
Lemma wind_normal x : (x < n)%nat -> normal d (hal r 1%nat d x, hal r 2%nat d x) = - normal e (b_own rs 1%nat e (back_index n (nb_flip K t d) x), b_own rs 2%nat e (back_index n (nb_flip K t d) x)).
Proof.
  intro Hx. destruct (wind_halo x Hx) as [y Ey].
  pose proof (conv_normal K s e y (b_own rs 1%nat e (back_index n (nb_flip K t d) x)) (b_own rs 2%nat e (back_index n (nb_flip K t d) x)) nb_tile) as C. rewrite <- Ey, (proj1 there_and_back) in C. exact C.
Qed.
End Pair.
Lemma tracer_out_value t d x : tile_ok K t -> let r := rank_of_tile K t in
  tracer_out r d x = rusanov (metric_G k N radius (boundary_xy (grid k N ns (b_point pts)) t d x)) (b_own r 0%nat d x) (normal d (b_own r 1%nat d x, b_own r 2%nat d x)) (hal r 0%nat d x) (normal d (hal r 1%nat d x, hal r 2%nat d x)).
Proof.
  intros Ht r. destruct (rows k N ns (b_point pts) e0 e0 t0 t0 Hk HN Hns sym t Ht) as [Er Ec]. fold K r in Er, Ec.
  pose proof (itf_first k N ns (b_point pts) e0 e0 t0 t0 Hk HN Hns sym) as I0. pose proof (itf_last k N ns (b_point pts) e0 e0 t0 t0 Hk HN Hns sym) as I1.
  destruct Ht as (_ & Hr & Hc). fold K in I0, I1.
  destruct (var_ends_i k N ns pts Q r 0 x HN) as (A0 & A1 & A2 & A3). destruct (var_ends_i k N ns pts Q r 1 x HN) as (B0 & B1 & B2 & B3).
  destruct (var_ends_j k N ns pts Q r 0 x HN) as (C0 & C1 & C2 & C3). destruct (var_ends_j k N ns pts Q r 2 x HN) as (D0 & D1 & D2 & D3).
  unfold tracer_out, adv_i, adv_j, boundary_xy, metric_G, b_own, normal. destruct d; cbn [fst snd].
  - rewrite C0, C1, D0, D1, rusanov_mirror, Ropp_involutive. unfold b_G_j, b_line. rewrite Er, Ec, I0 by lia. reflexivity.
  - rewrite C2, C3, D2, D3. unfold b_G_j, b_line. rewrite Er, Ec, I1 by lia. reflexivity.
  - rewrite A0, A1, B0, B1, rusanov_mirror, Ropp_involutive. unfold b_G_i, b_line. rewrite Er, Ec, I0 by lia. reflexivity.
  - rewrite A2, A3, B2, B3. unfold b_G_i, b_line. rewrite Er, Ec, I1 by lia. reflexivity.
Qed.
Lemma tracer_cancels t d x : tile_ok K t -> (x < n)%nat ->
  tracer_out (rank_of_tile K (nb K t d)) (back_side K t d) (back_index n (nb_flip K t d) x) = - tracer_out (rank_of_tile K t) d x.
Proof.
  intros Ht Hx. set (y := back_index n (nb_flip K t d) x). assert (Hy : (y < n)%nat) by (unfold y, back_index; destruct (nb_flip K t d); lia).
  pose proof (nb_tile t d Ht) as Hs_.
  rewrite !tracer_out_value by assumption. cbv zeta.
  rewrite (rusanov_mirror _ (b_own (rank_of_tile K t) 0 d x)). rewrite Ropp_involutive.
  pose proof (across_along_nb k N ns (b_point pts) e0 e0 t0 t0 Hk HN Hns sym t d x Ht Hx) as A. fold K n in A. fold y in A. rewrite (metric_G_even k N radius _ _ _ _ A).
  destruct (there_and_back t d Ht) as [E1 E2].
  assert (E3 : back_index n (nb_flip K (nb K t d) (back_side K t d)) y = x).
  { rewrite (proj2 (nb_back K t d KP Ht)). unfold y, back_index. destruct (nb_flip K t d); [|reflexivity]. unfold n in *. lia. }
  pose proof (wind_normal t d Ht x Hx) as U. pose proof (wind_normal (nb K t d) (back_side K t d) Hs_ y Hy) as U'.
  pose proof (tracer_halo t d Ht x Hx) as V. pose proof (tracer_halo (nb K t d) (back_side K t d) Hs_ y Hy) as V'.
  fold y in U, V. rewrite E3 in U', V'. rewrite E1, E2 in U', V'.
  rewrite U, U', V, V', Ropp_involutive. reflexivity.
Qed.
End Sphere.

(** ** terms of the sides cancel in pairs *)
Section Sides.
Variables (k N ns : nat) (pts ws : nat -> R) (out : Z -> side -> nat -> R).
Hypothesis Hk : (1 <= k)%nat.
Hypothesis HN : (1 <= N)%nat.
Hypothesis Hns : (1 <= ns)%nat.
Hypothesis sym : forall i, (i < ns)%nat -> pts (ns - 1 - i)%nat = - pts i.
Hypothesis symw : forall i, (i < ns)%nat -> ws (ns - 1 - i)%nat = ws i.
Let K := Z.of_nat k.
Let n := (N * ns)%nat.
Hypothesis cancels : forall t d x, tile_ok K t -> (x < n)%nat -> out (rank_of_tile K (nb K t d)) (back_side K t d) (back_index n (nb_flip K t d) x) = - out (rank_of_tile K t) d x.
Lemma rank_in r : In r (ranks k) <-> (0 <= r < 6 * K * K)%Z.
Proof.
  unfold ranks. rewrite in_map_iff. split.
  - intros (m & <- & I). apply in_seq in I. unfold K. lia.
  - intro H. exists (Z.to_nat r). split; [lia|]. apply in_seq. unfold K in H. lia.
Qed.
Lemma all_out : total (fun r => total (fun d => total (fun x => ws (x mod ns) * out r d x) (seq 0 n)) all_sides) (ranks k) = 0.
Proof.
  rewrite (total_ext _ (fun r => total (fun c => (fun d x => ws (x mod ns) * out r d x) (fst c) (snd c)) (list_prod all_sides (seq 0 n)))) by (intros r _; apply (total_prod (fun d x => ws (x mod ns) * out r d x))).
  rewrite (total_prod (fun r c => ws (snd c mod ns) * out r (fst c) (snd c))).
  assert (HK : (1 <= K)%Z) by (unfold K; lia).
  apply (pairs_cancel _ (fun c => let a := partner k N ns (fst c, fst (snd c), snd (snd c)) in (fst (fst a), (snd (fst a), snd a)))).
  - apply NoDup_prod; [|apply NoDup_prod; [|apply seq_NoDup]].
    + apply NoDup_map_on; [apply seq_NoDup|]. intros x y _ _. apply Nat2Z.inj.
    + unfold all_sides. repeat constructor; cbn; intuition discriminate.
  - intros [r [d x]] I. apply in_prod_iff in I as [Ir I]. apply in_prod_iff in I as [Id Ix]. apply rank_in in Ir. apply in_seq in Ix. cbn [fst snd partner].
    fold K in Ir |- *. fold n. pose proof (tile_of_rank_ok K r HK Ir) as Ht. set (t := tile_of_rank K r) in *.
    assert (Er : r = rank_of_tile K t) by (symmetry; apply rank_of_tile_of_rank; exact HK).
    pose proof (nb_ok K t d HK Ht) as Hs. destruct (nb_back K t d HK Ht) as [B1 B2].
    assert (Hx : (x < n)%nat) by lia.
    assert (B3 : back_side K (nb K t d) (back_side K t d) = d).
    { apply (nb_distinct K t); [exact HK|exact Ht|]. destruct (nb_back K (nb K t d) (back_side K t d) HK Hs) as [C _]. now rewrite B1 in C. }
    split; [|split].
    + apply in_prod_iff. split; [apply rank_in, rank_of_tile_range; assumption|]. apply in_prod_iff. split.
      * unfold all_sides. destruct (back_side K t d); cbn; tauto.
      * apply in_seq. unfold back_index. destruct (nb_flip K t d); lia.
    + rewrite tile_of_rank_of by assumption. rewrite B1, B2, B3, <- Er. f_equal. f_equal. unfold back_index. destruct (nb_flip K t d); [|reflexivity]. lia.
    + pose proof (cancels t d x Ht Hx) as C. rewrite C, <- Er.
      replace (ws (back_index n (nb_flip K t d) x mod ns)) with (ws (x mod ns)); [ring|].
      unfold back_index. destruct (nb_flip K t d); [|reflexivity].
      destruct (div_flip k N ns pts (fun _ _ _ _ _ => R0) (fun _ _ _ _ _ => R0) (fun _ _ _ _ => R0) (fun _ _ _ _ => R0) Hk HN Hns sym x Hx) as (_ & M' & _ & M). fold n in M'. rewrite M'. symmetry. apply symw, M.
Qed.
End Sides.
