(** A fluid at rest: no mass crosses the interfaces. *)
From Coq Require Import Reals ZArith Arith List Bool Lia Lra ZifyBool.
From Verif Require Import TopologyModel TopologySpec TopologyProofs GeoModel FluxModel FluxProofs SwModel SwEdges.
Import ListNotations.
Local Open Scope R_scope.

Lemma mass_rest sg H hl hr : mass sg H hl 0 hr 0 = 0.
Proof.
  unfold mass. replace (mach H hl 0) with 0 by (unfold mach; destruct (Req_EM_T _ 0); [reflexivity|unfold Rdiv; ring]). replace (mach H hr 0) with 0 by (unfold mach; destruct (Req_EM_T _ 0); [reflexivity|unfold Rdiv; ring]).
  cbv zeta. replace (1 / 4 * ((0 + 1) ^ 2 - (0 - 1) ^ 2)) with 0 by field. rewrite Rmax_left, Rmin_left by lra. ring.
Qed.
Lemma convert_zero p d y : (0 <= p < 6)%Z -> lookup2 convert_contras p d convert_default 0 0 y = (0, 0).
Proof.
  intros Hp. split_panel p Hp; destruct d; cbv [lookup2 nth side_index Z.to_nat Pos.to_nat Pos.iter_op Init.Nat.add convert_contras convert_default]; f_equal; unfold Rdiv; ring.
Qed.
Section Rest.
Variables (k N ns : nat) (pts : nat -> R) (radius : R) (ext_i ext_j : Z -> nat -> nat -> face) (topo_i topo_j : Z -> nat -> face).
Hypothesis Hk : (1 <= k)%nat.
Hypothesis HN : (1 <= N)%nat.
Hypothesis Hns : (1 <= ns)%nat.
Hypothesis sym : forall i, (i < ns)%nat -> pts (ns - 1 - i)%nat = - pts i.
Let K := Z.of_nat k.
Hypothesis rest : forall r v x e p, v = 1%nat \/ v = 2%nat -> ext_i r v x e p = 0 /\ ext_j r v x e p = 0.
Variable t : tile.
Hypothesis Ht : tile_ok K t.
Let r := rank_of_tile K t.
Lemma halo_rest d x : (x < N * ns)%nat -> halo k N ns pts ext_i ext_j r 1 d x = 0 /\ halo k N ns pts ext_i ext_j r 2 d x = 0.
Proof.
  intro Hx. destruct (halo_u_value k N ns pts ext_i ext_j topo_i topo_j Hk HN Hns sym t d Ht x Hx) as [y E].
  assert (O : forall v e x, v = 1%nat \/ v = 2%nat -> own N ns ext_i ext_j (rank_of_tile K (nb K t d)) v e x = 0).
  { intros v e z Hv. unfold own, at_side. destruct e; apply rest; exact Hv. }
  fold K in E. rewrite !O in E by tauto. pose proof (nb_ok K t d ltac:(unfold K; lia) Ht) as (Hp & _).
  assert (Z : (if at_edge K (nb K t d) (back_side K t d) then lookup2 convert_contras (panel (nb K t d)) (back_side K t d) convert_default else convert_default) 0 0 y = (0, 0)).
  { destruct (at_edge _ _ _); [apply convert_zero, Hp|reflexivity]. }
  rewrite Z in E. unfold hal in E. fold K r in E. apply pair_equal_spec in E. exact E.
Qed.
Lemma mass_i row_ e p : (row_ < N)%nat -> (1 <= e <= N)%nat -> (p < 2 * ns)%nat -> flux_i k N ns pts radius ext_i ext_j topo_i r 0 row_ e p = 0.
Proof.
  intros Hrow He Hp.
  assert (V : forall e' p', (p' < ns)%nat -> (e' <= N)%nat -> var_itf_i k N ns pts ext_i ext_j topo_i r 1 row_ e' (ns + p')%nat = 0 /\ var_itf_i k N ns pts ext_i ext_j topo_i r 1 row_ (S e') p' = 0).
  { intros e' p' Hp' He'. unfold var_itf_i. cbn [Nat.eqb]. rewrite !Rminus_0_r. unfold with_halo. split.
    - destruct ((1 <=? e') && (e' <=? N))%nat eqn:C; [apply rest; auto|]. replace (e' =? 0)%nat with true by lia. replace (ns <=? ns + p')%nat with true by lia. apply halo_rest. nia.
    - destruct ((1 <=? S e') && (S e' <=? N))%nat eqn:C; [apply rest; auto|]. replace (S e' =? 0)%nat with false by lia. replace (p' <? ns)%nat with true by lia. apply halo_rest. nia. }
  assert (F : forall e' p', (p' < ns)%nat -> (e' <= N)%nat -> flux_i k N ns pts radius ext_i ext_j topo_i r 0 row_ e' (ns + p')%nat = 0).
  { intros e' p' Hp' He'. change (fi k N ns pts radius ext_i ext_j topo_i r 0 row_ e' (ns + p')%nat = 0). rewrite (fi_value k N ns pts radius ext_i ext_j topo_i topo_j Hk HN Hns sym r row_ e' p' Hp' He').
    unfold vi. destruct (V e' p' Hp' He') as [-> ->]. apply mass_rest. }
  destruct (lt_dec p ns) as [L|L].
  - destruct e as [|e]; [lia|]. unfold flux_i. rewrite <- (sw_single_x1 (N + 2) ns (fun c => var_itf_i k N ns pts ext_i ext_j topo_i r c row_) _ _ _ 0%nat e p) by lia. apply F; lia.
  - replace p with (ns + (p - ns))%nat by lia. apply F; lia.
Qed.
Lemma mass_j col_ e p : (col_ < N)%nat -> (1 <= e <= N)%nat -> (p < 2 * ns)%nat -> flux_j k N ns pts radius ext_i ext_j topo_j r 0 col_ e p = 0.
Proof.
  intros Hrow He Hp.
  assert (V : forall e' p', (p' < ns)%nat -> (e' <= N)%nat -> var_itf_j k N ns pts ext_i ext_j topo_j r 2 col_ e' (ns + p')%nat = 0 /\ var_itf_j k N ns pts ext_i ext_j topo_j r 2 col_ (S e') p' = 0).
  { intros e' p' Hp' He'. unfold var_itf_j. cbn [Nat.eqb]. rewrite !Rminus_0_r. unfold with_halo. split.
    - destruct ((1 <=? e') && (e' <=? N))%nat eqn:C; [apply rest; auto|]. replace (e' =? 0)%nat with true by lia. replace (ns <=? ns + p')%nat with true by lia. apply halo_rest. nia.
    - destruct ((1 <=? S e') && (S e' <=? N))%nat eqn:C; [apply rest; auto|]. replace (S e' =? 0)%nat with false by lia. replace (p' <? ns)%nat with true by lia. apply halo_rest. nia. }
  assert (F : forall e' p', (p' < ns)%nat -> (e' <= N)%nat -> flux_j k N ns pts radius ext_i ext_j topo_j r 0 col_ e' (ns + p')%nat = 0).
  { intros e' p' Hp' He'. change (fj k N ns pts radius ext_i ext_j topo_j r 0 col_ e' (ns + p')%nat = 0). rewrite (fj_value k N ns pts radius ext_i ext_j topo_i topo_j Hk HN Hns sym r col_ e' p' Hp' He').
    unfold vj. destruct (V e' p' Hp' He') as [-> ->]. apply mass_rest. }
  destruct (lt_dec p ns) as [L|L].
  - destruct e as [|e]; [lia|]. unfold flux_j. rewrite <- (sw_single_x2 (N + 2) ns (fun c => var_itf_j k N ns pts ext_i ext_j topo_j r c col_) _ _ _ 0%nat e p) by lia. apply F; lia.
  - replace p with (ns + (p - ns))%nat by lia. apply F; lia.
Qed.
End Rest.
