(** Proofs about the process topology model. *)
From Coq Require Import ZArith List Bool Reals Lia Lra ZifyBool ZifyNat.
From Verif Require Import TopologyModel TopologySpec.
Import ListNotations.
Open Scope Z_scope.

(** * Process counts *)

Lemma quot6 size : 0 <= size -> num_pe_per_panel size = size / 6.
Proof. intro H. unfold num_pe_per_panel. apply Z.quot_div_nonneg; lia. Qed.

Lemma pe_of k : 1 <= k -> num_pe_per_panel (6 * k * k) = k * k.
Proof.
  intro H. rewrite quot6 by nia.
  replace (6 * k * k) with ((k * k) * 6) by ring. apply Z.div_mul; lia.
Qed.

Lemma lines_of k : 1 <= k -> num_lines_per_panel (6 * k * k) = k.
Proof. intro H. unfold num_lines_per_panel. rewrite pe_of by lia. apply Z.sqrt_square; lia. Qed.

Lemma good_size_of k : 1 <= k -> bad_size (6 * k * k) = false.
Proof.
  intro H. unfold bad_size. rewrite pe_of, lines_of by lia.
  rewrite Z.pow_2_r. assert (6 <= 6 * k * k) by nia.
  replace (6 * k * k <? 6) with false by lia.
  rewrite Z.eqb_refl. replace (k * k * 6 =? 6 * k * k) with true by lia. reflexivity.
Qed.

Lemma bad_size_acceptable size : bad_size size = false <-> acceptable size.
Proof.
  split.
  - unfold bad_size. intro H.
    apply orb_false_elim in H as [H H3]. apply orb_false_elim in H as [H1 H2].
    apply negb_false_iff in H2, H3. apply Z.eqb_eq in H2, H3. apply Z.ltb_ge in H1.
    rewrite Z.pow_2_r in H2. exists (num_lines_per_panel size).
    assert (0 <= num_lines_per_panel size) by apply Z.sqrt_nonneg.
    split; [|nia].
    destruct (Z.eq_dec (num_lines_per_panel size) 0) as [E|]; [|lia].
    rewrite E in H2. lia.
  - intros (k & Hk & ->). now apply good_size_of.
Qed.

Lemma lines_bounds size : 0 <= size ->
  let l := num_lines_per_panel size in 0 <= l /\ 6 * (l * l) <= size < 6 * ((l + 1) * (l + 1)).
Proof.
  intros H l. assert (Hq := quot6 size H).
  assert (Hp : 0 <= num_pe_per_panel size) by (rewrite Hq; apply Z.div_pos; lia).
  pose proof (Z.sqrt_spec _ Hp) as Hs. fold (num_lines_per_panel size) in Hs. fold l in Hs.
  assert (0 <= l) by apply Z.sqrt_nonneg.
  unfold Z.succ in Hs.
  pose proof (Z.div_mod size 6 ltac:(lia)). pose proof (Z.mod_pos_bound size 6 ltac:(lia)).
  rewrite Hq in Hs. nia.
Qed.

(** * Ranks and tiles *)

Lemma tile_of_rank_of k t : 1 <= k -> tile_ok k t -> tile_of_rank k (rank_of_tile k t) = t.
Proof.
  intros Hk (Hp & Hr & Hc). destruct t as [p r c]; cbn [panel row col] in *.
  unfold tile_of_rank, rank_of_tile; simpl.
  assert (Hin : 0 <= r * k + c < k * k) by nia.
  assert (E1 : (p * (k * k) + r * k + c) / (k * k) = p).
  { symmetry. apply Z.div_unique with (r * k + c); lia. }
  assert (E2 : (p * (k * k) + r * k + c) mod (k * k) = r * k + c).
  { symmetry. apply Z.mod_unique with p; lia. }
  assert (E3 : (p * (k * k) + r * k + c) mod k = c).
  { symmetry. apply Z.mod_unique with (p * k + r); [lia|ring]. }
  rewrite E1, E2, E3.
  f_equal. symmetry. apply Z.div_unique with c; lia.
Qed.

Lemma rank_of_tile_range k t : 1 <= k -> tile_ok k t -> 0 <= rank_of_tile k t < 6 * k * k.
Proof.
  intros Hk (Hp & Hr & Hc). destruct t as [p r c]; unfold rank_of_tile; cbn [panel row col] in *.
  assert (0 <= r * k + c < k * k) by nia.
  assert (0 <= p * (k * k) <= 5 * (k * k)) by nia. lia.
Qed.

Lemma tile_of_rank_ok k r : 1 <= k -> 0 <= r < 6 * k * k -> tile_ok k (tile_of_rank k r).
Proof.
  intros Hk Hr. unfold tile_ok, tile_of_rank; simpl.
  assert (Hkk : 0 < k * k) by nia.
  pose proof (Z.mod_pos_bound r (k * k) Hkk).
  repeat split; try (apply Z.mod_pos_bound; lia).
  - apply Z.div_pos; lia.
  - apply Z.div_lt_upper_bound; lia.
  - apply Z.div_pos; lia.
  - apply Z.div_lt_upper_bound; lia.
Qed.

Lemma rank_of_tile_of_rank k r : 1 <= k -> rank_of_tile k (tile_of_rank k r) = r.
Proof.
  intros Hk. unfold rank_of_tile, tile_of_rank; simpl.
  assert (Hkk : k * k <> 0) by nia.
  pose proof (Z.div_mod r (k * k) Hkk) as E1.
  pose proof (Z.div_mod (r mod (k * k)) k ltac:(lia)) as E2.
  assert (E3 : r mod (k * k) mod k = r mod k).
  { rewrite Z.rem_mul_r by lia. rewrite Z.mul_comm, Z.mod_add by lia. apply Z.mod_mod; lia. }
  rewrite E3 in E2. lia.
Qed.

Lemma rank_of_tile_inj k t t' : 1 <= k -> tile_ok k t -> tile_ok k t' ->
  rank_of_tile k t = rank_of_tile k t' -> t = t'.
Proof.
  intros Hk H H' E. rewrite <- (tile_of_rank_of k t), <- (tile_of_rank_of k t') by assumption. now rewrite E.
Qed.

(** * Neighbour of a tile, computed on tiles *)

Definition wrap (k x : Z) : Z := if x <? 0 then x + k else x.

Definition at_edge (k : Z) (t : tile) (d : side) : bool :=
  match d with
  | North => row t =? k - 1
  | South => row t =? 0
  | West => col t =? 0
  | East => col t =? k - 1
  end.

Definition nb (k : Z) (t : tile) (d : side) : tile :=
  if at_edge k t d then
    let rc := lookup2 (edge_coords (row t) (col t)) (panel t) d (0, 0) in
    Tile (lookup2 all_neighbors (panel t) d 0) (wrap k (fst rc)) (wrap k (snd rc))
  else
    match d with
    | South => Tile (panel t) (wrap k (row t - 1)) (wrap k (col t))
    | North => Tile (panel t) (wrap k (row t + 1)) (wrap k (col t))
    | West => Tile (panel t) (wrap k (row t)) (wrap k (col t - 1))
    | East => Tile (panel t) (wrap k (row t)) (wrap k (col t + 1))
    end.

Definition nb_flip (k : Z) (t : tile) (d : side) : bool :=
  if at_edge k t d then lookup2 flips (panel t) d false else false.

Lemma rfl_spec k p r c : 1 <= k ->
  rank_from_location (6 * k * k) p r c = rank_of_tile k (Tile p (wrap k r) (wrap k c)).
Proof.
  intro Hk. unfold rank_from_location, rank_of_tile, wrap; cbn [panel row col].
  now rewrite lines_of, pe_of by lia.
Qed.

Section Built.
Variable k : Z.
Hypothesis Hk : 1 <= k.

Lemma built_fields t : tile_ok k t ->
  let T := build_topology (6 * k * k) (rank_of_tile k t) in
  t_panel T = panel t /\ t_row T = row t /\ t_col T = col t /\ t_lines T = k.
Proof.
  intros Hok T. pose proof (tile_of_rank_of k t Hk Hok) as E. unfold tile_of_rank in E.
  destruct t as [p r c]. injection E as E1 E2 E3.
  subst T. unfold build_topology. cbn [t_panel t_row t_col t_lines panel row col].
  rewrite pe_of, lines_of by lia.
  set (n := rank_of_tile k (Tile p r c)) in *.
  assert (M : n - n / (k * k) * (k * k) = n mod (k * k)) by (rewrite Z.mod_eq by nia; ring).
  rewrite M. cbn [panel row col]. repeat split; auto.
  assert (E4 : n mod (k * k) mod k = n mod k).
  { rewrite Z.rem_mul_r by lia. rewrite Z.mul_comm, Z.mod_add by lia. apply Z.mod_mod; lia. }
  now rewrite E4.
Qed.

Lemma built_dest t d : tile_ok k t ->
  dest_of (6 * k * k) (rank_of_tile k t) d = rank_of_tile k (nb k t d).
Proof.
  intro Hok. destruct (built_fields t Hok) as (Ep & Er & Ec & El).
  unfold dest_of. unfold build_topology in *. cbn [t_panel t_row t_col t_lines t_dest] in *.
  rewrite Ep in *. rewrite Er, Ec in *. rewrite El.
  unfold nb. rewrite !rfl_spec by exact Hk.
  destruct d; simpl; unfold at_edge; destruct (_ =? _); reflexivity.
Qed.

Lemma built_flip t d : tile_ok k t ->
  t_flip (build_topology (6 * k * k) (rank_of_tile k t)) d = nb_flip k t d.
Proof.
  intro Hok. destruct (built_fields t Hok) as (Ep & Er & Ec & El).
  unfold build_topology in *. cbn [t_panel t_row t_col t_lines t_flip] in *.
  rewrite Ep in *. rewrite Er, Ec in *. rewrite El.
  unfold nb_flip, at_edge. destruct d; reflexivity.
Qed.

Lemma built_contra t d : tile_ok k t ->
  t_contra (build_topology (6 * k * k) (rank_of_tile k t)) d =
  if at_edge k t d then lookup2 convert_contras (panel t) d convert_default else convert_default.
Proof.
  intro Hok. destruct (built_fields t Hok) as (Ep & Er & Ec & El).
  unfold build_topology in *. cbn [t_panel t_row t_col t_lines t_contra] in *.
  rewrite Ep in *. rewrite Er, Ec in *. rewrite El.
  unfold at_edge. destruct d; reflexivity.
Qed.

Lemma built_cov t d : tile_ok k t ->
  t_cov (build_topology (6 * k * k) (rank_of_tile k t)) d =
  if at_edge k t d then lookup2 convert_covs (panel t) d convert_default else convert_default.
Proof.
  intro Hok. destruct (built_fields t Hok) as (Ep & Er & Ec & El).
  unfold build_topology in *. cbn [t_panel t_row t_col t_lines t_cov] in *.
  rewrite Ep in *. rewrite Er, Ec in *. rewrite El.
  unfold at_edge. destruct d; reflexivity.
Qed.
End Built.

Lemma panel_cases (p : Z) : 0 <= p < 6 -> p = 0 \/ p = 1 \/ p = 2 \/ p = 3 \/ p = 4 \/ p = 5.
Proof. lia. Qed.

Ltac split_panel p H :=
  let H6 := fresh in
  pose proof (panel_cases p H) as H6; destruct H6 as [H6|[H6|[H6|[H6|[H6|H6]]]]]; subst p.

Ltac wrap_cases :=
  unfold wrap;
  repeat match goal with |- context [?a <? ?b] => let E := fresh "E" in destruct (a <? b) eqn:E end.

Definition opposite (d : side) : side :=
  match d with South => North | North => South | West => East | East => West end.

Ltac tbl :=
  cbv [lookup2 nth side_index Z.to_nat Pos.to_nat Pos.iter_op Init.Nat.add all_neighbors edge_coords flips fst snd
       panel row col opposite cube_pointZ].
Ltac decide_tests :=
  repeat match goal with
         | |- context [?a <? ?b] =>
             first [ replace (a <? b) with true by lia | replace (a <? b) with false by lia ]; cbv iota
         | |- context [?a =? ?b] =>
             first [ replace (a =? b) with true by lia | replace (a =? b) with false by lia ]; cbv iota
         end; tbl.

Lemma nb_ok k t d : 1 <= k -> tile_ok k t -> tile_ok k (nb k t d).
Proof.
  intros Hk (Hp & Hr & Hc). destruct t as [p r c]; cbn [panel row col] in *.
  unfold nb, at_edge, tile_ok.
  destruct d; tbl; destruct (_ =? _) eqn:E; tbl; split_panel p Hp; tbl; wrap_cases; lia.
Qed.

(** The side of the neighbour which faces side [d] of tile [t] *)
Definition back_side (k : Z) (t : tile) (d : side) : side :=
  if at_edge k t d then
    match panel t, d with
    | 0, South => North | 0, North => South
    | 1, South => East | 1, North => East
    | 2, South => South | 2, North => North
    | 3, South => West | 3, North => West
    | 4, South => North | 4, North => North | 4, West => North | 4, East => North
    | 5, South => South | 5, North => South | 5, West => South | 5, East => South
    | _, West => East | _, East => West
    | _, _ => opposite d
    end
  else opposite d.

Ltac tbl_in H :=
  cbv [lookup2 nth side_index Z.to_nat Pos.to_nat Pos.iter_op Init.Nat.add all_neighbors edge_coords flips fst snd
       panel row col opposite cube_pointZ] in H.
Ltac decide_in H :=
  repeat match type of H with
         | context [?a <? ?b] =>
             first [ replace (a <? b) with true in H by lia | replace (a <? b) with false in H by lia ]; cbv iota in H
         | context [?a =? ?b] =>
             first [ replace (a =? b) with true in H by lia | replace (a =? b) with false in H by lia ]; cbv iota in H
         end; tbl_in H.

(** Case analysis on panel, side and edge; leaves explicit values for the neighbour, the facing side and the flip. *)
Ltac nb_cases k p r c d Hp :=
  let T := fresh "T" in let B := fresh "B" in let F := fresh "F" in
  let HT := fresh "HT" in let HB := fresh "HB" in let HF := fresh "HF" in let E := fresh "E" in
  remember (nb k (Tile p r c) d) as T eqn:HT;
  remember (back_side k (Tile p r c) d) as B eqn:HB;
  remember (nb_flip k (Tile p r c) d) as F eqn:HF;
  unfold nb in HT; unfold back_side in HB; unfold nb_flip in HF;
  destruct (at_edge k (Tile p r c) d) eqn:E; destruct d; unfold at_edge in E; cbn [panel row col] in E;
  split_panel p Hp; unfold wrap in HT; tbl_in HT; tbl_in HB; tbl_in HF; decide_in HT; subst T B F.

Lemma triple_eq (a b c a' b' c' : Z) : a = a' -> b = b' -> c = c' -> (a, b, c) = (a', b', c').
Proof. now intros -> -> ->. Qed.
Lemma triple_inv (a b c a' b' c' : Z) : (a, b, c) = (a', b', c') -> a = a' /\ b = b' /\ c = c'.
Proof. now intros [= -> -> ->]. Qed.

Lemma nb_back k t d : 1 <= k -> tile_ok k t ->
  nb k (nb k t d) (back_side k t d) = t /\ nb_flip k (nb k t d) (back_side k t d) = nb_flip k t d.
Proof.
  intros Hk (Hp & Hr & Hc). destruct t as [p r c]; cbn [panel row col] in *.
  nb_cases k p r c d Hp; unfold nb, nb_flip, at_edge, wrap; tbl; decide_tests;
    (split; [f_equal; lia | reflexivity]).
Qed.

Lemma nb_distinct k t d d' : 1 <= k -> tile_ok k t -> nb k t d = nb k t d' -> d = d'.
Proof.
  intros Hk (Hp & Hr & Hc) E. destruct t as [p r c]; cbn [panel row col] in *.
  destruct d, d'; try reflexivity; exfalso; revert E;
    unfold nb, at_edge; tbl;
    repeat match goal with |- context [?a =? ?b] => let E := fresh in destruct (a =? b) eqn:E end;
    split_panel p Hp; tbl; intro E; injection E; clear E;
    try discriminate; try lia; wrap_cases; lia.
Qed.

Lemma nb_not_self k t d : 1 <= k -> tile_ok k t -> nb k t d <> t.
Proof.
  intros Hk (Hp & Hr & Hc) E. destruct t as [p r c]; cbn [panel row col] in *. revert E.
  unfold nb, at_edge; destruct d; tbl; destruct (_ =? _) eqn:E;
    split_panel p Hp; tbl; intro H; injection H; try lia; wrap_cases; lia.
Qed.

(** * Geometry *)

Lemma centre_nb k t d : 1 <= k -> tile_ok k t ->
  side_centre k (nb k t d) (back_side k t d) = side_centre k t d.
Proof.
  intros Hk (Hp & Hr & Hc). destruct t as [p r c]; cbn [panel row col] in *.
  nb_cases k p r c d Hp; unfold side_centre; tbl; apply triple_eq; lia.
Qed.

Lemma ends_nb k t d : 1 <= k -> tile_ok k t ->
  let t' := nb k t d in let d' := back_side k t d in
  if nb_flip k t d then side_start k t' d' = side_end k t d /\ side_end k t' d' = side_start k t d
  else side_start k t' d' = side_start k t d /\ side_end k t' d' = side_end k t d.
Proof.
  intros Hk (Hp & Hr & Hc). destruct t as [p r c]; cbn [panel row col] in *. cbv zeta.
  nb_cases k p r c d Hp; unfold side_start, side_end; tbl; split; apply triple_eq; lia.
Qed.

(** Two different tile sides have the same centre only if they are the two sides of one edge. *)
Lemma centre_inj k t d t' d' : 1 <= k -> tile_ok k t -> tile_ok k t' ->
  side_centre k t d = side_centre k t' d' -> (t' = t /\ d' = d) \/ (t' = nb k t d /\ d' = back_side k t d).
Proof.
  intros Hk Hok Hok' E.
  destruct Hok as (Hp & Hr & Hc). destruct Hok' as (Hp' & Hr' & Hc').
  destruct t as [p r c]; destruct t' as [p' r' c']; cbn [panel row col] in *.
  unfold side_centre in E; cbn [panel row col] in E.
  destruct d, d'; split_panel p Hp; split_panel p' Hp'; cbn [cube_pointZ] in E;
  apply triple_inv in E; destruct E as (E1 & E2 & E3);
  first [ exfalso; lia
        | left; split; [f_equal; lia | reflexivity]
        | right; unfold nb, back_side, at_edge, wrap; tbl; decide_tests; (split; [f_equal; lia | reflexivity]) ].
Qed.

(** * Exchanges *)

Lemma side_eq_dec (a b : side) : {a = b} + {a <> b}.
Proof. decide equality. Qed.

Lemma alltoall_spec {A} k (send : Z -> side -> A) t d : 1 <= k -> tile_ok k t ->
  neighbor_alltoall (dest_of (6 * k * k)) send (rank_of_tile k t) d =
  Some (send (rank_of_tile k (nb k t d)) (back_side k t d)).
Proof.
  intros Hk Hok. unfold neighbor_alltoall. rewrite built_dest by assumption.
  pose proof (nb_ok k t d Hk Hok) as Hok'.
  destruct (nb_back k t d Hk Hok) as [Hback _].
  assert (Hiff : forall j, (dest_of (6 * k * k) (rank_of_tile k (nb k t d)) j =? rank_of_tile k t) = true
                           <-> j = back_side k t d).
  { intro j. rewrite built_dest by assumption. rewrite Z.eqb_eq. split.
    - intro E. apply rank_of_tile_inj in E; try assumption; [|now apply nb_ok].
      apply (nb_distinct k (nb k t d)); try assumption. now rewrite E, Hback.
    - intros ->. now rewrite Hback. }
  destruct (find _ _) as [j|] eqn:F.
  - apply find_some in F as [_ F]. apply Hiff in F. now subst j.
  - exfalso. assert (H : In (back_side k t d) all_sides) by (destruct (back_side k t d); simpl; tauto).
    pose proof (find_none _ _ F _ H) as E. cbv beta in E.
    assert (E' := proj2 (Hiff _) eq_refl). congruence.
Qed.

Lemma rev_map_seq {A} (h : nat -> A) n : rev (map h (seq 0 n)) = map (fun i => h (n - 1 - i)%nat) (seq 0 n).
Proof.
  induction n as [|n IH]; [reflexivity|].
  rewrite seq_S at 1. rewrite map_app, rev_app_distr. simpl rev. simpl seq. simpl map.
  replace (n - 0 - 0)%nat with n by lia. change ([h n] ++ rev (map h (seq 0 n))) with (h n :: rev (map h (seq 0 n))).
  f_equal. rewrite IH. rewrite <- seq_shift, map_map. apply map_ext_in. intros i _. f_equal; lia.
Qed.

Local Open Scope R_scope.

Lemma real_triple_eq (a b c a' b' c' : R) : a = a' -> b = b' -> c = c' -> (a, b, c) = (a', b', c').
Proof. now intros -> -> ->. Qed.

Definition back_index (n : nat) (flip : bool) (i : nat) : nat := if flip then (n - 1 - i)%nat else i.

Lemma point_nb k n g t d i : (1 <= k)%Z -> tile_ok k t -> grid_symmetric k n g -> (i < n)%nat ->
  boundary_point g (nb k t d) (back_side k t d) (back_index n (nb_flip k t d) i) = boundary_point g t d i.
Proof.
  intros Hk (Hp & Hr & Hc) (G0 & G1 & Gs) Hi. destruct t as [p r c]; cbn [panel row col] in *.
  pose proof (Gs c i Hc Hi) as Gc. pose proof (Gs r i Hr Hi) as Gr.
  nb_cases k p r c d Hp; unfold boundary_point, boundary_xy, back_index, cube_point; tbl;
    repeat match goal with
           | |- context [pt g (- ?x - 1 + k)%Z _] => replace (- x - 1 + k)%Z with (k - 1 - x)%Z by lia
           | |- context [edge g (-1 + k + 1)%Z] => replace (-1 + k + 1)%Z with k by lia
           | |- context [edge g (?x - 1 + 1)%Z] => replace (x - 1 + 1)%Z with x by lia
           end;
    rewrite ?Gc, ?Gr;
    try replace (edge g r) with (-1) by (rewrite <- G0; f_equal; lia);
    try replace (edge g c) with (-1) by (rewrite <- G0; f_equal; lia);
    try replace (edge g (r + 1)) with 1 by (rewrite <- G1; f_equal; lia);
    try replace (edge g (c + 1)) with 1 by (rewrite <- G1; f_equal; lia);
    rewrite ?G0, ?G1; apply real_triple_eq; try ring; f_equal; lia.
Qed.
