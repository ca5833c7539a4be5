(** Proofs about the halo exchanges. *)
From Coq Require Import ZArith List Bool Reals Lia Lra ZifyBool ZifyNat.
From Verif Require Import TopologyModel TopologySpec TopologyProofs.
Import ListNotations.
Local Open Scope R_scope.

Lemma flip_samples {A} (f : R * R * R -> A) k n g t d : (1 <= k)%Z -> tile_ok k t -> grid_symmetric k n g ->
  flip_if (nb_flip k t d) flip_line (samples f g n (nb k t d) (back_side k t d)) = samples f g n t d.
Proof.
  intros Hk Hok Hg. pose proof (fun i => point_nb k n g t d i Hk Hok Hg) as P.
  unfold flip_if, flip_line, samples, back_index in *. destruct (nb_flip k t d).
  - rewrite rev_map_seq. apply map_ext_in. intros i Hi. apply in_seq in Hi. now rewrite P by lia.
  - apply map_ext_in. intros i Hi. apply in_seq in Hi. now rewrite P by lia.
Qed.

Lemma exchange_scalars_correct {A} (f : R * R * R -> A) k n g t d :
  (1 <= k)%Z -> tile_ok k t -> grid_symmetric k n g ->
  exchange_scalars (6 * k * k) flip_line (fun r => samples f g n (tile_of_rank k r)) (rank_of_tile k t) d
  = Some (samples f g n t d).
Proof.
  intros Hk Hok Hg. unfold exchange_scalars. rewrite alltoall_spec by assumption.
  pose proof (nb_ok k t d Hk Hok) as Hok'.
  rewrite tile_of_rank_of, built_flip by assumption.
  rewrite (proj2 (nb_back k t d Hk Hok)). f_equal. now apply flip_samples.
Qed.

Lemma flip_samples3 {A} (f : nat -> R * R * R -> A) k ne nv ns g t d :
  (1 <= k)%Z -> tile_ok k t -> grid_symmetric k (ne * ns) g ->
  flip_if (nb_flip k t d) flip_3d (samples3 f g ne nv ns (nb k t d) (back_side k t d)) = samples3 f g ne nv ns t d.
Proof.
  intros Hk Hok Hg. pose proof (fun i => point_nb k (ne * ns) g t d i Hk Hok Hg) as P.
  unfold flip_if, flip_3d, samples3, back_index in *. destruct (nb_flip k t d).
  - rewrite map_map, rev_map_seq. apply map_ext_in. intros e He. apply in_seq in He.
    rewrite map_map. apply map_ext_in. intros v _. rewrite rev_map_seq. apply map_ext_in. intros h Hh.
    apply in_seq in Hh. f_equal.
    rewrite <- (P (e * ns + h)%nat) by nia. f_equal. nia.
  - apply map_ext_in. intros e He. apply in_seq in He. apply map_ext_in. intros v _.
    apply map_ext_in. intros h Hh. apply in_seq in Hh. f_equal. rewrite P; [reflexivity | nia].
Qed.

Lemma exchange_scalars3_correct {A} (f : nat -> R * R * R -> A) k ne nv ns g t d :
  (1 <= k)%Z -> tile_ok k t -> grid_symmetric k (ne * ns) g ->
  exchange_scalars (6 * k * k) flip_3d (fun r => samples3 f g ne nv ns (tile_of_rank k r)) (rank_of_tile k t) d
  = Some (samples3 f g ne nv ns t d).
Proof.
  intros Hk Hok Hg. unfold exchange_scalars. rewrite alltoall_spec by assumption.
  pose proof (nb_ok k t d Hk Hok) as Hok'.
  rewrite tile_of_rank_of, built_flip by assumption.
  rewrite (proj2 (nb_back k t d Hk Hok)). f_equal. now apply flip_samples3.
Qed.

(** * Conversion tables *)

Lemma real_triple_inv (a b c a' b' c' : R) : (a, b, c) = (a', b', c') -> a = a' /\ b = b' /\ c = c'.
Proof. now intros [= -> -> ->]. Qed.

Lemma d2_pos x : 0 < 1 + x * x + 1.
Proof. nra. Qed.

Ltac ptbl :=
  cbv [lookup2 nth side_index Z.to_nat Pos.to_nat Pos.iter_op Init.Nat.add all_neighbors convert_contras convert_covs
       fst snd panel_side_xy cube_point lin].
Ltac ptbl_in H :=
  cbv [lookup2 nth side_index Z.to_nat Pos.to_nat Pos.iter_op Init.Nat.add all_neighbors
       fst snd panel_side_xy cube_point lin] in H.

Ltac conv_solve :=
  match goal with
  | |- context [sqrt ?e] =>
      let s := fresh "s" in let Hs := fresh "Hs" in
      set (s := sqrt e); assert (Hs : s <> 0) by (apply Rgt_not_eq, sqrt_lt_R0; nra); clearbody s
  end.

Lemma contra_table p d x a1 a2 X' Y' :
  (0 <= p < 6)%Z ->
  let '(X, Y) := panel_side_xy d x in
  let p' := lookup2 all_neighbors p d 0%Z in
  let '(b1, b2) := lookup2 convert_contras p d convert_default a1 a2 x in
  cube_point 1 p' X' Y' = cube_point 1 p X Y ->
  tangent p' X' Y' b1 b2 = tangent p X Y a1 a2.
Proof.
  intro Hp. split_panel p Hp; destruct d; ptbl; intro E; apply real_triple_inv in E; destruct E as (E1 & E2 & E3);
    (try (replace X' with x by lra)); (try (replace Y' with x by lra));
    (try (replace X' with (- x) by lra)); (try (replace Y' with (- x) by lra));
    (try (replace X' with 1 by lra)); (try (replace Y' with 1 by lra));
    (try (replace X' with (-1) by lra)); (try (replace Y' with (-1) by lra));
    unfold tangent, add3, scal; ptbl; clear;
    repeat match goal with
    | |- context [sqrt (1 + ?a * ?a + ?b * ?b)] =>
       progress replace (1 + a * a + b * b) with (1 + x * x + 1) by ring
    end;
    pose proof (d2_pos x) as D;
    set (s := sqrt (1 + x * x + 1)); assert (Hs : s <> 0) by (apply Rgt_not_eq, sqrt_lt_R0; nra); clearbody s;
    apply real_triple_eq; field; (repeat split); nra.
Qed.

Ltac norm_xy x X' Y' :=
    (try (replace X' with x by lra)); (try (replace Y' with x by lra));
    (try (replace X' with (- x) by lra)); (try (replace Y' with (- x) by lra));
    (try (replace X' with 1 by lra)); (try (replace Y' with 1 by lra));
    (try (replace X' with (-1) by lra)); (try (replace Y' with (-1) by lra)).

Lemma cov_table p d x w X' Y' :
  (0 <= p < 6)%Z -> ~ (p = 2%Z /\ d = South) ->
  let '(X, Y) := panel_side_xy d x in
  let p' := lookup2 all_neighbors p d 0%Z in
  cube_point 1 p' X' Y' = cube_point 1 p X Y ->
  lookup2 convert_covs p d convert_default (cov1 p X Y w) (cov2 p X Y w) x = (cov1 p' X' Y' w, cov2 p' X' Y' w).
Proof.
  intros Hp Hn. destruct w as [[w1 w2] w3].
  split_panel p Hp; destruct d; try (exfalso; apply Hn; split; reflexivity); clear Hn;
    ptbl; intro E; apply real_triple_inv in E; destruct E as (E1 & E2 & E3);
    norm_xy x X' Y';
    unfold cov1, cov2, dot3, tangent, add3, scal; ptbl; clear;
    repeat match goal with
    | |- context [sqrt (1 + ?a * ?a + ?b * ?b)] =>
       progress replace (1 + a * a + b * b) with (1 + x * x + 1) by ring
    end;
    pose proof (d2_pos x) as D;
    set (s := sqrt (1 + x * x + 1)); assert (Hs : s <> 0) by (apply Rgt_not_eq, sqrt_lt_R0; nra); clearbody s;
    apply f_equal2; field; (repeat split); nra.
Qed.

(** * Vector exchange *)

Lemma panel_side_of_edge k n g t d i :
  grid_symmetric k n g -> at_edge k t d = true ->
  boundary_xy g t d i = panel_side_xy d (match d with South | North => pt g (col t) i | _ => pt g (row t) i end).
Proof.
  intros (G0 & G1 & _) E. unfold at_edge, boundary_xy, panel_side_xy in *.
  destruct d.
  - replace (row t) with 0%Z by lia. now rewrite G0.
  - replace (row t + 1)%Z with k by lia. now rewrite G1.
  - replace (col t) with 0%Z by lia. now rewrite G0.
  - replace (col t + 1)%Z with k by lia. now rewrite G1.
Qed.

Lemma nb_panel k t d : at_edge k t d = true -> panel (nb k t d) = lookup2 all_neighbors (panel t) d 0%Z.
Proof. intro E. unfold nb. now rewrite E. Qed.

Lemma nb_panel_interior k t d : at_edge k t d = false -> panel (nb k t d) = panel t.
Proof. intro E. unfold nb. rewrite E. now destruct d. Qed.

Lemma nb_flip_interior k t d : at_edge k t d = false -> nb_flip k t d = false.
Proof. intro E. unfold nb_flip. now rewrite E. Qed.

Lemma back_at_edge k t d : (1 <= k)%Z -> tile_ok k t -> at_edge k (nb k t d) (back_side k t d) = at_edge k t d.
Proof.
  intros Hk (Hp & Hr & Hc). destruct t as [p r c]; cbn [panel row col] in *.
  destruct (at_edge k (Tile p r c) d) eqn:E0.
  - unfold nb, back_side. rewrite E0.
    destruct d; unfold at_edge in *; cbn [panel row col] in *; split_panel p Hp; unfold wrap; tbl; decide_tests; reflexivity.
  - unfold nb, back_side. rewrite E0.
    destruct d; unfold at_edge in *; cbn [panel row col] in *; unfold wrap; tbl; decide_tests; reflexivity.
Qed.

(** In the interior of a panel the two sides have the same chart coordinates. *)
Lemma xy_interior k g t d i : (1 <= k)%Z -> tile_ok k t -> at_edge k t d = false ->
  boundary_xy g (nb k t d) (back_side k t d) i = boundary_xy g t d i.
Proof.
  intros Hk (Hp & Hr & Hc) E. destruct t as [p r c]; cbn [panel row col] in *.
  unfold nb, back_side. rewrite E.
  destruct d; unfold at_edge in E; cbn [panel row col] in *; unfold boundary_xy, wrap; tbl; decide_tests;
    apply f_equal2; f_equal; lia.
Qed.

Lemma combine_nth_error {A B} (l : list A) (m : list B) i :
  nth_error (combine l m) i =
  match nth_error l i, nth_error m i with Some a, Some b => Some (a, b) | _, _ => None end.
Proof.
  revert m i. induction l as [|a l IH]; intros m i; destruct i, m; simpl; auto.
  destruct (nth_error l i); reflexivity.
Qed.

Lemma nth_error_rev {A} (l : list A) i : (i < length l)%nat ->
  nth_error (rev l) i = nth_error l (length l - 1 - i).
Proof.
  intro H. destruct l as [|a l0] eqn:E; [simpl in H; lia|]. rewrite <- E in *.
  rewrite (nth_error_nth' (rev l) a) by (rewrite rev_length; exact H).
  rewrite (nth_error_nth' l a) by lia.
  rewrite rev_nth by exact H. do 2 f_equal. lia.
Qed.

Lemma convert_line_nth {B} (f : conversion) bd (l : list (vec B)) i a1 a2 b :
  nth_error (convert_line f bd l) i = Some (a1, a2, b) ->
  exists c1 c2 x, nth_error l i = Some (c1, c2, b) /\ nth_error bd i = Some x /\ (a1, a2) = f c1 c2 x.
Proof.
  unfold convert_line. rewrite nth_error_map, combine_nth_error.
  destruct (nth_error l i) as [[[c1 c2] c3]|], (nth_error bd i) as [x|]; try discriminate.
  cbn [option_map]. destruct (f c1 c2 x) as [u v] eqn:F. cbn [fst snd]. intro E.
  assert (E1 : u = a1 /\ v = a2 /\ c3 = b) by (inversion E; auto). destruct E1 as (-> & -> & ->).
  exists c1, c2, x. auto.
Qed.

Lemma convert_line_length {B} f bd (l : list (vec B)) : length bd = length l ->
  length (convert_line f bd l) = length l.
Proof. intro H. unfold convert_line. rewrite map_length, combine_length. lia. Qed.

(** Generic argument for both kinds of components. *)
Section Vectors.
Context {B : Type}.
Variables (k : Z) (n : nat) (g : grid_coords).
Hypothesis Hk : (1 <= k)%Z.
Hypothesis Hg : grid_symmetric k n g.

(** [good p X Y P a1 a2 b] : (a1, a2, b) represents the global field at point P in the chart of panel p. *)
Variable good : Z -> R -> R -> R * R * R -> R -> R -> B -> Prop.

Definition holds (t : tile) (d : side) (l : list (vec B)) : Prop :=
  length l = n /\
  forall i a1 a2 b, nth_error l i = Some (a1, a2, b) ->
    good (panel t) (fst (boundary_xy g t d i)) (snd (boundary_xy g t d i)) (boundary_point g t d i) a1 a2 b.

Lemma vector_line (t : tile) (d : side) (conv : conversion) (l : list (vec B)) :
  let s := nb k t d in let e := back_side k t d in
  tile_ok k t ->
  (forall i a1 a2 b, (i < n)%nat ->
     let j := back_index n (nb_flip k t d) i in
     let x := match e with South | North => pt g (col s) j | _ => pt g (row s) j end in
     good (panel s) (fst (boundary_xy g s e j)) (snd (boundary_xy g s e j)) (boundary_point g s e j) a1 a2 b ->
     good (panel t) (fst (boundary_xy g t d i)) (snd (boundary_xy g t d i)) (boundary_point g t d i)
          (fst (conv a1 a2 x)) (snd (conv a1 a2 x)) b) ->
  holds s e l ->
  holds t d (flip_if (nb_flip k t d) flip_line (convert_line conv (boundary_of (coords_sn g n s) (coords_we g n s) e) l)).
Proof.
  intros s e Hok Hconv [Hlen Hl].
  set (bd := boundary_of (coords_sn g n s) (coords_we g n s) e).
  assert (Hbd : length bd = n).
  { subst bd. unfold boundary_of, coords_sn, coords_we. destruct e; now rewrite map_length, seq_length. }
  assert (HL : length (convert_line conv bd l) = n) by (rewrite convert_line_length; congruence).
  split.
  - unfold flip_if, flip_line. destruct (nb_flip k t d); [rewrite rev_length|]; exact HL.
  - intros i a1 a2 b Hi.
    assert (Hin : (i < n)%nat).
    { assert (nth_error (flip_if (nb_flip k t d) flip_line (convert_line conv bd l)) i <> None) as N by congruence.
      apply nth_error_Some in N. unfold flip_if, flip_line in N.
      destruct (nb_flip k t d); [rewrite rev_length in N|]; lia. }
    assert (Hj : nth_error (convert_line conv bd l) (back_index n (nb_flip k t d) i) = Some (a1, a2, b)).
    { unfold flip_if, flip_line, back_index in *. destruct (nb_flip k t d); [|exact Hi].
      rewrite nth_error_rev in Hi by lia. now rewrite HL in Hi. }
    apply convert_line_nth in Hj as (c1 & c2 & x & H1 & H2 & H3).
    apply Hl in H1. apply Hconv in H1; [|exact Hin].
    assert (Hx : x = match e with South | North => pt g (col s) (back_index n (nb_flip k t d) i)
                      | _ => pt g (row s) (back_index n (nb_flip k t d) i) end).
    { assert (Hj : (back_index n (nb_flip k t d) i < n)%nat) by (unfold back_index; destruct (nb_flip k t d); lia).
      subst bd. unfold boundary_of, coords_sn, coords_we in H2.
      destruct e; rewrite nth_error_map, (nth_error_nth' _ 0%nat) in H2 by (rewrite seq_length; exact Hj);
        rewrite seq_nth in H2 by exact Hj; simpl in H2; congruence. }
    rewrite <- Hx, <- H3 in H1. exact H1.
Qed.
End Vectors.

Definition good_contra {B} (V : R * R * R -> R * R * R) (W : R * R * R -> B) p X Y P a1 a2 (b : B) : Prop :=
  tangent p X Y a1 a2 = V P /\ b = W P.
Definition good_cov {B} (V : R * R * R -> R * R * R) (W : R * R * R -> B) p X Y P a1 a2 (b : B) : Prop :=
  a1 = cov1 p X Y (V P) /\ a2 = cov2 p X Y (V P) /\ b = W P.

Lemma holds_contra_iff {B} V (W : R * R * R -> B) g n t d l :
  holds_contra V W g n t d l <-> holds n g (good_contra V W) t d l.
Proof.
  unfold holds_contra, holds, good_contra. split; intros [H1 H2]; split; auto; intros i a1 a2 b H;
    specialize (H2 _ _ _ _ H); destruct (boundary_xy g t d i); exact H2.
Qed.
Lemma holds_cov_iff {B} V (W : R * R * R -> B) g n t d l :
  holds_cov V W g n t d l <-> holds n g (good_cov V W) t d l.
Proof.
  unfold holds_cov, holds, good_cov. split; intros [H1 H2]; split; auto; intros i a1 a2 b H;
    specialize (H2 _ _ _ _ H); destruct (boundary_xy g t d i); exact H2.
Qed.

Lemma contra_step {B} V (W : R * R * R -> B) k n g t d i a1 a2 b :
  (1 <= k)%Z -> tile_ok k t -> grid_symmetric k n g -> (i < n)%nat ->
  let s := nb k t d in let e := back_side k t d in
  let j := back_index n (nb_flip k t d) i in
  let conv := t_contra (build_topology (6 * k * k) (rank_of_tile k s)) e in
  let x := match e with South | North => pt g (col s) j | _ => pt g (row s) j end in
  good_contra V W (panel s) (fst (boundary_xy g s e j)) (snd (boundary_xy g s e j)) (boundary_point g s e j) a1 a2 b ->
  good_contra V W (panel t) (fst (boundary_xy g t d i)) (snd (boundary_xy g t d i)) (boundary_point g t d i)
          (fst (conv a1 a2 x)) (snd (conv a1 a2 x)) b.
Proof.
  intros Hk Hok Hg Hi s e j conv x [H1 H2].
  pose proof (point_nb k n g t d i Hk Hok Hg Hi) as P. fold s e j in P.
  rewrite P in H1, H2. split; [|exact H2].
  pose proof (nb_ok k t d Hk Hok) as Hsok. fold s in Hsok.
  pose proof (back_at_edge k t d Hk Hok) as Hedge. fold s e in Hedge.
  destruct (nb_back k t d Hk Hok) as [Hb Hbf]. fold s e in Hb, Hbf.
  subst conv. rewrite built_contra by assumption. rewrite Hedge.
  destruct (at_edge k t d) eqn:E.
  - pose proof (panel_side_of_edge k n g s e j Hg Hedge) as Exy. fold x in Exy.
    pose proof (contra_table (panel s) e x a1 a2 (fst (boundary_xy g t d i)) (snd (boundary_xy g t d i)) (proj1 Hsok)) as T.
    assert (Hpan : panel t = lookup2 all_neighbors (panel s) e 0%Z).
    { rewrite <- nb_panel with (k := k) by exact Hedge. now rewrite Hb. }
    rewrite <- Hpan in T. unfold boundary_point in P at 1. rewrite Exy in P.
    rewrite Exy in H1. destruct (panel_side_xy e x) as [X Y].
    destruct (lookup2 convert_contras (panel s) e convert_default a1 a2 x) as [b1 b2].
    simpl fst in *. simpl snd in *. rewrite T; [exact H1|]. symmetry. exact P.
  - simpl. rewrite <- (nb_panel_interior k t d E). fold s.
    rewrite <- (xy_interior k g t d i Hk Hok E). fold s e.
    subst j. unfold back_index in H1. rewrite (nb_flip_interior k t d E) in H1. exact H1.
Qed.

Lemma cov_step {B} V (W : R * R * R -> B) k n g t d i a1 a2 b :
  (1 <= k)%Z -> tile_ok k t -> grid_symmetric k n g -> (i < n)%nat ->
  ~ (panel t = 5%Z /\ d = South /\ row t = 0%Z) ->
  let s := nb k t d in let e := back_side k t d in
  let j := back_index n (nb_flip k t d) i in
  let conv := t_cov (build_topology (6 * k * k) (rank_of_tile k s)) e in
  let x := match e with South | North => pt g (col s) j | _ => pt g (row s) j end in
  good_cov V W (panel s) (fst (boundary_xy g s e j)) (snd (boundary_xy g s e j)) (boundary_point g s e j) a1 a2 b ->
  good_cov V W (panel t) (fst (boundary_xy g t d i)) (snd (boundary_xy g t d i)) (boundary_point g t d i)
          (fst (conv a1 a2 x)) (snd (conv a1 a2 x)) b.
Proof.
  intros Hk Hok Hg Hi Hex s e j conv x (H0 & H1 & H2).
  pose proof (point_nb k n g t d i Hk Hok Hg Hi) as P. fold s e j in P.
  rewrite P in H0, H1, H2.
  pose proof (nb_ok k t d Hk Hok) as Hsok. fold s in Hsok.
  pose proof (back_at_edge k t d Hk Hok) as Hedge. fold s e in Hedge.
  destruct (nb_back k t d Hk Hok) as [Hb Hbf]. fold s e in Hb, Hbf.
  subst conv. rewrite built_cov by assumption. rewrite Hedge.
  destruct (at_edge k t d) eqn:E.
  - pose proof (panel_side_of_edge k n g s e j Hg Hedge) as Exy. fold x in Exy.
    assert (Hpan : panel t = lookup2 all_neighbors (panel s) e 0%Z).
    { rewrite <- nb_panel with (k := k) by exact Hedge. now rewrite Hb. }
    assert (Hn : ~ (panel s = 2%Z /\ e = South)).
    { intros [N1 N2]. rewrite N1, N2 in Hpan. change (panel t = 5%Z) in Hpan.
      apply Hex. subst e. unfold back_side in N2. rewrite E, Hpan in N2.
      assert (panel s = lookup2 all_neighbors (panel t) d 0%Z) as Q by (now apply nb_panel).
      rewrite Hpan, N1 in Q. unfold at_edge in E.
      destruct d; try discriminate Q; try discriminate N2. repeat split; auto. lia. }
    pose proof (cov_table (panel s) e x (V (boundary_point g t d i)) (fst (boundary_xy g t d i))
                  (snd (boundary_xy g t d i)) (proj1 Hsok) Hn) as T.
    rewrite <- Hpan in T. unfold boundary_point in P at 1. rewrite Exy in P.
    rewrite Exy in H0, H1. destruct (panel_side_xy e x) as [X Y].
    simpl fst in H0, H1, P. simpl snd in H0, H1, P. rewrite H0, H1.
    rewrite T; [|symmetry; exact P]. now repeat split.
  - simpl. unfold good_cov. rewrite <- (nb_panel_interior k t d E). fold s.
    rewrite <- (xy_interior k g t d i Hk Hok E). fold s e.
    subst j. unfold back_index in H0, H1. rewrite (nb_flip_interior k t d E) in H0, H1. auto.
Qed.

Lemma exchange_contra_correct {B} V (W : R * R * R -> B) k n g data t d :
  (1 <= k)%Z -> tile_ok k t -> grid_symmetric k n g ->
  (forall t' d', tile_ok k t' -> holds_contra V W g n t' d' (data (rank_of_tile k t') d')) ->
  exists l,
    exchange_vectors (6 * k * k) false (fun r => coords_sn g n (tile_of_rank k r)) (fun r => coords_we g n (tile_of_rank k r))
      data (rank_of_tile k t) d = Some l
    /\ holds_contra V W g n t d l.
Proof.
  intros Hk Hok Hg Hd. unfold exchange_vectors. rewrite alltoall_spec by assumption.
  pose proof (nb_ok k t d Hk Hok) as Hok'.
  rewrite tile_of_rank_of, built_flip by assumption.
  rewrite (proj2 (nb_back k t d Hk Hok)). cbv zeta.
  eexists. split; [reflexivity|]. apply holds_contra_iff.
  apply vector_line; auto.
  - intros. now apply contra_step.
  - apply holds_contra_iff, Hd, Hok'.
Qed.

Lemma exchange_cov_correct {B} V (W : R * R * R -> B) k n g data t d :
  (1 <= k)%Z -> tile_ok k t -> grid_symmetric k n g ->
  ~ (panel t = 5%Z /\ d = South /\ row t = 0%Z) ->
  (forall t' d', tile_ok k t' -> holds_cov V W g n t' d' (data (rank_of_tile k t') d')) ->
  exists l,
    exchange_vectors (6 * k * k) true (fun r => coords_sn g n (tile_of_rank k r)) (fun r => coords_we g n (tile_of_rank k r))
      data (rank_of_tile k t) d = Some l
    /\ holds_cov V W g n t d l.
Proof.
  intros Hk Hok Hg Hex Hd. unfold exchange_vectors. rewrite alltoall_spec by assumption.
  pose proof (nb_ok k t d Hk Hok) as Hok'.
  rewrite tile_of_rank_of, built_flip by assumption.
  rewrite (proj2 (nb_back k t d Hk Hok)). cbv zeta.
  eexists. split; [reflexivity|]. apply holds_cov_iff.
  apply vector_line; auto.
  - intros. now apply cov_step.
  - apply holds_cov_iff, Hd, Hok'.
Qed.

(** * Facts about the specification itself *)

(** Non-vacuity of [grid_symmetric]: the uniform grid. *)
Definition uniform_grid (k : Z) (n : nat) : grid_coords :=
  {| edge := fun c => 2 * IZR c / IZR k - 1;
     pt := fun c i => (2 * IZR c * INR n + 2 * INR i + 1) / (IZR k * INR n) - 1 |}.
Lemma uniform_grid_symmetric k n : (1 <= k)%Z -> (1 <= n)%nat -> grid_symmetric k n (uniform_grid k n).
Proof.
  intros Hk Hn. assert (0 < IZR k) by (apply IZR_lt; lia). assert (0 < INR n) by (apply lt_0_INR; lia).
  unfold grid_symmetric, uniform_grid; simpl. repeat split.
  - field. lra.
  - field. lra.
  - intros c i Hc Hi. rewrite !minus_IZR, !minus_INR by lia. simpl INR. field. lra.
Qed.

Lemma tangent_inj p X Y a1 a2 b1 b2 : (0 <= p < 6)%Z ->
  tangent p X Y a1 a2 = tangent p X Y b1 b2 -> a1 = b1 /\ a2 = b2.
Proof.
  intros Hp E.
  assert (D : 0 < 1 + X * X + Y * Y) by nra.
  assert (S : 0 < sqrt (1 + X * X + Y * Y)) by (apply sqrt_lt_R0; exact D).
  unfold tangent, add3, scal, lin, cube_point in E.
  set (s := sqrt (1 + X * X + Y * Y)) in *. set (q := 1 + X * X + Y * Y) in *.
  assert (K : forall u v, - (X * ((1 + X * X) * a1) + Y * ((1 + Y * Y) * a2)) / (s * q) = u ->
              - (X * ((1 + X * X) * b1) + Y * ((1 + Y * Y) * b2)) / (s * q) = v -> u = v ->
              / s * ((1 + X * X) * a1) + u * X = / s * ((1 + X * X) * b1) + v * X ->
              / s * ((1 + Y * Y) * a2) + u * Y = / s * ((1 + Y * Y) * b2) + v * Y -> a1 = b1 /\ a2 = b2).
  { intros u v _ _ -> F1 F2. assert (0 < / s) by now apply Rinv_0_lt_compat.
    assert (G1 : / s * ((1 + X * X) * (a1 - b1)) = 0) by lra.
    assert (G2 : / s * ((1 + Y * Y) * (a2 - b2)) = 0) by lra.
    apply Rmult_integral in G1. apply Rmult_integral in G2.
    split.
    - destruct G1 as [G|G]; [lra|]. apply Rmult_integral in G as [G|G]; nra.
    - destruct G2 as [G|G]; [lra|]. apply Rmult_integral in G as [G|G]; nra. }
  split_panel p Hp; apply real_triple_inv in E; destruct E as (E1 & E2 & E3);
    (eapply K; [reflexivity|reflexivity|lra|lra|lra]).
Qed.

(** The panel-2 South entry of the covariant table is wrong. *)
Lemma cov_table_bad :
  exists x w X' Y',
    cube_point 1 5 X' Y' = cube_point 1 2 x (-1) /\
    fst (lookup2 convert_covs 2 South convert_default (cov1 2 x (-1) w) (cov2 2 x (-1) w) x) <> cov1 5 X' Y' w.
Proof.
  exists 0, (0, 1, 0), 0, (-1). split.
  - unfold cube_point. apply real_triple_eq; ring.
  - unfold cov1, cov2, dot3, tangent, add3, scal; ptbl.
    replace (1 + 0 * 0 + -1 * -1) with 2 by ring.
    assert (S : 0 < sqrt 2) by (apply sqrt_lt_R0; lra).
    intro E. apply Rmult_eq_compat_l with (r := sqrt 2) in E.
    field_simplify in E; lra.
Qed.

(** * Statements in terms of constructed topology objects *)

Lemma shared_point p d x : (0 <= p < 6)%Z ->
  exists X' Y', cube_point 1 (lookup2 all_neighbors p d 0%Z) X' Y'
                = cube_point 1 p (fst (panel_side_xy d x)) (snd (panel_side_xy d x)).
Proof.
  intro Hp. split_panel p Hp; destruct d; ptbl;
  first [ exists x, 1; apply real_triple_eq; ring | exists x, (-1); apply real_triple_eq; ring
        | exists 1, x; apply real_triple_eq; ring | exists (-1), x; apply real_triple_eq; ring
        | exists (-x), 1; apply real_triple_eq; ring | exists (-x), (-1); apply real_triple_eq; ring
        | exists 1, (-x); apply real_triple_eq; ring | exists (-1), (-x); apply real_triple_eq; ring ].
Qed.

Lemma created_fields k r T : (1 <= k)%Z -> (0 <= r < 6 * k * k)%Z -> make_topology (6 * k * k) r = Created T ->
  T = build_topology (6 * k * k) r.
Proof. intros Hk Hr. unfold make_topology. rewrite good_size_of by exact Hk. now intros [= <-]. Qed.

Lemma other_panel_edge k t d : (1 <= k)%Z -> tile_ok k t -> panel (nb k t d) <> panel t -> at_edge k t d = true.
Proof. intros Hk Hok Hn. destruct (at_edge k t d) eqn:E; auto. exfalso. apply Hn. now apply nb_panel_interior. Qed.

Lemma same_panel_interior k t d : (1 <= k)%Z -> tile_ok k t -> panel (nb k t d) = panel t -> at_edge k t d = false.
Proof.
  intros Hk Hok Hn. destruct (at_edge k t d) eqn:E; auto. exfalso. rewrite nb_panel in Hn by exact E.
  destruct Hok as (Hp & _). destruct t as [p r c]; cbn [panel] in *. split_panel p Hp; destruct d; discriminate Hn.
Qed.

Section Objects.
Variables (k r : Z) (T N : topology) (d : side).
Hypothesis Hk : (1 <= k)%Z.
Hypothesis Hr : (0 <= r < 6 * k * k)%Z.
Hypothesis HT : make_topology (6 * k * k) r = Created T.
Hypothesis HN : make_topology (6 * k * k) (t_dest T d) = Created N.

Let t := tile_of_rank k r.
Lemma obj_tile : tile_ok k t /\ rank_of_tile k t = r /\ t_panel T = panel t /\ t_row T = row t /\ t_col T = col t
  /\ t_dest T d = rank_of_tile k (nb k t d) /\ t_panel N = panel (nb k t d)
  /\ t_row N = row (nb k t d) /\ t_col N = col (nb k t d).
Proof.
  assert (Hok : tile_ok k t) by now apply tile_of_rank_ok.
  assert (E : rank_of_tile k t = r) by now apply rank_of_tile_of_rank.
  pose proof (built_fields k Hk t Hok) as (F1 & F2 & F3 & _). rewrite E in *.
  apply created_fields in HT; auto. subst T.
  assert (D : t_dest (build_topology (6 * k * k) r) d = rank_of_tile k (nb k t d)).
  { rewrite <- E. now apply built_dest. }
  rewrite D in HN. pose proof (nb_ok k t d Hk Hok) as Hok'.
  apply created_fields in HN; auto; [|now apply rank_of_tile_range]. subst N.
  pose proof (built_fields k Hk _ Hok') as (G1 & G2 & G3 & _). repeat split; assumption || apply Hok.
Qed.

Lemma obj_contra x a1 a2 : t_panel N <> t_panel T ->
  let '(X, Y) := panel_side_xy d x in
  let '(b1, b2) := t_contra T d a1 a2 x in
  (exists X' Y', cube_point 1 (t_panel N) X' Y' = cube_point 1 (t_panel T) X Y) /\
  (forall X' Y', cube_point 1 (t_panel N) X' Y' = cube_point 1 (t_panel T) X Y ->
     tangent (t_panel N) X' Y' b1 b2 = tangent (t_panel T) X Y a1 a2).
Proof.
  destruct obj_tile as (Hok & E & P1 & _ & _ & _ & P2 & _). intro Hne. rewrite P1, P2 in *.
  pose proof (other_panel_edge k t d Hk Hok Hne) as Hedge.
  assert (C : t_contra T d = lookup2 convert_contras (panel t) d convert_default).
  { rewrite (created_fields k r T) by assumption. rewrite <- E. rewrite built_contra by assumption. now rewrite Hedge. }
  rewrite C. rewrite nb_panel by exact Hedge.
  pose proof (shared_point (panel t) d x (proj1 Hok)) as S.
  pose proof (fun X' Y' => contra_table (panel t) d x a1 a2 X' Y' (proj1 Hok)) as Q.
  destruct (panel_side_xy d x) as [X Y].
  destruct (lookup2 convert_contras (panel t) d convert_default a1 a2 x) as [b1 b2]. simpl in S. now split.
Qed.

Lemma obj_contra_inside x a1 a2 : t_panel N = t_panel T -> t_contra T d a1 a2 x = (a1, a2) /\ t_cov T d a1 a2 x = (a1, a2).
Proof.
  destruct obj_tile as (Hok & E & P1 & _ & _ & _ & P2 & _). intro Heq. rewrite P1, P2 in *.
  pose proof (same_panel_interior k t d Hk Hok Heq) as Hedge.
  rewrite (created_fields k r T) by assumption. rewrite <- E.
  rewrite built_contra, built_cov by assumption. now rewrite Hedge.
Qed.

Lemma obj_cov x w : t_panel N <> t_panel T -> ~ (t_panel T = 2%Z /\ d = South) ->
  let '(X, Y) := panel_side_xy d x in
  (exists X' Y', cube_point 1 (t_panel N) X' Y' = cube_point 1 (t_panel T) X Y) /\
  (forall X' Y', cube_point 1 (t_panel N) X' Y' = cube_point 1 (t_panel T) X Y ->
     t_cov T d (cov1 (t_panel T) X Y w) (cov2 (t_panel T) X Y w) x = (cov1 (t_panel N) X' Y' w, cov2 (t_panel N) X' Y' w)).
Proof.
  destruct obj_tile as (Hok & E & P1 & _ & _ & _ & P2 & _). intros Hne Hex. rewrite P1, P2 in *.
  pose proof (other_panel_edge k t d Hk Hok Hne) as Hedge.
  assert (C : t_cov T d = lookup2 convert_covs (panel t) d convert_default).
  { rewrite (created_fields k r T) by assumption. rewrite <- E. rewrite built_cov by assumption. now rewrite Hedge. }
  rewrite C. rewrite nb_panel by exact Hedge.
  pose proof (shared_point (panel t) d x (proj1 Hok)) as S.
  pose proof (fun X' Y' => cov_table (panel t) d x w X' Y' (proj1 Hok) Hex) as Q.
  destruct (panel_side_xy d x) as [X Y]. simpl in S. now split.
Qed.

Lemma obj_graph :
  let b := t_dest T d in
  (0 <= b < 6 * k * k)%Z /\ b <> r /\ (forall d', t_dest T d' = b -> d' = d) /\
  (exists d', t_dest N d' = r) /\ (forall d1 d2, t_dest N d1 = r -> t_dest N d2 = r -> d1 = d2).
Proof.
  destruct obj_tile as (Hok & E & _ & _ & _ & Hd & _). simpl. rewrite Hd in *.
  pose proof (nb_ok k t d Hk Hok) as Hok'.
  assert (ET : forall d', t_dest T d' = rank_of_tile k (nb k t d')).
  { intro d'. rewrite (created_fields k r T) by assumption. rewrite <- E. now apply built_dest. }
  assert (EN : forall d', t_dest N d' = rank_of_tile k (nb k (nb k t d) d')).
  { intro d'. rewrite (created_fields k _ N Hk (rank_of_tile_range k _ Hk Hok') HN). now apply built_dest. }
  repeat split; try (apply rank_of_tile_range; assumption).
  - intro C. rewrite <- E in C. apply rank_of_tile_inj in C; auto. now apply nb_not_self in C.
  - intros d' C. rewrite ET in C. apply rank_of_tile_inj in C; auto; try now apply nb_ok.
    now apply (nb_distinct k t).
  - exists (back_side k t d). rewrite EN. rewrite (proj1 (nb_back k t d Hk Hok)). exact E.
  - intros d1 d2 C1 C2. rewrite EN in C1, C2. rewrite <- C2 in C1.
    apply rank_of_tile_inj in C1; auto; try now apply nb_ok. now apply (nb_distinct k (nb k t d)).
Qed.

Lemma obj_geometry :
  let tT := Tile (t_panel T) (t_row T) (t_col T) in
  let tN := Tile (t_panel N) (t_row N) (t_col N) in
  exists d',
    t_dest N d' = r /\
    (if t_flip T d then side_start k tN d' = side_end k tT d /\ side_end k tN d' = side_start k tT d
     else side_start k tN d' = side_start k tT d /\ side_end k tN d' = side_end k tT d) /\
    (forall t' e, tile_ok k t' -> side_centre k t' e = side_centre k tT d ->
       (t' = tT /\ e = d) \/ (t' = tN /\ e = d')).
Proof.
  destruct obj_tile as (Hok & E & P1 & P2 & P3 & Hd & Q1 & Q2 & Q3). simpl.
  rewrite P1, P2, P3, Q1, Q2, Q3. pose proof (nb_ok k t d Hk Hok) as Hok'.
  replace (Tile (panel t) (row t) (col t)) with t by (destruct t; reflexivity).
  replace (Tile (panel (nb k t d)) (row (nb k t d)) (col (nb k t d))) with (nb k t d) by (destruct (nb k t d); reflexivity).
  exists (back_side k t d). repeat split.
  - assert (HN' := HN). rewrite Hd in HN'.
    rewrite (created_fields k _ N Hk (rank_of_tile_range k _ Hk Hok') HN').
    transitivity (rank_of_tile k (nb k (nb k t d) (back_side k t d))); [now apply built_dest|].
    now rewrite (proj1 (nb_back k t d Hk Hok)).
  - assert (F : t_flip T d = nb_flip k t d).
    { rewrite (created_fields k r T) by assumption.
      transitivity (t_flip (build_topology (6 * k * k) (rank_of_tile k t)) d); [now rewrite E | now apply built_flip]. }
    rewrite F. now apply ends_nb.
  - intros t' e Hok1 C. apply centre_inj; auto.
Qed.
End Objects.

(** * Process counts and ranks, as used in the property file *)

Lemma accept_iff size rank : (exists T, make_topology size rank = Created T) <-> acceptable size.
Proof.
  rewrite <- bad_size_acceptable. unfold make_topology. destruct (bad_size size); split; intro H; eauto; try discriminate.
  destruct H; discriminate.
Qed.

Lemma suggestions size rank lo hi : (6 <= size)%Z -> make_topology size rank = WrongCount lo hi ->
  acceptable lo /\ acceptable hi /\ (lo < size < hi)%Z /\ forall s, (lo < s < hi)%Z -> ~ acceptable s.
Proof.
  intros Hs. unfold make_topology. destruct (bad_size size) eqn:B; [|discriminate]. intro E0.
  assert (E1 : (lo = num_lines_per_panel size ^ 2 * 6)%Z) by congruence.
  assert (E2 : (hi = (num_lines_per_panel size + 1) ^ 2 * 6)%Z) by congruence. subst lo hi. clear E0.
  pose proof (lines_bounds size ltac:(lia)) as (L0 & L1 & L2).
  set (l := num_lines_per_panel size) in *.
  assert (1 <= l)%Z by nia.
  rewrite !Z.pow_2_r.
  assert (A1 : acceptable (l * l * 6)) by (exists l; split; [lia|ring]).
  assert (A2 : acceptable ((l + 1) * (l + 1) * 6)) by (exists (l + 1)%Z; split; [lia|ring]).
  repeat split; auto; try lia.
  - destruct (Z.eq_dec (l * l * 6) size) as [E|]; [|lia].
    rewrite E in A1. apply bad_size_acceptable in A1. congruence.
  - intros s Hlt (m & Hm & ->). destruct (Z_le_gt_dec m l); [assert (m * m <= l * l)%Z by nia | assert ((l + 1) * (l + 1) <= m * m)%Z by nia]; lia.
Qed.

Lemma suggestions_small : exists size rank lo hi,
  make_topology size rank = WrongCount lo hi /\ (1 <= size < 6)%Z /\ ~ acceptable lo.
Proof.
  exists 3%Z, 0%Z, 0%Z, 6%Z. repeat split; try lia. intros (m & Hm & E). nia.
Qed.

Lemma rank_bijection k : (1 <= k)%Z ->
  (forall r, (0 <= r < 6 * k * k)%Z -> exists T, make_topology (6 * k * k) r = Created T /\
      tile_ok k (Tile (t_panel T) (t_row T) (t_col T))) /\
  (forall r r' T T', (0 <= r < 6 * k * k)%Z -> (0 <= r' < 6 * k * k)%Z ->
      make_topology (6 * k * k) r = Created T -> make_topology (6 * k * k) r' = Created T' ->
      t_panel T = t_panel T' -> t_row T = t_row T' -> t_col T = t_col T' -> r = r') /\
  (forall t, tile_ok k t -> exists r T, (0 <= r < 6 * k * k)%Z /\ make_topology (6 * k * k) r = Created T /\
      t = Tile (t_panel T) (t_row T) (t_col T)).
Proof.
  intro Hk.
  assert (F : forall r, (0 <= r < 6 * k * k)%Z -> make_topology (6 * k * k) r = Created (build_topology (6 * k * k) r) /\
     Tile (t_panel (build_topology (6 * k * k) r)) (t_row (build_topology (6 * k * k) r)) (t_col (build_topology (6 * k * k) r))
       = tile_of_rank k r).
  { intros r Hr. split; [unfold make_topology; now rewrite good_size_of|].
    pose proof (built_fields k Hk _ (tile_of_rank_ok k r Hk Hr)) as (A & B & C & _).
    rewrite rank_of_tile_of_rank in A, B, C by exact Hk. rewrite A, B, C. now destruct (tile_of_rank k r). }
  repeat split.
  - intros r Hr. destruct (F r Hr) as [E1 E2]. eexists. split; [exact E1|]. rewrite E2. now apply tile_of_rank_ok.
  - intros r r' T T' Hr Hr' E E' P R C.
    destruct (F r Hr) as [E1 E2]. destruct (F r' Hr') as [E1' E2'].
    rewrite E in E1. rewrite E' in E1'.
    assert (T = build_topology (6 * k * k) r) by congruence. assert (T' = build_topology (6 * k * k) r') by congruence.
    subst T T'.
    rewrite <- (rank_of_tile_of_rank k r), <- (rank_of_tile_of_rank k r') by exact Hk.
    rewrite <- E2, <- E2'. now rewrite P, R, C.
  - intros t Hok. pose proof (rank_of_tile_range k t Hk Hok) as Hr. destruct (F _ Hr) as [E1 E2].
    exists (rank_of_tile k t). eexists. split; [exact Hr|]. split; [exact E1|]. rewrite E2. symmetry. now apply tile_of_rank_of.
Qed.

(** * End-to-end failure of the covariant exchange *)

Definition bad_V (_ : R * R * R) : R * R * R := (0, 1, 0).
Definition cov_data (g : grid_coords) (r : Z) (d : side) : list (R * R * unit) :=
  let t := tile_of_rank 1 r in
  let '(X, Y) := boundary_xy g t d 0 in
  [(cov1 (panel t) X Y (bad_V (0, 0, 0)), cov2 (panel t) X Y (bad_V (0, 0, 0)), tt)].

Lemma cov_data_holds g t d : tile_ok 1 t ->
  holds_cov bad_V (fun _ => tt) g 1 t d (cov_data g (rank_of_tile 1 t) d).
Proof.
  intro Hok. unfold cov_data. rewrite tile_of_rank_of by (lia || assumption).
  destruct (boundary_xy g t d 0) as [X Y] eqn:E. split; [reflexivity|].
  intros [|i] a1 a2 b; simpl; [|destruct i; discriminate].
  intros [= <- <- <-]. rewrite E. now repeat split.
Qed.

Lemma cov_exchange_bad :
  exists g data t d l,
    grid_symmetric 1 1 g /\ tile_ok 1 t /\
    (forall t' d', tile_ok 1 t' -> holds_cov bad_V (fun _ => tt) g 1 t' d' (data (rank_of_tile 1 t') d')) /\
    exchange_vectors 6 true (fun r => coords_sn g 1 (tile_of_rank 1 r)) (fun r => coords_we g 1 (tile_of_rank 1 r))
      data (rank_of_tile 1 t) d = Some l /\
    ~ holds_cov bad_V (fun _ => tt) g 1 t d l.
Proof.
  set (g := uniform_grid 1 1).
  exists g, (cov_data g), (Tile 5 0 0), South.
  assert (Hg : grid_symmetric 1 1 g) by (apply uniform_grid_symmetric; lia).
  assert (Hok : tile_ok 1 (Tile 5 0 0)) by (unfold tile_ok; simpl; lia).
  eexists. split; [exact Hg|]. split; [exact Hok|]. split; [intros; now apply cov_data_holds|].
  split; [unfold exchange_vectors; exact (alltoall_spec 1 _ (Tile 5 0 0) South ltac:(lia) Hok)|].
  intros [_ H].
  change (nb 1 (Tile 5 0 0) South) with (Tile 2 0 0) in H.
  change (back_side 1 (Tile 5 0 0) South) with South in H.
  change (rank_of_tile 1 (Tile 2 0 0)) with 2%Z in H.
  change (tile_of_rank 1 2) with (Tile 2 0 0) in H.
  change (t_flip (build_topology 6 2) South) with true in H.
  unfold cov_data in H. change (tile_of_rank 1 2) with (Tile 2 0 0) in H.
  assert (P0 : pt g 0 0 = 0) by (unfold g, uniform_grid; simpl; field).
  destruct Hg as (G0 & _).
  specialize (H 0%nat).
  unfold boundary_of, coords_sn, convert_line, flip_if, flip_line in H. cbn [boundary_xy row col panel seq map] in H.
  rewrite G0, P0 in H. simpl combine in H. simpl map in H. simpl rev in H. simpl nth_error in H.
  specialize (H _ _ _ eq_refl). destruct H as [H _].
  revert H. unfold bad_V. change (t_cov (build_topology 6 2) South) with (lookup2 convert_covs 2 South convert_default).
  unfold cov1, cov2, dot3, tangent, add3, scal; ptbl.
  replace (1 + 0 * 0 + -1 * -1) with 2 by ring.
  assert (S : 0 < sqrt 2) by (apply sqrt_lt_R0; lra).
  intro E. apply Rmult_eq_compat_l with (r := sqrt 2) in E.
  field_simplify in E; lra.
Qed.

Lemma cov_object_bad : exists k r T N x w X' Y',
  (1 <= k)%Z /\ (0 <= r < 6 * k * k)%Z /\
  make_topology (6 * k * k) r = Created T /\ make_topology (6 * k * k) (t_dest T South) = Created N /\
  cube_point 1 (t_panel N) X' Y' = cube_point 1 (t_panel T) x (-1) /\
  fst (t_cov T South (cov1 (t_panel T) x (-1) w) (cov2 (t_panel T) x (-1) w) x) <> cov1 (t_panel N) X' Y' w.
Proof.
  destruct cov_table_bad as (x & w & X' & Y' & H1 & H2).
  exists 1%Z, 2%Z, (build_topology 6 2), (build_topology 6 5), x, w, X', Y'.
  repeat split; try lia; try reflexivity; assumption.
Qed.
