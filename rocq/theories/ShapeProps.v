(** Properties C09, C10: exchange shapes, gathering and distributing fields (wx_factory/process_topology.py). *)
From Coq Require Import ZArith List Lia.
From Verif Require Import ShapeModel ShapeSpec ShapeProofs.
Import ListNotations.

(** C09 *)
Theorem C09_base_shape : forall shape boundary r,
  positive shape -> get_base_shape shape boundary = Shape r ->
  (exists pre suf, fits shape pre suf boundary /\ r = pre ++ boundary) /\ prod r = prod shape.
Proof. exact base_shape_ok. Qed.
Print Assumptions C09_base_shape.

Theorem C09_succeeds_iff : forall shape boundary, positive shape ->
  (exists r, get_base_shape shape boundary = Shape r) <-> (exists pre suf, fits shape pre suf boundary).
Proof. exact base_shape_iff. Qed.
Print Assumptions C09_succeeds_iff.
Example C09_ex1 : positive [5; 8; 4; 3]%Z /\ get_base_shape [5; 8; 4; 3]%Z [12]%Z = Shape [5; 8; 12]%Z
  /\ get_base_shape [5; 8; 4; 3]%Z [8; 4; 3]%Z = Shape [5; 8; 4; 3]%Z /\ get_base_shape [5; 8; 4; 3]%Z [24]%Z = ShapeValueError.
Proof. repeat split; try reflexivity. repeat constructor. Qed.

(** The documented exception (ValueError) is not the one raised when the array is too small. *)
Theorem C09_documented_exception_refuted : exists shape boundary,
  positive shape /\ (forall pre suf, ~ fits shape pre suf boundary) /\ get_base_shape shape boundary <> ShapeValueError.
Proof. exact small_shape_index_error. Qed.
Print Assumptions C09_documented_exception_refuted.

(** C10 *)
Theorem C10_distribute_gather : forall (E : Type) nl m k (tiles : list (array E)),
  1 <= k -> length tiles = 6 * (k * k) -> Forall (has_shape nl m m) tiles ->
  distribute_cube k {| c_first := 6; c_rows := k * m; c_cols := k * m; c_panels := gather_cube k tiles |} = Some tiles.
Proof. exact @distribute_gather. Qed.
Print Assumptions C10_distribute_gather.

Theorem C10_gather_distribute : forall (E : Type) nl m k (panels : list (array E)),
  1 <= k -> length panels = 6 -> Forall (has_shape nl (k * m) (k * m)) panels ->
  exists tiles, distribute_cube k {| c_first := 6; c_rows := k * m; c_cols := k * m; c_panels := panels |} = Some tiles /\
    length tiles = 6 * (k * k) /\ Forall (has_shape nl m m) tiles /\ gather_cube k tiles = panels.
Proof. exact @gather_distribute. Qed.
Print Assumptions C10_gather_distribute.

Theorem C10_gathered_entry : forall (E : Type) nl m k (tiles : list (array E)) p i j t l r c,
  1 <= k -> length tiles = 6 * (k * k) -> Forall (has_shape nl m m) tiles ->
  p < 6 -> i < k -> j < k -> nth_error tiles (p * (k * k) + i * k + j) = Some t -> l < nl -> r < m -> c < m ->
  exists panel, nth_error (gather_cube k tiles) p = Some panel /\ entry panel l (i * m + r) (j * m + c) = entry t l r c.
Proof. exact @gather_entry. Qed.
Print Assumptions C10_gathered_entry.

Theorem C10_distribute_rejects : forall (E : Type) k (c : cube E), 1 <= k ->
  distribute_cube k c = None <-> ~ (c_first c = 6 /\ c_rows c = c_cols c /\ exists m, c_rows c = k * m).
Proof. exact @distribute_fails. Qed.
Print Assumptions C10_distribute_rejects.
Example C10_ex :
  let tiles := map (fun r => [[[(r, 0, 0); (r, 0, 1)]; [(r, 1, 0); (r, 1, 1)]]]) (seq 0 24) in
  length tiles = 6 * (2 * 2) /\ Forall (has_shape 1 2 2) tiles /\
  nth_error (gather_cube 2 tiles) 1 = Some [[[(4,0,0); (4,0,1); (5,0,0); (5,0,1)]; [(4,1,0); (4,1,1); (5,1,0); (5,1,1)];
                                            [(6,0,0); (6,0,1); (7,0,0); (7,0,1)]; [(6,1,0); (6,1,1); (7,1,0); (7,1,1)]]].
Proof.
  repeat split; try reflexivity.
  apply Forall_forall. intros x H. apply in_map_iff in H as (r & <- & _). repeat constructor.
Qed.

(** One-dimensional fields: only the tiles of the first row of the panel are joined (documented as "the arrays will be
    joined end-to-end"), so from four tiles per panel on, data of some tiles is lost. *)
Theorem C10_gather_1d : forall (E : Type) k (fields : list (list E)), 2 <= k -> length fields = k * k ->
  gather_panel_1d k fields = concat (firstn k fields).
Proof. exact @gather_1d_prefix. Qed.
Print Assumptions C10_gather_1d.
Theorem C10_gather_1d_complete_refuted : exists k (fields : list (list nat)),
  length fields = k * k /\ gather_panel_1d k fields <> concat fields.
Proof. exact gather_1d_loses. Qed.
Print Assumptions C10_gather_1d_complete_refuted.
