(** Properties C01-C08: process topology and halo exchanges (wx_factory/process_topology.py). *)
From Coq Require Import ZArith List Bool Reals Lia.
From Coquelicot Require Import Coquelicot.
From Verif Require Import TopologyModel TopologySpec TopologyProofs ExchangeProofs TangentProofs.
Import ListNotations.
Open Scope Z_scope.

(** C01 *)
Theorem C01_accepted_counts : forall size rank,
  (exists T, make_topology size rank = Created T) <-> acceptable size.
Proof. exact accept_iff. Qed.
Print Assumptions C01_accepted_counts.
Example C01_ex1 : acceptable 96 /\ ~ acceptable 12.
Proof. split; [exists 4; lia | intros (k & Hk & E); assert (k = 1 \/ 2 <= k) as [-> | ] by lia; nia]. Qed.

Theorem C01_suggested_counts : forall size rank lo hi,
  6 <= size -> make_topology size rank = WrongCount lo hi ->
  acceptable lo /\ acceptable hi /\ lo < size < hi /\ forall s, lo < s < hi -> ~ acceptable s.
Proof. exact suggestions. Qed.
Print Assumptions C01_suggested_counts.
Example C01_ex2 : make_topology 30 7 = WrongCount 24 54.
Proof. vm_compute. reflexivity. Qed.

(** Below six processes the lower of the two "allowed" counts of the message is not allowed. *)
Theorem C01_small_suggestion_refuted : exists size rank lo hi,
  make_topology size rank = WrongCount lo hi /\ 1 <= size < 6 /\ ~ acceptable lo.
Proof. exact suggestions_small. Qed.
Print Assumptions C01_small_suggestion_refuted.

(** C02 *)
Theorem C02_rank_tile_bijection : forall k, 1 <= k ->
  (forall r, 0 <= r < 6 * k * k -> exists T, make_topology (6 * k * k) r = Created T /\
      tile_ok k (Tile (t_panel T) (t_row T) (t_col T))) /\
  (forall r r' T T', 0 <= r < 6 * k * k -> 0 <= r' < 6 * k * k ->
      make_topology (6 * k * k) r = Created T -> make_topology (6 * k * k) r' = Created T' ->
      t_panel T = t_panel T' -> t_row T = t_row T' -> t_col T = t_col T' -> r = r') /\
  (forall t, tile_ok k t -> exists r T, 0 <= r < 6 * k * k /\ make_topology (6 * k * k) r = Created T /\
      t = Tile (t_panel T) (t_row T) (t_col T)).
Proof. exact rank_bijection. Qed.
Print Assumptions C02_rank_tile_bijection.
Example C02_ex : match make_topology 96 27 with
  | Created T => (t_panel T, t_row T, t_col T) = (1, 2, 3) | _ => False end.
Proof. vm_compute. reflexivity. Qed.

(** C03 *)
Theorem C03_neighbour_graph : forall k r T N d,
  1 <= k -> 0 <= r < 6 * k * k ->
  make_topology (6 * k * k) r = Created T -> make_topology (6 * k * k) (t_dest T d) = Created N ->
  let b := t_dest T d in
  0 <= b < 6 * k * k /\ b <> r /\ (forall d', t_dest T d' = b -> d' = d) /\
  (exists d', t_dest N d' = r) /\ (forall d1 d2, t_dest N d1 = r -> t_dest N d2 = r -> d1 = d2).
Proof. exact obj_graph. Qed.
Print Assumptions C03_neighbour_graph.
Example C03_ex : match make_topology 24 4 with
  | Created T => map (t_dest T) all_sides = [23; 6; 1; 5] | _ => False end.
Proof. vm_compute. reflexivity. Qed.

(** C04 *)
Theorem C04_shared_edge : forall k r T N d,
  1 <= k -> 0 <= r < 6 * k * k ->
  make_topology (6 * k * k) r = Created T -> make_topology (6 * k * k) (t_dest T d) = Created N ->
  let tT := Tile (t_panel T) (t_row T) (t_col T) in
  let tN := Tile (t_panel N) (t_row N) (t_col N) in
  exists d',
    t_dest N d' = r /\
    (if t_flip T d then side_start k tN d' = side_end k tT d /\ side_end k tN d' = side_start k tT d
     else side_start k tN d' = side_start k tT d /\ side_end k tN d' = side_end k tT d) /\
    (forall t' e, tile_ok k t' -> side_centre k t' e = side_centre k tT d ->
       (t' = tT /\ e = d) \/ (t' = tN /\ e = d')).
Proof. exact obj_geometry. Qed.
Print Assumptions C04_shared_edge.
Example C04_ex : match make_topology 24 4, make_topology 24 23 with
  | Created T, Created N =>
      t_dest T South = 23 /\ t_flip T South = true /\
      side_start 2 (Tile (t_panel N) (t_row N) (t_col N)) East = side_end 2 (Tile 1 0 0) South
  | _, _ => False end.
Proof. vm_compute. repeat split. Qed.

(** C05 *)
Theorem C05_scalar_exchange : forall (A : Type) (f : R * R * R -> A) k n g t d,
  1 <= k -> tile_ok k t -> grid_symmetric k n g ->
  exchange_scalars (6 * k * k) flip_line (fun r => samples f g n (tile_of_rank k r)) (rank_of_tile k t) d
  = Some (samples f g n t d).
Proof. exact @exchange_scalars_correct. Qed.
Print Assumptions C05_scalar_exchange.

Theorem C05_scalar_exchange_3d : forall (A : Type) (f : nat -> R * R * R -> A) k ne nv ns g t d,
  1 <= k -> tile_ok k t -> grid_symmetric k (ne * ns) g ->
  exchange_scalars (6 * k * k) flip_3d (fun r => samples3 f g ne nv ns (tile_of_rank k r)) (rank_of_tile k t) d
  = Some (samples3 f g ne nv ns t d).
Proof. exact @exchange_scalars3_correct. Qed.
Print Assumptions C05_scalar_exchange_3d.
Example C05_ex1 : forall k n, 1 <= k -> (1 <= n)%nat -> grid_symmetric k n (uniform_grid k n).
Proof. exact uniform_grid_symmetric. Qed.
(** rank 4 (panel 1) receives on its south side what rank 23 (panel 5) sent east, in reverse order *)
Example C05_ex2 : exchange_scalars 24 flip_line (fun r d => [(r, d, 0); (r, d, 1); (r, d, 2)]) 4 South
  = Some [(23, East, 2); (23, East, 1); (23, East, 0)].
Proof. vm_compute. reflexivity. Qed.

(** C06 *)
Theorem C06_tangent_is_derivative : forall p x1 x2 a1 a2 i,
  0 <= p < 6 -> cos x1 <> 0%R -> cos x2 <> 0%R ->
  is_derive (fun t => proj3 i (sphere_point p (tan (x1 + t * a1)) (tan (x2 + t * a2)))%R) 0%R
            (proj3 i (tangent p (tan x1) (tan x2) a1 a2)).
Proof. exact tangent_derivative. Qed.
Print Assumptions C06_tangent_is_derivative.

Theorem C06_components_unique : forall p X Y a1 a2 b1 b2, 0 <= p < 6 ->
  tangent p X Y a1 a2 = tangent p X Y b1 b2 -> a1 = b1 /\ a2 = b2.
Proof. exact tangent_inj. Qed.
Print Assumptions C06_components_unique.

Theorem C06_contravariant_conversion : forall k r T N d,
  1 <= k -> 0 <= r < 6 * k * k ->
  make_topology (6 * k * k) r = Created T -> make_topology (6 * k * k) (t_dest T d) = Created N ->
  forall x a1 a2, t_panel N <> t_panel T ->
  let '(X, Y) := panel_side_xy d x in
  let '(b1, b2) := t_contra T d a1 a2 x in
  (exists X' Y', cube_point 1 (t_panel N) X' Y' = cube_point 1 (t_panel T) X Y) /\
  (forall X' Y', cube_point 1 (t_panel N) X' Y' = cube_point 1 (t_panel T) X Y ->
     tangent (t_panel N) X' Y' b1 b2 = tangent (t_panel T) X Y a1 a2).
Proof. exact obj_contra. Qed.
Print Assumptions C06_contravariant_conversion.

Theorem C06_inside_panel : forall k r T N d,
  1 <= k -> 0 <= r < 6 * k * k ->
  make_topology (6 * k * k) r = Created T -> make_topology (6 * k * k) (t_dest T d) = Created N ->
  forall x a1 a2, t_panel N = t_panel T -> t_contra T d a1 a2 x = (a1, a2) /\ t_cov T d a1 a2 x = (a1, a2).
Proof. exact obj_contra_inside. Qed.
Print Assumptions C06_inside_panel.
Example C06_ex : match make_topology 24 4, make_topology 24 23 with
  | Created T, Created N => t_dest T South = 23 /\ t_panel T = 1 /\ t_panel N = 5
  | _, _ => False end.
Proof. vm_compute. repeat split. Qed.

(** C07.  The full property (without the hypothesis on panel 2) is false: see C07_covariant_refuted. *)
Theorem C07_covariant_conversion_partial : forall k r T N d,
  1 <= k -> 0 <= r < 6 * k * k ->
  make_topology (6 * k * k) r = Created T -> make_topology (6 * k * k) (t_dest T d) = Created N ->
  forall x w, t_panel N <> t_panel T -> ~ (t_panel T = 2 /\ d = South) ->
  let '(X, Y) := panel_side_xy d x in
  (exists X' Y', cube_point 1 (t_panel N) X' Y' = cube_point 1 (t_panel T) X Y) /\
  (forall X' Y', cube_point 1 (t_panel N) X' Y' = cube_point 1 (t_panel T) X Y ->
     t_cov T d (cov1 (t_panel T) X Y w) (cov2 (t_panel T) X Y w) x = (cov1 (t_panel N) X' Y' w, cov2 (t_panel N) X' Y' w)).
Proof. exact obj_cov. Qed.
Print Assumptions C07_covariant_conversion_partial.
Example C07_ex : match make_topology 24 12, make_topology 24 20 with
  | Created T, Created N => t_dest T South = 20 /\ t_panel T = 3 /\ t_panel N = 5
  | _, _ => False end.
Proof. vm_compute. repeat split. Qed.

Theorem C07_covariant_refuted : exists k r T N x w X' Y',
  1 <= k /\ 0 <= r < 6 * k * k /\
  make_topology (6 * k * k) r = Created T /\ make_topology (6 * k * k) (t_dest T South) = Created N /\
  cube_point 1 (t_panel N) X' Y' = cube_point 1 (t_panel T) x (-1) /\
  fst (t_cov T South (cov1 (t_panel T) x (-1) w) (cov2 (t_panel T) x (-1) w) x) <> cov1 (t_panel N) X' Y' w.
Proof. exact cov_object_bad. Qed.
Print Assumptions C07_covariant_refuted.

(** C08 *)
Theorem C08_contravariant_exchange : forall (B : Type) V (W : R * R * R -> B) k n g data t d,
  1 <= k -> tile_ok k t -> grid_symmetric k n g ->
  (forall t' d', tile_ok k t' -> holds_contra V W g n t' d' (data (rank_of_tile k t') d')) ->
  exists l,
    exchange_vectors (6 * k * k) false (fun r => coords_sn g n (tile_of_rank k r)) (fun r => coords_we g n (tile_of_rank k r))
      data (rank_of_tile k t) d = Some l
    /\ holds_contra V W g n t d l.
Proof. exact @exchange_contra_correct. Qed.
Print Assumptions C08_contravariant_exchange.

Theorem C08_covariant_exchange_partial : forall (B : Type) V (W : R * R * R -> B) k n g data t d,
  1 <= k -> tile_ok k t -> grid_symmetric k n g ->
  ~ (panel t = 5 /\ d = South /\ row t = 0) ->
  (forall t' d', tile_ok k t' -> holds_cov V W g n t' d' (data (rank_of_tile k t') d')) ->
  exists l,
    exchange_vectors (6 * k * k) true (fun r => coords_sn g n (tile_of_rank k r)) (fun r => coords_we g n (tile_of_rank k r))
      data (rank_of_tile k t) d = Some l
    /\ holds_cov V W g n t d l.
Proof. exact @exchange_cov_correct. Qed.
Print Assumptions C08_covariant_exchange_partial.

(** The one excluded boundary really is wrong; the witness also shows that data satisfying [holds_cov] exist. *)
Theorem C08_covariant_exchange_refuted : exists g data t d l,
  grid_symmetric 1 1 g /\ tile_ok 1 t /\
  (forall t' d', tile_ok 1 t' -> holds_cov bad_V (fun _ => tt) g 1 t' d' (data (rank_of_tile 1 t') d')) /\
  exchange_vectors 6 true (fun r => coords_sn g 1 (tile_of_rank 1 r)) (fun r => coords_we g 1 (tile_of_rank 1 r))
    data (rank_of_tile 1 t) d = Some l /\
  ~ holds_cov bad_V (fun _ => tt) g 1 t d l.
Proof. exact cov_exchange_bad. Qed.
Print Assumptions C08_covariant_exchange_refuted.
