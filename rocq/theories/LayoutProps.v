(** C41: memory layouts. *)
From Coq Require Import List Arith Lia.
From Verif Require Import LayoutModel LayoutSpec LayoutFinal LayoutConvert LayoutItf LayoutFloor.
Import ListNotations.

(** ** Each point's value goes to the element and solution point that owns it *)
(** a table of numbers whose value tells its position in memory *)
Definition counting (s : list nat) : arr nat := Arr s (flatten s).

Theorem C41_to_elements_2d : forall A n1 n2 ns l (a : arr A), n1 = n2 -> l = [] \/ (exists m, l = [m]) -> shape a = l ++ [n2 * ns; n1 * ns] ->
  exists b, to_new_2d n1 n2 ns a = Some b /\ elements_2d n1 n2 ns l a b.
Proof. exact @to_new_2d_ok. Qed.
Print Assumptions C41_to_elements_2d.
Example C41_to_elements_2d_example : option_map (fun b => (shape b, get b [1; 0; 2])) (to_new_2d 2 2 2 (counting [4; 4])) = Some ([2; 2; 4], 12).
Proof. reflexivity. Qed.

Theorem C41_to_elements_2d_four : forall A n1 n2 ns d (a : arr A), n1 = n2 -> shape a = [d; 1; n2 * ns; n1 * ns] -> exists b, to_new_2d n1 n2 ns a = Some b /\
  elements_2d n1 n2 ns [d] (Arr [d; n2 * ns; n1 * ns] (fun i => match i with m :: r => get a (m :: 0 :: r) | [] => get a [] end)) b.
Proof. exact @to_new_2d_four. Qed.
Print Assumptions C41_to_elements_2d_four.
Example C41_to_elements_2d_four_example : option_map (fun b => (shape b, get b [2; 1; 0; 2])) (to_new_2d 2 2 2 (counting [3; 1; 4; 4])) = Some ([3; 2; 2; 4], 44).
Proof. reflexivity. Qed.

Theorem C41_to_block_2d : forall A n1 n2 ns l (b : arr A), shape b = l ++ [n2; n1; ns * ns] -> exists a, to_single_block_2d n1 n2 ns b = Some a /\ elements_2d n1 n2 ns l a b.
Proof. exact @to_single_block_2d_ok. Qed.
Print Assumptions C41_to_block_2d.
Example C41_to_block_2d_example : option_map (fun a => (shape a, get a [3; 0; 2])) (to_single_block_2d 3 2 2 (counting [5; 2; 3; 4])) = Some ([5; 4; 6], 76).
Proof. reflexivity. Qed.

Theorem C41_to_block_cartesian : forall A n1 n2 ns l (b : arr A), shape b = l ++ [n2; n1; ns * ns] -> exists a, to_single_block_cartesian n1 n2 ns b = Some a /\ elements_2d n1 n2 ns l a b.
Proof. exact @to_single_block_cartesian_ok. Qed.
Print Assumptions C41_to_block_cartesian.
Example C41_to_block_cartesian_example : option_map (fun a => (shape a, get a [3; 0; 2])) (to_single_block_cartesian 3 2 2 (counting [5; 2; 3; 4])) = Some ([5; 4; 6], 76).
Proof. reflexivity. Qed.

Theorem C41_to_elements_3d : forall A n1 n2 n3 ns l (a : arr A), shape a = l ++ [n3 * ns; n2 * ns; n1 * ns] -> exists b, to_new_3d n1 n2 n3 ns a = Some b /\ elements_3d n1 n2 n3 ns l a b.
Proof. exact @to_new_3d_ok. Qed.
Print Assumptions C41_to_elements_3d.
Example C41_to_elements_3d_example : option_map (fun b => (shape b, get b [2; 1; 0; 3])) (to_new_3d 2 2 3 2 (counting [6; 4; 4])) = Some ([3; 2; 2; 8], 77).
Proof. reflexivity. Qed.

Theorem C41_to_block_3d : forall A n1 n2 n3 ns l (b : arr A), shape b = l ++ [n3; n2; n1; ns ^ 3] -> exists a, to_single_block_3d n1 n2 n3 ns b = Some a /\ elements_3d n1 n2 n3 ns l a b.
Proof. exact @to_single_block_3d_ok. Qed.
Print Assumptions C41_to_block_3d.
Example C41_to_block_3d_example : option_map (fun a => (shape a, get a [4; 3; 1])) (to_single_block_3d 2 2 3 2 (counting [3; 2; 2; 8])) = Some ([6; 4; 4], 83).
Proof. reflexivity. Qed.

Theorem C41_to_elements_floor : forall A n1 n2 ns l (a : arr A), shape a = l ++ [n2 * ns; n1 * ns] -> exists b, to_new_floor n1 n2 ns a = Some b /\ elements_2d n1 n2 ns l a b.
Proof. exact @to_new_floor_ok. Qed.
Print Assumptions C41_to_elements_floor.
Example C41_to_elements_floor_example : option_map (fun b => (shape b, get b [1; 0; 2])) (to_new_floor 2 2 2 (counting [4; 4])) = Some ([2; 2; 4], 12).
Proof. reflexivity. Qed.

(** ** There and back *)
Theorem C41_round_trip_2d : forall A n1 n2 ns l (a : arr A), n1 = n2 -> l = [] \/ (exists m, l = [m]) -> shape a = l ++ [n2 * ns; n1 * ns] ->
  exists b c, to_new_2d n1 n2 ns a = Some b /\ to_single_block_2d n1 n2 ns b = Some c /\ same a c.
Proof. exact @round_2d. Qed.
Print Assumptions C41_round_trip_2d.

Theorem C41_round_trip_2d_back : forall A n1 n2 ns l (b : arr A), n1 = n2 -> l = [] \/ (exists m, l = [m]) -> shape b = l ++ [n2; n1; ns * ns] ->
  exists a c, to_single_block_2d n1 n2 ns b = Some a /\ to_new_2d n1 n2 ns a = Some c /\ same b c.
Proof. exact @round_2d_back. Qed.
Print Assumptions C41_round_trip_2d_back.

Theorem C41_round_trip_3d : forall A n1 n2 n3 ns l (a : arr A), shape a = l ++ [n3 * ns; n2 * ns; n1 * ns] ->
  exists b c, to_new_3d n1 n2 n3 ns a = Some b /\ to_single_block_3d n1 n2 n3 ns b = Some c /\ same a c.
Proof. exact @round_3d. Qed.
Print Assumptions C41_round_trip_3d.

Theorem C41_round_trip_3d_back : forall A n1 n2 n3 ns l (b : arr A), shape b = l ++ [n3; n2; n1; ns ^ 3] ->
  exists a c, to_single_block_3d n1 n2 n3 ns b = Some a /\ to_new_3d n1 n2 n3 ns a = Some c /\ same b c.
Proof. exact @round_3d_back. Qed.
Print Assumptions C41_round_trip_3d_back.
Example C41_round_trip_3d_back_example : exists a c, to_single_block_3d 2 2 3 2 (counting [3; 2; 2; 8]) = Some a /\ to_new_3d 2 2 3 2 a = Some c /\ same (counting [3; 2; 2; 8]) c.
Proof. exact (round_3d_back 2 2 3 2 [] (counting [3; 2; 2; 8]) eq_refl). Qed.

(** ** Other shapes raise an error *)
Theorem C41_bad_shapes_2d : forall A n1 n2 ns (a b : arr A), to_new_2d n1 n2 ns a = Some b -> exists l, shape a = l ++ [n2 * ns; n1 * ns] /\ (l = [] \/ (exists d, l = [d]) \/ exists d, l = [d; 1]).
Proof. exact @to_new_2d_shape. Qed.
Print Assumptions C41_bad_shapes_2d.
Example C41_bad_shapes_2d_example : to_new_2d 2 2 2 (counting [4; 5]) = None.
Proof. reflexivity. Qed.

Theorem C41_bad_shapes : forall A n1 n2 n3 ns (a b : arr A),
  (to_new_3d n1 n2 n3 ns a = Some b -> exists l, shape a = l ++ [n3 * ns; n2 * ns; n1 * ns]) /\
  (to_single_block_3d n1 n2 n3 ns a = Some b -> exists l, shape a = l ++ [n3; n2; n1; ns ^ 3]) /\
  (to_single_block_2d n1 n2 ns a = Some b -> exists l, shape a = l ++ [n2; n1; ns * ns]) /\
  (forall zero empty, to_new_itf_i_2d n1 n2 ns zero empty a = Some b -> exists l, shape a = l ++ [n1 + 1; n2 * ns]) /\
  (forall zero empty, to_new_itf_j_2d n1 n2 ns zero empty a = Some b -> exists l, shape a = l ++ [n2 + 1; n1 * ns]) /\
  (forall zero empty, to_new_itf_i_3d n1 n2 n3 ns zero empty a = Some b -> exists l, shape a = l ++ [n3 * ns; n2 * ns; n1 + 1]) /\
  (forall zero, to_new_itf_j_3d n1 n2 n3 ns zero a = Some b -> exists l, shape a = l ++ [n3 * ns; n2 + 1; n1 * ns]) /\
  (forall zero, to_new_itf_k_3d n1 n2 n3 ns zero a = Some b -> exists l, shape a = l ++ [n3 + 1; n2 * ns; n1 * ns]).
Proof. exact @bad_shapes. Qed.
Print Assumptions C41_bad_shapes.

(** ** Both sides of an interface hold the same value, whatever numpy.empty holds *)
Theorem C41_interfaces_i_2d : forall A n1 n2 ns zero empty l (a : arr A), n2 <> 1 -> Forall (fun d => d <> 1) l -> shape a = l ++ [n1 + 1; n2 * ns] ->
  exists b, to_new_itf_i_2d n1 n2 ns zero empty a = Some b /\ itf_i_2d zero n1 n2 ns l (fun i e2 y e => get a (i ++ [e; e2 * ns + y])) b.
Proof. exact @itf_i_2d_ok. Qed.
Print Assumptions C41_interfaces_i_2d.
Example C41_interfaces_i_2d_example : option_map (fun b => (shape b, get b [1; 1; 3], get b [1; 2; 1])) (to_new_itf_i_2d 2 2 2 0 (fun _ => 99) (counting [3; 4])) = Some ([2; 4; 4], 7, 7).
Proof. reflexivity. Qed.

Theorem C41_interfaces_j_2d : forall A n1 n2 ns zero empty l (a : arr A), n1 <> 1 -> Forall (fun d => d <> 1) l -> shape a = l ++ [n2 + 1; n1 * ns] ->
  exists b, to_new_itf_j_2d n1 n2 ns zero empty a = Some b /\ itf_j_2d zero n1 n2 ns l (fun i e1 x e => get a (i ++ [e; e1 * ns + x])) b.
Proof. exact @itf_j_2d_ok. Qed.
Print Assumptions C41_interfaces_j_2d.
Example C41_interfaces_j_2d_example : option_map (fun b => (shape b, get b [1; 1; 3], get b [2; 1; 1])) (to_new_itf_j_2d 2 2 2 0 (fun _ => 99) (counting [3; 4])) = Some ([4; 2; 4], 7, 7).
Proof. reflexivity. Qed.

Theorem C41_edges_i : forall A n1 n2 ns zero l v (b : arr A), 0 < n2 -> itf_i_2d zero n1 n2 ns l v b -> itf_i_2d zero n1 n2 ns l v (zero_edges_i ns zero b).
Proof. exact @edges_i_kept. Qed.
Print Assumptions C41_edges_i.

Theorem C41_edges_j : forall A n1 n2 ns zero l v (b : arr A), 0 < n1 -> itf_j_2d zero n1 n2 ns l v b -> itf_j_2d zero n1 n2 ns l v (zero_edges_j ns zero b).
Proof. exact @edges_j_kept. Qed.
Print Assumptions C41_edges_j.

(** With one element per side (which the configuration allows), the conversion drops the axis of the elements, and the assignments to the edges of the longitudes and latitudes then erase
    all the longitudes on the south sides and all the latitudes on the north sides, for every field. *)
Theorem C41_one_element_refuted : forall A ns zero empty (a : arr A), shape a = [2; 1 + 1; 1 * ns] -> exists b, to_new_itf_j_2d 1 1 ns zero empty a = Some b /\ shape b = [2; 1 + 2; ns * 2] /\
  forall e x, x < ns -> get (zero_edges_j ns zero b) [0; e; x] = zero /\ get (zero_edges_j ns zero b) [1; e; ns + x] = zero.
Proof. exact (fun A ns zero empty a => @one_element_lost A 1 1 ns zero empty a eq_refl). Qed.
Print Assumptions C41_one_element_refuted.
Example C41_one_element_refuted_example : option_map (fun b => (get b [0; 2; 1], get (zero_edges_j 2 0 b) [0; 2; 1])) (to_new_itf_j_2d 1 1 2 0 (fun _ => 99) (counting [2; 2; 2])) = Some (3, 0).
Proof. reflexivity. Qed.

Theorem C41_interfaces_i_3d : forall A n1 n2 n3 ns zero empty l (a : arr A), shape a = l ++ [n3 * ns; n2 * ns; n1 + 1] ->
  exists b, to_new_itf_i_3d n1 n2 n3 ns zero empty a = Some b /\ itf_i_3d zero n1 n2 n3 ns l (fun i e3 e2 z y e => get a (i ++ [e3 * ns + z; e2 * ns + y; e])) b.
Proof. exact @itf_i_3d_ok. Qed.
Print Assumptions C41_interfaces_i_3d.
Example C41_interfaces_i_3d_example : option_map (fun b => (shape b, get b [1; 0; 1; 6], get b [1; 0; 2; 2])) (to_new_itf_i_3d 2 2 2 2 0 (fun _ => 99) (counting [4; 4; 3])) = Some ([2; 2; 4; 8], 37, 37).
Proof. reflexivity. Qed.

Theorem C41_interfaces_j_3d : forall A n1 n2 n3 ns zero l (a : arr A), shape a = l ++ [n3 * ns; n2 + 1; n1 * ns] ->
  exists b, to_new_itf_j_3d n1 n2 n3 ns zero a = Some b /\ itf_j_3d zero n1 n2 n3 ns l (fun i e3 e1 z x e => get a (i ++ [e3 * ns + z; e; e1 * ns + x])) b.
Proof. exact @itf_j_3d_ok. Qed.
Print Assumptions C41_interfaces_j_3d.
Example C41_interfaces_j_3d_example : option_map (fun b => (shape b, get b [1; 1; 0; 6], get b [1; 2; 0; 2])) (to_new_itf_j_3d 2 2 2 2 0 (counting [4; 3; 4])) = Some ([2; 4; 2; 8], 40, 40).
Proof. reflexivity. Qed.

Theorem C41_interfaces_k_3d : forall A n1 n2 n3 ns zero l (a : arr A), shape a = l ++ [n3 + 1; n2 * ns; n1 * ns] ->
  exists b, to_new_itf_k_3d n1 n2 n3 ns zero a = Some b /\ itf_k_3d zero n1 n2 n3 ns l (fun i e2 e1 y x e => get a (i ++ [e; e2 * ns + y; e1 * ns + x])) b.
Proof. exact @itf_k_3d_ok. Qed.
Print Assumptions C41_interfaces_k_3d.
Example C41_interfaces_k_3d_example : option_map (fun b => (shape b, get b [1; 1; 0; 6], get b [2; 1; 0; 2])) (to_new_itf_k_3d 2 2 2 2 0 (counting [3; 4; 4])) = Some ([4; 2; 2; 8], 28, 28).
Proof. reflexivity. Qed.

Theorem C41_interfaces_i_floor : forall A n1 n2 ns zero l (a : arr A), shape a = l ++ [n2 * ns; n1 + 1] ->
  exists b, to_new_itf_i_floor n1 n2 ns zero a = Some b /\ itf_i_2d zero n1 n2 ns l (fun i e2 y e => get a (i ++ [e2 * ns + y; e])) b.
Proof. exact @itf_i_floor_ok. Qed.
Print Assumptions C41_interfaces_i_floor.
Example C41_interfaces_i_floor_example : option_map (fun b => (shape b, get b [1; 1; 3], get b [1; 2; 1])) (to_new_itf_i_floor 2 2 2 0 (counting [4; 3])) = Some ([2; 4; 4], 10, 10).
Proof. reflexivity. Qed.

Theorem C41_interfaces_j_floor : forall A n1 n2 ns zero l (a : arr A), shape a = l ++ [n2 + 1; n1 * ns] ->
  exists b, to_new_itf_j_floor n1 n2 ns zero a = Some b /\ itf_j_2d zero n1 n2 ns l (fun i e1 x e => get a (i ++ [e; e1 * ns + x])) b.
Proof. exact @itf_j_floor_ok. Qed.
Print Assumptions C41_interfaces_j_floor.
Example C41_interfaces_j_floor_example : option_map (fun b => (shape b, get b [1; 1; 3], get b [2; 1; 1])) (to_new_itf_j_floor 2 2 2 0 (counting [3; 4])) = Some ([4; 2; 4], 7, 7).
Proof. reflexivity. Qed.

(** ** Floors and columns *)
Theorem C41_floor : forall A n1 n2 n3 ns l (a : arr A), 0 < n3 -> shape a = l ++ [n3; n2; n1; ns ^ 3] -> exists b, get_floor n1 n2 n3 ns a = Some b /\ is_floor n1 n2 n3 ns l a b.
Proof. exact @get_floor_ok. Qed.
Print Assumptions C41_floor.
Example C41_floor_example : option_map (fun b => (shape b, get b [1; 0; 3])) (get_floor 2 2 3 2 (counting [3; 2; 2; 8])) = Some ([2; 2; 4], 19).
Proof. reflexivity. Qed.

Theorem C41_columns : forall A n1 n2 n3 ns (a : arr A), shape a = [n2; n1; ns ^ 2] -> exists b, floor_to_bulk n1 n2 n3 ns false a = Some b /\ columns n1 n2 n3 ns a b.
Proof. exact @floor_to_bulk_ok. Qed.
Print Assumptions C41_columns.
Example C41_columns_example : option_map (fun b => (shape b, get b [2; 1; 0; 6])) (floor_to_bulk 2 2 3 2 false (counting [2; 2; 4])) = Some ([3; 2; 2; 8], 10).
Proof. reflexivity. Qed.

Theorem C41_columns_k : forall A n1 n2 n3 ns (a : arr A), shape a = [n2; n1; ns ^ 2] -> exists b, floor_to_bulk n1 n2 n3 ns true a = Some b /\ columns_k n1 n2 n3 ns a b.
Proof. exact @floor_to_bulk_k_ok. Qed.
Print Assumptions C41_columns_k.
Example C41_columns_k_example : option_map (fun b => (shape b, get b [4; 1; 0; 6])) (floor_to_bulk 2 2 3 2 true (counting [2; 2; 4])) = Some ([5; 2; 2; 8], 10).
Proof. reflexivity. Qed.

Theorem C41_floor_interfaces : forall A n3 ns m1 m2 l (a : arr A), 0 < n3 -> shape a = l ++ [n3; m2; m1; ns ^ 2 * 2] -> exists b, get_itf_floor n3 ns m1 m2 a = Some b /\ is_floor_itf m1 m2 n3 ns l a b.
Proof. exact @get_itf_floor_ok. Qed.
Print Assumptions C41_floor_interfaces.
Example C41_floor_interfaces_example : option_map (fun b => (shape b, get b [1; 3; 3])) (get_itf_floor 3 2 4 2 (counting [3; 2; 4; 8])) = Some ([2; 4; 4], 61).
Proof. reflexivity. Qed.

Theorem C41_columns_interfaces : forall A n3 ns m1 m2 (a : arr A), shape a = [m2; m1; ns * 2] -> exists b, floor_itf_to_bulk n3 ns m1 m2 a = Some b /\ columns_itf m1 m2 n3 ns a b.
Proof. exact @floor_itf_to_bulk_ok. Qed.
Print Assumptions C41_columns_interfaces.
Example C41_columns_interfaces_example : option_map (fun b => (shape b, get b [2; 1; 3; 7])) (floor_itf_to_bulk 3 2 4 2 (counting [2; 4; 4])) = Some ([3; 2; 4; 8], 31).
Proof. reflexivity. Qed.

Theorem C41_heights : forall A n1 n2 n3 ns (a : arr A), shape a = [n3 * ns] -> exists b, linear_to_full_k n1 n2 n3 ns a = Some b /\ shape b = [n3; n2; n1; ns ^ 3] /\
  forall e3 e2 e1 z y x, e3 < n3 -> e2 < n2 -> e1 < n1 -> z < ns -> y < ns -> x < ns -> get b [e3; e2; e1; (z * ns + y) * ns + x] = get a [e3 * ns + z].
Proof. exact @linear_to_full_k_ok. Qed.
Print Assumptions C41_heights.
Example C41_heights_example : option_map (fun b => (shape b, get b [2; 1; 0; 6])) (linear_to_full_k 2 2 3 2 (counting [6])) = Some ([3; 2; 2; 8], 5).
Proof. reflexivity. Qed.

(** ** The coordinates of the points: x1 grows with the column of elements, x2 with the row *)
Theorem C41_coordinates : forall A n1 n2 ns (plus : A -> A -> A) o1 r1 o2 r2, n1 = n2 -> exists b,
  to_new_2d n1 n2 ns (stack2 (meshgrid (tensor_points ns plus o1 r1 n1) (tensor_points ns plus o2 r2 n2))) = Some b /\ shape b = [2; n2; n1; ns * ns] /\
  forall e2 e1 y x, e2 < n2 -> e1 < n1 -> y < ns -> x < ns -> get b [0; e2; e1; y * ns + x] = plus (o1 e1) (r1 x) /\ get b [1; e2; e1; y * ns + x] = plus (o2 e2) (r2 y).
Proof. exact @coordinates. Qed.
Print Assumptions C41_coordinates.
Example C41_coordinates_example : option_map (fun b => (get b [0; 1; 0; 1], get b [1; 1; 0; 1])) (to_new_2d 2 2 2 (stack2 (meshgrid (tensor_points 2 Nat.add (fun e => 10 * e) (fun x => x) 2) (tensor_points 2 Nat.add (fun e => 10 * e) (fun x => x) 2)))) = Some (1, 10).
Proof. reflexivity. Qed.
