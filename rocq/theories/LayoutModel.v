(** Memory layouts of fields: wx_factory/geometry/{cubed_sphere_2d, cubed_sphere_3d, cartesian_2d_mesh}.py.
    An array is its shape and its value at each multi-index; numpy arrays are in C order. [None]: an exception is raised. *)
From Coq Require Import List Arith.
Import ListNotations.

Record arr (A : Type) := Arr { shape : list nat; get : list nat -> A }.
Arguments Arr {A} _ _.
Arguments shape {A} _.
Arguments get {A} _ _.

(** ** numpy *)
Definition prod (s : list nat) : nat := fold_right Nat.mul 1 s.
(** position of a multi-index in memory, and back *)
Fixpoint flatten (s i : list nat) : nat := match s, i with _ :: s', x :: i' => x * prod s' + flatten s' i' | _, _ => 0 end.
Fixpoint unflatten (s : list nat) (n : nat) : list nat := match s with [] => [] | _ :: s' => n / prod s' :: unflatten s' (n mod prod s') end.
Section Arrays.
Context {A : Type}.
(** ndarray.reshape *)
Definition reshape (s : list nat) (a : arr A) : option (arr A) :=
  if prod s =? prod (shape a) then Some (Arr s (fun i => get a (unflatten (shape a) (flatten s i)))) else None.
(** position of k in l *)
Fixpoint index_of (k : nat) (l : list nat) : nat := match l with [] => 0 | x :: l' => if x =? k then 0 else S (index_of k l') end.
(** ndarray.transpose: axis number k of the result is the axis number perm[k] of a *)
Definition transpose (perm : list nat) (a : arr A) : arr A :=
  Arr (map (fun k => nth k (shape a) 0) perm) (fun i => get a (map (fun k => nth (index_of k perm) i 0) (seq 0 (length (shape a))))).
(** numpy.moveaxis: [moves] lists (destination, source) in increasing order of the destination *)
Definition move_order (n : nat) (moves : list (nat * nat)) : list nat :=
  fold_left (fun o m => firstn (fst m) o ++ snd m :: skipn (fst m) o) moves
    (filter (fun k => negb (existsb (fun m => snd m =? k) moves)) (seq 0 n)).
Definition moveaxis (moves : list (nat * nat)) (a : arr A) : arr A := transpose (move_order (length (shape a)) moves) a.
(** numpy.swapaxes *)
Definition swapaxes (x y : nat) (a : arr A) : arr A :=
  transpose (map (fun k => if k =? x then y else if k =? y then x else k) (seq 0 (length (shape a)))) a.
(** numpy.repeat(a, m, axis) *)
Definition repeat_axis (m axis : nat) (a : arr A) : arr A :=
  Arr (firstn axis (shape a) ++ m * nth axis (shape a) 0 :: skipn (S axis) (shape a))
      (fun i => get a (firstn axis i ++ nth axis i 0 / m :: skipn (S axis) i)).
(** numpy.tile(a, (m, 1, ..., 1)) with as many entries as a has axes *)
Definition tile_first (m : nat) (a : arr A) : arr A :=
  match shape a with
  | [] => a
  | d :: s => Arr (m * d :: s) (fun i => match i with [] => get a [] | x :: i' => get a (x mod d :: i') end)
  end.
(** numpy.squeeze *)
Fixpoint unsqueeze (s i : list nat) : list nat :=
  match s with [] => [] | 1 :: s' => 0 :: unsqueeze s' i | _ :: s' => match i with [] => [] | x :: i' => x :: unsqueeze s' i' end end.
Definition squeeze (a : arr A) : arr A := Arr (filter (fun d => negb (d =? 1)) (shape a)) (fun i => get a (unsqueeze (shape a) i)).
Definition eq_shape (s t : list nat) : bool := if list_eq_dec Nat.eq_dec s t then true else false.
(** a.shape[:-k] and a.shape[-k:] *)
Definition lead (k : nat) (s : list nat) : list nat := firstn (length s - k) s.
Definition trail (k : nat) (s : list nat) : list nat := skipn (length s - k) s.
Definition bind (x : option (arr A)) (f : arr A -> option (arr A)) : option (arr A) := match x with Some a => f a | None => None end.

(** ** Two dimensions. n1, n2: num_elements_x1, num_elements_x2; ns: num_solpts *)
Variables (n1 n2 n3 ns : nat).
(** cubed_sphere_2d.py 472-492; floats are returned as they are (not modelled). grid_shape: 161 *)
Definition to_new_2d (a : arr A) : option (arr A) :=
  let expected := [n2 * ns; n1 * ns] in let grid_shape := [n1; n2; ns * ns] in
  if ((length (shape a) =? 2) && eq_shape (shape a) expected)%bool then
    bind (reshape [n2; ns; n1; ns] a) (fun b => reshape grid_shape (transpose [0; 2; 1; 3] b))
  else if (((length (shape a) =? 3) && eq_shape (skipn 1 (shape a)) expected)
           || ((length (shape a) =? 4) && eq_shape (skipn 2 (shape a)) expected && (nth 1 (shape a) 0 =? 1)))%bool then
    let d := nth 0 (shape a) 0 in bind (reshape [d; n2; ns; n1; ns] a) (fun b => reshape (d :: grid_shape) (transpose [0; 1; 3; 2; 4] b))
  else None.
(** cubed_sphere_2d.py 494-504 *)
Definition to_single_block_2d (a : arr A) : option (arr A) :=
  if eq_shape (trail 3 (shape a)) [n2; n1; ns * ns] then
    bind (reshape (lead 3 (shape a) ++ [n2; n1; ns; ns]) a)
      (fun b => let n := length (shape b) in reshape (lead 3 (shape a) ++ [n2 * ns; n1 * ns]) (moveaxis [(n - 2, n - 3)] b))
  else None.
(** cartesian_2d_mesh.py 70-82; n1, n2: num_elements_x, num_elements_z *)
Definition to_single_block_cartesian (a : arr A) : option (arr A) :=
  bind (reshape (lead 3 (shape a) ++ [n2; n1; ns; ns]) a)
    (fun b => let n := length (shape b) in reshape (lead 3 (shape a) ++ [n2 * ns; n1 * ns]) (swapaxes (n - 2) (n - 3) b)).

(** The assignments of the interface conversions. [axis] is the position from the end of the axis of the elements, [size] the number of points of one side, [n] the length of
    that axis. new[1:, first side] = t; new[:-1, second side] = t; new[0, first side] = 0; new[-1, second side] = 0. [empty]: what numpy.empty holds. *)
Definition set_nth (k v : nat) (l : list nat) : list nat := firstn k l ++ v :: skipn (S k) l.
Definition both_sides (zero : A) (empty : list nat -> A) (s : list nat) (axis size : nat) (edges : bool) (t : arr A) : arr A :=
  let k := length s - axis in let n := nth k s 0 in
  Arr s (fun i => let e := nth k i 0 in let p := nth (length s - 1) i 0 in let at_ e' p' := get t (set_nth (length s - 1) p' (set_nth k e' i)) in
    if p <? size then (if e =? 0 then (if edges then zero else empty i) else at_ (e - 1) p)
    else (if e =? n - 1 then (if edges then zero else empty i) else at_ e (p - size))).
(** cubed_sphere_2d.py 514-537 *)
Definition to_new_itf_i_2d (zero : A) (empty : list nat -> A) (a : arr A) : option (arr A) :=
  if eq_shape (trail 2 (shape a)) [n1 + 1; n2 * ns] then
    let l := lead 2 (shape a) in let offset := length (shape a) - 2 in
    bind (reshape (l ++ [n1 + 1; n2; ns]) a)
      (fun b => Some (squeeze (both_sides zero empty (l ++ [n2; n1 + 2; ns * 2]) 2 ns true (transpose (seq 0 offset ++ [1 + offset; 0 + offset; 2 + offset]) b))))
  else None.
(** cubed_sphere_2d.py 539-562 *)
Definition to_new_itf_j_2d (zero : A) (empty : list nat -> A) (a : arr A) : option (arr A) :=
  if eq_shape (trail 2 (shape a)) [n2 + 1; n1 * ns] then
    let l := lead 2 (shape a) in
    bind (reshape (l ++ [n2 + 1; n1; ns]) a) (fun b => Some (squeeze (both_sides zero empty (l ++ [n2 + 2; n1; ns * 2]) 3 ns true b)))
  else None.

(** cubed_sphere_2d.py 167-170 and 447-450: a[..., 0, :ns] = 0; a[..., -1, ns:] = 0 (i); a[..., 0, :, :ns] = 0; a[..., -1, :, ns:] = 0 (j). [axis] counts from the end *)
Definition zero_edges (axis : nat) (zero : A) (a : arr A) : arr A :=
  let m := length (shape a) in
  Arr (shape a) (fun i => let e := nth (m - axis) i 0 in let p := nth (m - 1) i 0 in
    if ((e =? 0) && (p <? ns) || (e =? nth (m - axis) (shape a) 0 - 1) && (ns <=? p))%bool then zero else get a i).
Definition zero_edges_i : A -> arr A -> arr A := zero_edges 2.
Definition zero_edges_j : A -> arr A -> arr A := zero_edges 3.

(** ** Three dimensions: cubed_sphere_3d.py. The shapes: 170-197 *)
(** 759-775 *)
Definition to_new_3d (a : arr A) : option (arr A) :=
  let l := lead 3 (shape a) in
  if eq_shape (trail 3 (shape a)) [n3 * ns; n2 * ns; n1 * ns] then
    bind (reshape (l ++ [n3; ns; n2; ns; n1; ns]) a)
      (fun b => let n := length (shape b) in reshape (l ++ [n3; n2; n1; ns ^ 3]) (moveaxis [(n - 3, n - 5); (n - 2, n - 3)] b))
  else None.
(** 777-793 *)
Definition to_single_block_3d (a : arr A) : option (arr A) :=
  let l := lead 4 (shape a) in
  if eq_shape (trail 4 (shape a)) [n3; n2; n1; ns ^ 3] then
    bind (reshape (l ++ [n3; n2; n1; ns; ns; ns]) a)
      (fun b => let n := length (shape b) in reshape (l ++ [n3 * ns; n2 * ns; n1 * ns]) (moveaxis [(n - 5, n - 3); (n - 3, n - 2)] b))
  else None.
(** 795-828 *)
Definition to_new_itf_i_3d (zero : A) (empty : list nat -> A) (a : arr A) : option (arr A) :=
  let l := lead 3 (shape a) in
  if eq_shape (trail 3 (shape a)) [n3 * ns; n2 * ns; n1 + 1] then
    bind (reshape (l ++ [n3; ns; n2; ns; n1 + 1]) a)
      (fun b => let n := length (shape b) in bind (reshape (l ++ [n3; n2; n1 + 1; ns ^ 2]) (moveaxis [(n - 2, n - 4); (n - 1, n - 2)] b))
        (fun t => Some (both_sides zero empty (l ++ [n3; n2; n1 + 2; ns ^ 2 * 2]) 2 (ns ^ 2) true t)))
  else None.
(** 830-862 *)
Definition to_new_itf_j_3d (zero : A) (a : arr A) : option (arr A) :=
  let l := lead 3 (shape a) in
  if eq_shape (trail 3 (shape a)) [n3 * ns; n2 + 1; n1 * ns] then
    bind (reshape (l ++ [n3; ns; n2 + 1; n1; ns]) a)
      (fun b => let n := length (shape b) in bind (reshape (l ++ [n3; n2 + 1; n1; ns ^ 2]) (moveaxis [(n - 2, n - 4)] b))
        (fun t => Some (both_sides zero (fun _ => zero) (l ++ [n3; n2 + 2; n1; ns ^ 2 * 2]) 3 (ns ^ 2) true t)))
  else None.
(** 864-897 *)
Definition to_new_itf_k_3d (zero : A) (a : arr A) : option (arr A) :=
  let l := lead 3 (shape a) in
  if eq_shape (trail 3 (shape a)) [n3 + 1; n2 * ns; n1 * ns] then
    bind (reshape (l ++ [n3 + 1; n2; ns; n1; ns]) a)
      (fun b => let n := length (shape b) in bind (reshape (l ++ [n3 + 1; n2; n1; ns ^ 2]) (swapaxes (n - 3) (n - 2) b))
        (fun t => Some (both_sides zero (fun _ => zero) (l ++ [n3 + 2; n2; n1; ns ^ 2 * 2]) 4 (ns ^ 2) true t)))
  else None.
(** 899-907: [..., 0, :, :, 0, :, :] takes the first layer of elements and the first layer of points *)
Definition get_floor (a : arr A) : option (arr A) :=
  let l := lead 4 (shape a) in
  if eq_shape (trail 4 (shape a)) [n3; n2; n1; ns ^ 3] then
    bind (reshape (lead 1 (shape a) ++ [ns; ns; ns]) a)
      (fun b => let f := Arr (l ++ [n2; n1; ns; ns]) (fun i => let r := skipn (length l) i in get b (firstn (length l) i ++ 0 :: firstn 2 r ++ 0 :: skipn 2 r)) in
        reshape (l ++ [n2; n1; ns ^ 2]) f)
  else None.
(** 909-921. The model is for arrays with three axes, the only ones the repository passes *)
Definition floor_to_bulk (k_itf : bool) (a : arr A) : option (arr A) :=
  if eq_shape (trail 3 (shape a)) [n2; n1; ns ^ 2] then
    let axis1 := length (shape a) - 2 in
    let repeat_count := if k_itf then 2 else ns in let tile_count := if k_itf then n3 + 2 else n3 in
    reshape (if k_itf then [n3 + 2; n2; n1; ns ^ 2 * 2] else [n3; n2; n1; ns ^ 3]) (tile_first tile_count (repeat_axis repeat_count axis1 a))
  else None.
(** 923-931 and 945-953; m1 = n1 + 2, m2 = n2 for the interfaces i and m1 = n1, m2 = n2 + 2 for the interfaces j *)
Definition get_itf_floor (m1 m2 : nat) (a : arr A) : option (arr A) :=
  let l := lead 4 (shape a) in
  if eq_shape (trail 4 (shape a)) [n3; m2; m1; ns ^ 2 * 2] then
    bind (reshape (lead 1 (shape a) ++ [2; ns; ns]) a)
      (fun b => let f := Arr (l ++ [m2; m1; 2; ns]) (fun i => let r := skipn (length l) i in get b (firstn (length l) i ++ 0 :: firstn 3 r ++ 0 :: skipn 3 r)) in
        reshape (l ++ [m2; m1; ns * 2]) f)
  else None.
(** 933-943 and 955-965. The model is for arrays with three axes, the only ones the repository passes *)
Definition floor_itf_to_bulk (m1 m2 : nat) (a : arr A) : option (arr A) :=
  if eq_shape (trail 3 (shape a)) [m2; m1; ns * 2] then
    bind (reshape (lead 3 (shape a) ++ [m2; m1; 2; ns]) a)
      (fun b => reshape [n3; m2; m1; ns ^ 2 * 2] (tile_first n3 (repeat_axis ns (length (shape a) - 1) b)))
  else None.
(** 967-975 *)
Definition to_new_floor (a : arr A) : option (arr A) :=
  let l := lead 2 (shape a) in
  if eq_shape (trail 2 (shape a)) [n2 * ns; n1 * ns] then
    bind (reshape (l ++ [n2; ns; n1; ns]) a) (fun b => let n := length (shape b) in reshape (l ++ [n2; n1; ns ^ 2]) (swapaxes (n - 3) (n - 2) b))
  else None.
(** 977-995 *)
Definition to_new_itf_i_floor (zero : A) (a : arr A) : option (arr A) :=
  let l := lead 2 (shape a) in
  if eq_shape (trail 2 (shape a)) [n2 * ns; n1 + 1] then
    bind (reshape (l ++ [n2; ns; n1 + 1]) a)
      (fun b => let n := length (shape b) in Some (both_sides zero (fun _ => zero) (l ++ [n2; n1 + 2; ns * 2]) 2 ns false (moveaxis [(n - 1, n - 2)] b)))
  else None.
(** 997-1014 *)
Definition to_new_itf_j_floor (zero : A) (a : arr A) : option (arr A) :=
  let l := lead 2 (shape a) in
  if eq_shape (trail 2 (shape a)) [n2 + 1; n1 * ns] then
    bind (reshape (l ++ [n2 + 1; n1; ns]) a) (fun b => Some (both_sides zero (fun _ => zero) (l ++ [n2 + 2; n1; ns * 2]) 3 ns false b))
  else None.
(** 243-248: [a] has one axis *)
Definition linear_to_full_k (a : arr A) : option (arr A) :=
  bind (reshape [n3; ns] a) (fun b => reshape [n3; n2; n1; ns ^ 3] (repeat_axis (n2 * n1) 0 (repeat_axis (ns ^ 2) 1 b))).
(** cubed_sphere_2d.py 177-183 (228-241 of cubed_sphere_3d.py): repeat(offsets, ns) + tile(ref, n) *)
Definition tensor_points (plus : A -> A -> A) (offsets ref : nat -> A) (n : nat) : arr A :=
  Arr [n * ns] (fun i => plus (offsets (nth 0 i 0 / ns)) (ref (nth 0 i 0 mod ns))).
(** numpy.meshgrid(x, y) *)
Definition meshgrid (x y : arr A) : arr A * arr A :=
  let s := [nth 0 (shape y) 0; nth 0 (shape x) 0] in (Arr s (fun i => get x [nth 1 i 0]), Arr s (fun i => get y [nth 0 i 0])).
(** numpy.array([a, b]) *)
Definition stack2 (p : arr A * arr A) : arr A := Arr (2 :: shape (fst p)) (fun i => match i with 0 :: j => get (fst p) j | _ :: j => get (snd p) j | [] => get (fst p) [] end).
End Arrays.
