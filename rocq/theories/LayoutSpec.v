(** Where the value of each grid point belongs in the layouts. *)
From Coq Require Import List Arith.
From Verif Require Import LayoutModel.
Import ListNotations.

(** i is a multi-index of an array of the shape s *)
Definition valid (s i : list nat) : Prop := Forall2 lt i s.
(** the same shape and the same values *)
Definition same {A} (a b : arr A) : Prop := shape a = shape b /\ forall i, valid (shape a) i -> get a i = get b i.

(** a: one block of points, rows along the second direction; b: a table of n2 x n1 elements with ns x ns points each. l: leading axes.
    The point (y, x) of the element (e2, e1) is the point (e2 ns + y, e1 ns + x) of the block. *)
Definition elements_2d {A} (n1 n2 ns : nat) (l : list nat) (a b : arr A) : Prop :=
  shape a = l ++ [n2 * ns; n1 * ns] /\ shape b = l ++ [n2; n1; ns * ns] /\
  forall i e2 e1 y x, valid l i -> e2 < n2 -> e1 < n1 -> y < ns -> x < ns -> get b (i ++ [e2; e1; y * ns + x]) = get a (i ++ [e2 * ns + y; e1 * ns + x]).
Definition elements_3d {A} (n1 n2 n3 ns : nat) (l : list nat) (a b : arr A) : Prop :=
  shape a = l ++ [n3 * ns; n2 * ns; n1 * ns] /\ shape b = l ++ [n3; n2; n1; ns ^ 3] /\
  forall i e3 e2 e1 z y x, valid l i -> e3 < n3 -> e2 < n2 -> e1 < n1 -> z < ns -> y < ns -> x < ns ->
    get b (i ++ [e3; e2; e1; (z * ns + y) * ns + x]) = get a (i ++ [e3 * ns + z; e2 * ns + y; e1 * ns + x]).

(** ** Interfaces. b has one more element (a halo) at both ends of the direction, and two sides per element. Interface number e (0 <= e <= n) lies between the elements e and e + 1 of b:
    it is the second side of the former and the first side of the latter. [v] is the value of the field there. The two outer sides of the halo hold [zero]. *)
Definition itf_i_2d {A} (zero : A) (n1 n2 ns : nat) (l : list nat) (v : list nat -> nat -> nat -> nat -> A) (b : arr A) : Prop :=
  shape b = l ++ [n2; n1 + 2; ns * 2] /\ forall i e2 y, valid l i -> e2 < n2 -> y < ns ->
  (forall e, e <= n1 -> get b (i ++ [e2; e; ns + y]) = v i e2 y e /\ get b (i ++ [e2; S e; y]) = v i e2 y e) /\
  get b (i ++ [e2; 0; y]) = zero /\ get b (i ++ [e2; S n1; ns + y]) = zero.
Definition itf_j_2d {A} (zero : A) (n1 n2 ns : nat) (l : list nat) (v : list nat -> nat -> nat -> nat -> A) (b : arr A) : Prop :=
  shape b = l ++ [n2 + 2; n1; ns * 2] /\ forall i e1 x, valid l i -> e1 < n1 -> x < ns ->
  (forall e, e <= n2 -> get b (i ++ [e; e1; ns + x]) = v i e1 x e /\ get b (i ++ [S e; e1; x]) = v i e1 x e) /\
  get b (i ++ [0; e1; x]) = zero /\ get b (i ++ [S n2; e1; ns + x]) = zero.
Definition itf_i_3d {A} (zero : A) (n1 n2 n3 ns : nat) (l : list nat) (v : list nat -> nat -> nat -> nat -> nat -> nat -> A) (b : arr A) : Prop :=
  shape b = l ++ [n3; n2; n1 + 2; ns ^ 2 * 2] /\ forall i e3 e2 z y, valid l i -> e3 < n3 -> e2 < n2 -> z < ns -> y < ns ->
  (forall e, e <= n1 -> get b (i ++ [e3; e2; e; ns ^ 2 + (z * ns + y)]) = v i e3 e2 z y e /\ get b (i ++ [e3; e2; S e; z * ns + y]) = v i e3 e2 z y e) /\
  get b (i ++ [e3; e2; 0; z * ns + y]) = zero /\ get b (i ++ [e3; e2; S n1; ns ^ 2 + (z * ns + y)]) = zero.
Definition itf_j_3d {A} (zero : A) (n1 n2 n3 ns : nat) (l : list nat) (v : list nat -> nat -> nat -> nat -> nat -> nat -> A) (b : arr A) : Prop :=
  shape b = l ++ [n3; n2 + 2; n1; ns ^ 2 * 2] /\ forall i e3 e1 z x, valid l i -> e3 < n3 -> e1 < n1 -> z < ns -> x < ns ->
  (forall e, e <= n2 -> get b (i ++ [e3; e; e1; ns ^ 2 + (z * ns + x)]) = v i e3 e1 z x e /\ get b (i ++ [e3; S e; e1; z * ns + x]) = v i e3 e1 z x e) /\
  get b (i ++ [e3; 0; e1; z * ns + x]) = zero /\ get b (i ++ [e3; S n2; e1; ns ^ 2 + (z * ns + x)]) = zero.
Definition itf_k_3d {A} (zero : A) (n1 n2 n3 ns : nat) (l : list nat) (v : list nat -> nat -> nat -> nat -> nat -> nat -> A) (b : arr A) : Prop :=
  shape b = l ++ [n3 + 2; n2; n1; ns ^ 2 * 2] /\ forall i e2 e1 y x, valid l i -> e2 < n2 -> e1 < n1 -> y < ns -> x < ns ->
  (forall e, e <= n3 -> get b (i ++ [e; e2; e1; ns ^ 2 + (y * ns + x)]) = v i e2 e1 y x e /\ get b (i ++ [S e; e2; e1; y * ns + x]) = v i e2 e1 y x e) /\
  get b (i ++ [0; e2; e1; y * ns + x]) = zero /\ get b (i ++ [S n3; e2; e1; ns ^ 2 + (y * ns + x)]) = zero.

(** ** Floors: b is the lowest layer of points of the lowest layer of elements of a *)
Definition is_floor {A} (n1 n2 n3 ns : nat) (l : list nat) (a b : arr A) : Prop :=
  shape a = l ++ [n3; n2; n1; ns ^ 3] /\ shape b = l ++ [n2; n1; ns ^ 2] /\
  forall i e2 e1 y x, valid l i -> e2 < n2 -> e1 < n1 -> y < ns -> x < ns -> get b (i ++ [e2; e1; y * ns + x]) = get a (i ++ [0; e2; e1; (0 * ns + y) * ns + x]).
(** b holds in every column of points the value that a has on the floor *)
Definition columns {A} (n1 n2 n3 ns : nat) (a b : arr A) : Prop :=
  shape a = [n2; n1; ns ^ 2] /\ shape b = [n3; n2; n1; ns ^ 3] /\
  forall e3 e2 e1 z y x, e3 < n3 -> e2 < n2 -> e1 < n1 -> z < ns -> y < ns -> x < ns -> get b [e3; e2; e1; (z * ns + y) * ns + x] = get a [e2; e1; y * ns + x].
(** the same on both horizontal faces (side 0: bottom, side 1: top) of every element, halo included *)
Definition columns_k {A} (n1 n2 n3 ns : nat) (a b : arr A) : Prop :=
  shape a = [n2; n1; ns ^ 2] /\ shape b = [n3 + 2; n2; n1; ns ^ 2 * 2] /\
  forall e3 e2 e1 side y x, e3 < n3 + 2 -> e2 < n2 -> e1 < n1 -> side < 2 -> y < ns -> x < ns -> get b [e3; e2; e1; side * ns ^ 2 + (y * ns + x)] = get a [e2; e1; y * ns + x].
(** vertical faces: m2 x m1 elements, halo included; a point of a face has a height z and a position y *)
Definition is_floor_itf {A} (m1 m2 n3 ns : nat) (l : list nat) (a b : arr A) : Prop :=
  shape a = l ++ [n3; m2; m1; ns ^ 2 * 2] /\ shape b = l ++ [m2; m1; ns * 2] /\
  forall i e2 e1 side y, valid l i -> e2 < m2 -> e1 < m1 -> side < 2 -> y < ns -> get b (i ++ [e2; e1; side * ns + y]) = get a (i ++ [0; e2; e1; side * ns ^ 2 + (0 * ns + y)]).
Definition columns_itf {A} (m1 m2 n3 ns : nat) (a b : arr A) : Prop :=
  shape a = [m2; m1; ns * 2] /\ shape b = [n3; m2; m1; ns ^ 2 * 2] /\
  forall e3 e2 e1 side z y, e3 < n3 -> e2 < m2 -> e1 < m1 -> side < 2 -> z < ns -> y < ns -> get b [e3; e2; e1; side * ns ^ 2 + (z * ns + y)] = get a [e2; e1; side * ns + y].
