(** Model of the array-shape helpers and of gather/distribute in wx_factory/process_topology.py. *)
From Coq Require Import ZArith List Bool.
Import ListNotations.

(** * get_base_shape *)
Open Scope Z_scope.

Inductive shape_result := Shape (s : list Z) | ShapeValueError | ShapeIndexError.

(** math.prod *)
Definition prod (l : list Z) : Z := fold_right Z.mul 1 l.

(** process_topology.py:555-557 -- the while loop.  [rest] is the part of the reversed initial shape that has not been
    multiplied in yet; running out of it is the IndexError of initial_shape[-num_fuse]. *)
Fixpoint fuse (length product : Z) (num_fuse : nat) (rest : list Z) : option (nat * Z) :=
  if product <? length then
    match rest with
    | [] => None
    | d :: rest' => fuse length (product * d) (S num_fuse) rest'
    end
  else Some (num_fuse, product).

(** process_topology.py:542-561 -- get_base_shape *)
Definition get_base_shape (initial_shape length_shape : list Z) : shape_result :=
  let length := prod length_shape in
  match rev initial_shape with
  | [] => ShapeIndexError                                         (* initial_shape[-1] of an empty tuple, line 554 *)
  | last :: rest =>
      match fuse length last 1%nat rest with
      | None => ShapeIndexError
      | Some (num_fuse, product) =>
          if product =? length
          then Shape (firstn (List.length initial_shape - num_fuse) initial_shape ++ length_shape)   (* 561 *)
          else ShapeValueError                                    (* 559-560 *)
      end
  end.
Close Scope Z_scope.

(** * Gathering and distributing

    An array of num_dim "data dimensions" is modelled as a three-level list: the leading num_dim - 2 dimensions flattened
    into one, then rows, then columns.  The trailing element dimensions are the arbitrary type E (the reshape to a
    single trailing dimension and back at lines 526-532 does not move elements). *)
Section Gather.
Context {E : Type}.
Definition array := list (list (list E)).

Definition zipw {A B C} (f : A -> B -> C) (a : list A) (b : list B) : list C := map (fun p => f (fst p) (snd p)) (combine a b).

(** xp.concatenate of two arrays along axis num_dim - 1 (columns) and num_dim - 2 (rows) *)
Definition cat_cols (a b : array) : array := zipw (zipw (@app E)) a b.
Definition cat_rows (a b : array) : array := zipw (@app (list E)) a b.

(** xp.concatenate of a list of arrays ([] raises in numpy; the list is never empty here) *)
Fixpoint ncat (cat : array -> array -> array) (ts : list array) : array :=
  match ts with
  | [] => []
  | t :: ts' => match ts' with [] => t | _ => cat t (ncat cat ts') end
  end.

(** Python slice l[a:b] *)
Definition slice {A} (a b : nat) (l : list A) : list A := firstn (b - a) (skipn a l).

(** process_topology.py:421-442 -- what the panel root returns from the fields of the [side*side] tiles of its panel, in
    rank order (panel_comm.gather).  2D and more. *)
Definition gather_panel (side : nat) (panel_fields : list array) : array :=
  if Nat.eqb (length panel_fields) 1 then hd [] panel_fields                          (* 423-424 *)
  else ncat cat_rows (map (fun i => ncat cat_cols (slice (i * side) ((i + 1) * side) panel_fields)) (seq 0 side)).

(** process_topology.py:432-434 -- the same for one-dimensional fields *)
Definition gather_panel_1d (side : nat) (panel_fields : list (list E)) : list E :=
  if Nat.eqb (length panel_fields) 1 then hd [] panel_fields
  else concat (slice 0 side panel_fields).

(** process_topology.py:444-469 -- gather_cube as seen by rank 0: tiles of panel p are ranks p*side^2 .. (p+1)*side^2-1
    (line 264: Split by panel, ordered by rank), and the panel roots are gathered in panel order (line 265). *)
Definition gather_cube (side : nat) (fields : list array) : list array :=
  map (fun p => gather_panel side (slice (p * (side * side)) ((p + 1) * (side * side)) fields)) (seq 0 6).

(** A cube-shaped array as given to distribute_cube: its shape (first dimension, rows, columns) and its content *)
Record cube := { c_first : nat; c_rows : nat; c_cols : nat; c_panels : list array }.

(** process_topology.py:521-535 -- tiles cut out of one panel, row by row *)
Definition tile_at (tile_side i j : nat) (panel : array) : array :=
  map (fun m => map (slice (j * tile_side) ((j + 1) * tile_side)) (slice (i * tile_side) ((i + 1) * tile_side) m)) panel.
Definition cut_panel (side tile_side : nat) (panel : array) : list array :=
  flat_map (fun i => map (fun j => tile_at tile_side i j panel) (seq 0 side)) (seq 0 side).

(** process_topology.py:471-539 -- distribute_cube: the list of the tiles received by all the ranks, or [None] when the
    root raised ValueError, in which case all ranks raise (SingleProcess, see C11). The ndim test of line 491 is implied
    by the type. *)
Definition distribute_cube (side : nat) (c : cube) : option (list array) :=
  if negb (Nat.eqb (c_first c) 6) || negb (Nat.eqb (c_rows c) (c_cols c)) then None       (* 491-493 *)
  else
    let panel_side := c_rows c in
    let tile_side := Nat.div panel_side side in
    if negb (Nat.eqb (tile_side * side) panel_side) then None                            (* 496-504 *)
    else if Nat.eqb side 1 then Some (c_panels c)                                        (* 515-516 *)
    else Some (flat_map (cut_panel side tile_side) (c_panels c)).
End Gather.
Arguments array : clear implicits.
Arguments cube : clear implicits.
