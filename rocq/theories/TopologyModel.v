(** Model of wx_factory/process_topology.py: the cubed-sphere process topology and its halo exchanges.

    Integers are Python's unbounded ints ([Z]); array entries that are only moved have an arbitrary type, and the
    vector conversions act on exact reals (rounding is not modelled).  Ranks of one communicator are 0 .. size-1.
    A collective MPI call is modelled as one function of the buffers of all the ranks. *)
From Coq Require Import ZArith List Bool Reals.
Import ListNotations.
Open Scope Z_scope.

(** process_topology.py:12-15 -- SOUTH = 0, NORTH = 1, WEST = 2, EAST = 3 *)
Inductive side := South | North | West | East.
Definition side_index (d : side) : nat :=
  match d with South => 0 | North => 1 | West => 2 | East => 3 end.
Definition all_sides : list side := [South; North; West; East].

(** Python list-of-lists lookup table[panel][side].  An index out of range raises IndexError in Python; here it yields
    the default [dflt] (theorems are stated for ranks of the communicator, whose panel is always in 0..5). *)
Definition lookup2 {A} (t : list (list A)) (panel : Z) (d : side) (dflt : A) : A :=
  nth (side_index d) (nth (Z.to_nat panel) t []) dflt.

(** process_topology.py:69 -- int(self.size / 6) (truncation; float division exact below 2^53, not modelled beyond) *)
Definition num_pe_per_panel (size : Z) : Z := Z.quot size 6.

(** process_topology.py:70 -- int(math.sqrt(self.num_pe_per_panel)) as the integer square root *)
Definition num_lines_per_panel (size : Z) : Z := Z.sqrt (num_pe_per_panel size).

(** process_topology.py:72-76 -- the condition under which the constructor raises ValueError *)
Definition bad_size (size : Z) : bool :=
  (size <? 6)
  || negb (num_pe_per_panel size =? num_lines_per_panel size ^ 2)
  || negb (num_pe_per_panel size * 6 =? size).

(** process_topology.py:84-89 -- rank_from_location *)
Definition rank_from_location (size panel row col : Z) : Z :=
  let lines := num_lines_per_panel size in
  let row := if row <? 0 then row + lines else row in
  let col := if col <? 0 then col + lines else col in
  panel * num_pe_per_panel size + row * lines + col.

(** process_topology.py:105-113 -- all_neighbors *)
Definition all_neighbors : list (list Z) :=
  [ [5; 4; 3; 1];
    [5; 4; 0; 2];
    [5; 4; 1; 3];
    [5; 4; 2; 0];
    [0; 2; 3; 1];
    [2; 0; 3; 1] ].

(** process_topology.py:117-125 -- edge_coords, as a function of my_row and my_col *)
Definition edge_coords (my_row my_col : Z) : list (list (Z * Z)) :=
  [ [(-1, my_col);          (0, my_col);           (my_row, -1);          (my_row, 0)];
    [(- my_col - 1, -1);    (my_col, -1);          (my_row, -1);          (my_row, 0)];
    [(0, - my_col - 1);     (-1, - my_col - 1);    (my_row, -1);          (my_row, 0)];
    [(my_col, 0);           (- my_col - 1, 0);     (my_row, -1);          (my_row, 0)];
    [(-1, my_col);          (-1, - my_col - 1);    (-1, - my_row - 1);    (-1, my_row)];
    [(0, - my_col - 1);     (0, my_col);           (0, my_row);           (0, - my_row - 1)] ].

(** process_topology.py:128-135 -- flips *)
Definition flips : list (list bool) :=
  [ [false; false; false; false];
    [true;  false; false; false];
    [true;  true;  false; false];
    [false; true;  false; false];
    [false; true;  true;  false];
    [true;  false; false; true ] ].

Definition conversion := (R -> R -> R -> R * R)%type.

Local Open Scope R_scope.

(** process_topology.py:138-175 -- convert_contras; the arguments of each entry are a1, a2 and coord *)
Definition convert_contras : list (list conversion) :=
  [ [ (fun a1 a2 x => (a1 + 2 * x / (1 + x ^ 2) * a2, a2));
      (fun a1 a2 x => (a1 - 2 * x / (1 + x ^ 2) * a2, a2));
      (fun a1 a2 x => (a1, 2 * x / (1 + x ^ 2) * a1 + a2));
      (fun a1 a2 x => (a1, - 2 * x / (1 + x ^ 2) * a1 + a2)) ];
    [ (fun a1 a2 x => (a2, - a1 - 2 * x / (1 + x ^ 2) * a2));
      (fun a1 a2 x => (- a2, a1 - 2 * x / (1 + x ^ 2) * a2));
      (fun a1 a2 x => (a1, 2 * x / (1 + x ^ 2) * a1 + a2));
      (fun a1 a2 x => (a1, - 2 * x / (1 + x ^ 2) * a1 + a2)) ];
    [ (fun a1 a2 x => (- a1 - 2 * x / (1 + x ^ 2) * a2, - a2));
      (fun a1 a2 x => (- a1 + 2 * x / (1 + x ^ 2) * a2, - a2));
      (fun a1 a2 x => (a1, 2 * x / (1 + x ^ 2) * a1 + a2));
      (fun a1 a2 x => (a1, - 2 * x / (1 + x ^ 2) * a1 + a2)) ];
    [ (fun a1 a2 x => (- a2, a1 + 2 * x / (1 + x ^ 2) * a2));
      (fun a1 a2 x => (a2, - a1 + 2 * x / (1 + x ^ 2) * a2));
      (fun a1 a2 x => (a1, 2 * x / (1 + x ^ 2) * a1 + a2));
      (fun a1 a2 x => (a1, - 2 * x / (1 + x ^ 2) * a1 + a2)) ];
    [ (fun a1 a2 x => (a1 + 2 * x / (1 + x ^ 2) * a2, a2));
      (fun a1 a2 x => (- a1 + 2 * x / (1 + x ^ 2) * a2, - a2));
      (fun a1 a2 x => (- 2 * x / (1 + x ^ 2) * a1 - a2, a1));
      (fun a1 a2 x => (- 2 * x / (1 + x ^ 2) * a1 + a2, - a1)) ];
    [ (fun a1 a2 x => (- a1 - 2 * x / (1 + x ^ 2) * a2, - a2));
      (fun a1 a2 x => (a1 - 2 * x / (1 + x ^ 2) * a2, a2));
      (fun a1 a2 x => (2 * x / (1 + x ^ 2) * a1 + a2, - a1));
      (fun a1 a2 x => (2 * x / (1 + x ^ 2) * a1 - a2, a1)) ] ].

(** process_topology.py:177-214 -- convert_covs.  Entry [2][SOUTH] (line 191) is reproduced as it is in the code. *)
Definition convert_covs : list (list conversion) :=
  [ [ (fun a1 a2 x => (a1, a2 - 2 * x / (1 + x ^ 2) * a1));
      (fun a1 a2 x => (a1, a2 + 2 * x / (1 + x ^ 2) * a1));
      (fun a1 a2 x => (a1 - 2 * x / (1 + x ^ 2) * a2, a2));
      (fun a1 a2 x => (a1 + 2 * x / (1 + x ^ 2) * a2, a2)) ];
    [ (fun a1 a2 x => (a2 - 2 * x / (1 + x ^ 2) * a1, - a1));
      (fun a1 a2 x => (- a2 - 2 * x / (1 + x ^ 2) * a1, a1));
      (fun a1 a2 x => (a1 - 2 * x / (1 + x ^ 2) * a2, a2));
      (fun a1 a2 x => (a1 + 2 * x / (1 + x ^ 2) * a2, a2)) ];
    [ (fun a1 a2 x => (- a2, - a2 + 2 * x / (1 + x ^ 2) * a1));
      (fun a1 a2 x => (- a1, - a2 - 2 * x / (1 + x ^ 2) * a1));
      (fun a1 a2 x => (a1 - 2 * x / (1 + x ^ 2) * a2, a2));
      (fun a1 a2 x => (a1 + 2 * x / (1 + x ^ 2) * a2, a2)) ];
    [ (fun a1 a2 x => (- a2 + 2 * x / (1 + x ^ 2) * a1, a1));
      (fun a1 a2 x => (a2 + 2 * x / (1 + x ^ 2) * a1, - a1));
      (fun a1 a2 x => (a1 - 2 * x / (1 + x ^ 2) * a2, a2));
      (fun a1 a2 x => (a1 + 2 * x / (1 + x ^ 2) * a2, a2)) ];
    [ (fun a1 a2 x => (a1, a2 - 2 * x / (1 + x ^ 2) * a1));
      (fun a1 a2 x => (- a1, - a2 - 2 * x / (1 + x ^ 2) * a1));
      (fun a1 a2 x => (- a2, a1 - 2 * x / (1 + x ^ 2) * a2));
      (fun a1 a2 x => (a2, - a1 - 2 * x / (1 + x ^ 2) * a2)) ];
    [ (fun a1 a2 x => (- a1, - a2 + 2 * x / (1 + x ^ 2) * a1));
      (fun a1 a2 x => (a1, a2 + 2 * x / (1 + x ^ 2) * a1));
      (fun a1 a2 x => (a2, - a1 + 2 * x / (1 + x ^ 2) * a2));
      (fun a1 a2 x => (- a2, a1 + 2 * x / (1 + x ^ 2) * a2)) ] ].

(** process_topology.py:219-220 -- convert_default *)
Definition convert_default : conversion := fun a1 a2 _ => (a1, a2).

Local Close Scope R_scope.

(** The attributes of a ProcessTopology object (process_topology.py:63-267) that later calls use. *)
Record topology := {
  t_size : Z;
  t_rank : Z;
  t_lines : Z;                     (* num_lines_per_panel *)
  t_panel : Z;                     (* my_panel *)
  t_row : Z;                       (* my_row *)
  t_col : Z;                       (* my_col *)
  t_dest : side -> Z;              (* sources = destinations, lines 259-260 *)
  t_flip : side -> bool;           (* flip *)
  t_contra : side -> conversion;   (* convert_contra *)
  t_cov : side -> conversion       (* convert_cov *)
}.

(** Outcome of a constructor call: an object, or ValueError with the two suggested counts of its message. *)
Inductive ctor_result := Created (t : topology) | WrongCount (allowed_low allowed_high : Z).

(** process_topology.py:91-267 -- the part of the constructor that follows the size check, for communicator size [size]
    and rank [rank].  The communicators created at lines 261-267 are represented by the rank lists below. *)
Definition build_topology (size rank : Z) : topology :=
  let pe := num_pe_per_panel size in
  let lines := num_lines_per_panel size in
  let my_panel := rank / pe in                                            (* 91 *)
  let my_rank_in_panel := rank - my_panel * pe in                         (* 92 *)
  let my_row := my_rank_in_panel / lines in                               (* 93 *)
  let my_col := my_rank_in_panel mod lines in                             (* 94 *)
  let at_edge (d : side) : bool :=                                        (* 231, 238, 245, 252 *)
    match d with
    | North => my_row =? lines - 1
    | South => my_row =? 0
    | West => my_col =? 0
    | East => my_col =? lines - 1
    end in
  let interior (d : side) : Z :=                                          (* 224-227 *)
    match d with
    | South => rank_from_location size my_panel (my_row - 1) my_col
    | North => rank_from_location size my_panel (my_row + 1) my_col
    | West => rank_from_location size my_panel my_row (my_col - 1)
    | East => rank_from_location size my_panel my_row (my_col + 1)
    end in
  let across (d : side) : Z :=                                            (* 232, 239, 246, 253 *)
    let rc := lookup2 (edge_coords my_row my_col) my_panel d (0, 0) in
    rank_from_location size (lookup2 all_neighbors my_panel d 0) (fst rc) (snd rc) in
  {| t_size := size;
     t_rank := rank;
     t_lines := lines;
     t_panel := my_panel;
     t_row := my_row;
     t_col := my_col;
     t_dest := fun d => if at_edge d then across d else interior d;
     t_flip := fun d => if at_edge d then lookup2 flips my_panel d false else false;
     t_contra := fun d => if at_edge d then lookup2 convert_contras my_panel d convert_default else convert_default;
     t_cov := fun d => if at_edge d then lookup2 convert_covs my_panel d convert_default else convert_default |}.

(** process_topology.py:50-267 -- ProcessTopology(device, rank, comm) with comm.size = [size] *)
Definition make_topology (size rank : Z) : ctor_result :=
  if bad_size size then
    WrongCount (num_lines_per_panel size ^ 2 * 6) ((num_lines_per_panel size + 1) ^ 2 * 6)   (* 77-82 *)
  else Created (build_topology size rank).

(** MPI semantics of Ineighbor_alltoall on the graph made by Create_dist_graph_adjacent (lines 261, 318, 384):
    block [d] received by [rank] is the block that the process sources[d] addressed to [rank].  If that process does
    not list [rank] among its destinations there is no matching send, and the wait never completes: [None].
    (With several edges between the same two processes MPI pairs them in order; C03 shows there is at most one.) *)
Definition neighbor_alltoall {A} (dest : Z -> side -> Z) (send : Z -> side -> A) (rank : Z) (d : side) : option A :=
  let s := dest rank d in
  match find (fun j => dest s j =? rank) all_sides with
  | Some j => Some (send s j)
  | None => None
  end.

Definition dest_of (size rank : Z) (d : side) : Z := t_dest (build_topology size rank) d.

(** process_topology.py:311-313 -- filling the send buffer.  [flip] is xp.flip along the caller's flip_dim. *)
Definition flip_if {A} (b : bool) (flip : A -> A) (data : A) : A := if b then flip data else data.

(** process_topology.py:269-320 and ExchangeRequest.wait (595-606): what [rank] gets on side [d] when every rank [r]
    passes the array [data r d'] for side [d'].  Reshaping to base_shape and back (306, 312, 584) only regroups
    entries and is left out; it is the subject of get_base_shape in ShapeModel. *)
Definition exchange_scalars {A} (size : Z) (flip : A -> A) (data : Z -> side -> A) (rank : Z) (d : side) : option A :=
  neighbor_alltoall (dest_of size)
    (fun r s => flip_if (t_flip (build_topology size r) s) flip (data r s)) rank d.

(** xp.flip with flip_dim = -1 on a line of entries, and with flip_dim = (-3, -1) on entries arranged as
    (elements, vertical points, horizontal points), as rhs_dfr.py:141-172 and geometry/metric3d.py do. *)
Definition flip_line {A} (l : list A) : list A := rev l.
Definition flip_3d {A} (a : list (list (list A))) : list (list (list A)) := rev (map (map (@rev A)) a).

(** A vector boundary array, entry by entry: components 0 and 1 and the optional rest (component 2 of 3D vectors). *)
Notation vec B := (R * R * B)%type (only parsing).

(** process_topology.py:373-375 -- conversion of all entries of one side; bd holds the coordinate of each entry *)
Definition convert_line {B} (f : conversion) (bd : list R) (data : list (vec B)) : list (vec B) :=
  map (fun '((a1, a2, a3), x) => (fst (f a1 a2 x), snd (f a1 a2 x), a3)) (combine data bd).

(** process_topology.py:371 -- boundaries = [boundary_sn, boundary_sn, boundary_we, boundary_we] *)
Definition boundary_of (boundary_sn boundary_we : list R) (d : side) : list R :=
  match d with South | North => boundary_sn | West | East => boundary_we end.

(** process_topology.py:322-386 -- start_exchange_vectors followed by wait, for one line of entries along each side and
    flip_dim = -1.  [sn r], [we r] are the boundary coordinates passed by rank [r]. *)
Definition exchange_vectors {B} (size : Z) (covariant : bool) (sn we : Z -> list R)
    (data : Z -> side -> list (vec B)) (rank : Z) (d : side) : option (list (vec B)) :=
  neighbor_alltoall (dest_of size)
    (fun r s =>
       let t := build_topology size r in
       let conv := if covariant then t_cov t s else t_contra t s in
       flip_if (t_flip t s) flip_line (convert_line conv (boundary_of (sn r) (we r) s) (data r s)))
    rank d.
