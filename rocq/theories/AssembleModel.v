(** Model of wx_factory/solvers/eigenvalue_util.py and of the preconditioner built on it, wx_factory/precondition/factorization.py. Numbers are exact reals. A distributed vector is the list of the parts of all processes in the order of their ranks, and an operator acts on all parts at once: a call is collective. A matrix is the list of its columns; compression (csc) keeps its values. *)
From Coq Require Import Reals ZArith String DecimalString List Arith Bool.
Import ListNotations.
Local Open Scope string_scope.
Local Open Scope R_scope.
Local Open Scope list_scope.

Local Notation vec := (list R).
Local Notation dvec := (list (list R)).
Local Notation matrix := (list (list R)).
(** v[i] = a *)
Definition set_nth (i : nat) (a : R) (v : vec) : vec := if (i <? length v)%nat then firstn i v ++ a :: skipn (S i) v else v.
(** l[a:b] *)
Definition slice {X} (l : list X) (a b : nat) : list X := firstn (b - a) (skipn a l).
(** scipy.sparse.vstack: matrices with the same number of columns *)
Fixpoint vstack (ms : list matrix) : matrix :=
  match ms with [] => [] | [m] => m | m :: rest => map (fun p => fst p ++ snd p) (combine m (vstack rest)) end.

Section Gen.
Variables (A : dvec -> dvec) (P n : nat).
(** 70-79: process r sets the entry, the operator is called by all, all processes clear the entry *)
Definition one_column (st : dvec * list dvec) (ri : nat * nat) : dvec * list dvec :=
  let (r, i) := ri in let (q, columns) := st in
  let q1 := map (fun k => if (k =? r)%nat then set_nth i 1 (nth k q []) else nth k q []) (seq 0 P) in
  let col := A q1 in
  (map (set_nth i 0) q1, columns ++ [col]).
(** 56, 66-79: Qid and the columns after the two loops; the loop over the processes is the outer one *)
Definition generate : dvec * list dvec := fold_left one_column (list_prod (seq 0 P) (seq 0 n)) (repeat (repeat 0 n) P, []).
(** 81 -- J_tile of a process *)
Definition tile (rank : nat) : matrix := map (fun c => nth rank c []) (snd generate).
(** 29-106 -- gen_matrix, what it returns on each process. Not modelled: printing, the file (it holds what is returned) *)
Definition gen_matrix (local : bool) (rank : nat) : option matrix :=
  if local then Some (slice (tile rank) (n * rank) (n * (rank + 1)))
  else if (rank =? 0)%nat then Some (vstack (map tile (seq 0 P))) else None.
End Gen.

(** factorization.py: the preconditioner. [files] are the matrices found by the processes; the hash of the options that names them is left out: [files] are those of runs with the same values. [solve] is the factorization of scipy. *)
Inductive prepared := Prepared (blocks : list matrix) (files : list (option matrix)) | Hangs.
(** 42-50 -- prepare, on all processes, the first time. A process that finds its file does not call the operator: gen_matrix on the others waits for it for ever (unless there is nothing to compute) *)
Definition prepare (A : dvec -> dvec) (P n : nat) (files : list (option matrix)) : prepared :=
  if forallb (fun f => match f with Some _ => true | None => false end) files
  then Prepared (map (fun f => match f with Some m => m | None => [] end) files) files
  else if forallb (fun f => match f with Some _ => false | None => true end) files
  then let blocks := map (fun k => match gen_matrix A P n true k with Some m => m | None => [] end) (seq 0 P) in Prepared blocks (map Some blocks)
  else if (P * n =? 0)%nat then Prepared (map (fun f => match f with Some m => m | None => [] end) files) (map (fun f => match f with Some m => Some m | None => Some [] end) files) else Hangs.
(** 58-66 -- __apply__ on all processes *)
Definition apply_lu (solve : matrix -> vec -> vec) (blocks : list matrix) (x : dvec) : dvec := map (fun p => solve (fst p) (snd p)) (combine blocks x).

(** numpy arrays *)
Record arr (X : Type) := Arr { dims : list nat; vals : list X }.
Arguments Arr {X}. Arguments dims {X}. Arguments vals {X}.
(** what an archive of numpy holds *)
Inductive entry := Data (a : arr R) | Ints (a : arr Z) | Bytes (s : string).
(** scipy's sparse matrices: the compressed formats csc, csr, bsr; dia; coo; the others (dok, lil) *)
Inductive compressed := Csc | Csr | Bsr.
Inductive sparse :=
| Compressed (f : compressed) (data : arr R) (indices indptr : arr Z) (shape : arr Z)
| Dia (data : arr R) (offsets : arr Z) (shape : arr Z)
| Coo (data : arr R) (row col : arr Z) (shape : arr Z)
| Other (format : string).
Definition compressed_name (f : compressed) : string := match f with Csc => "csc" | Csr => "csr" | Bsr => "bsr" end.

(** f"name{num}" *)
Definition key (name : string) (num : nat) : string := name ++ NilEmpty.string_of_uint (Nat.to_uint num).
Definition archive := list (string * entry).
(** d[k]; an assignment puts the pair in front *)
Fixpoint get {V} (d : list (string * V)) (k : string) : option V :=
  match d with [] => None | (k', v) :: d' => if String.eqb k k' then Some v else get d' k end.
(** numpy.asarray((a,)) *)
Definition in_tuple (a : arr Z) : arr Z := Arr (1%nat :: dims a) (vals a).

(** 113-135 -- save_matrices; None: NotImplementedError *)
Definition save_one (num : nat) (m : sparse) (d : archive) : option archive :=
  let finish f shape data d := Some ((key "data" num, Data data) :: (key "shape" num, Ints shape) :: (key "format" num, Bytes f) :: d) in
  match m with
  | Compressed f data indices indptr shape => finish (compressed_name f) shape data ((key "indptr" num, Ints indptr) :: (key "indices" num, Ints indices) :: d)
  | Dia data offsets shape => finish "dia" shape data ((key "offsets" num, Ints offsets) :: d)
  | Coo data row col shape => finish "coo" shape data ((key "col" num, Ints col) :: (key "row" num, Ints (in_tuple row)) :: d)
  | Other _ => None
  end.
Fixpoint save_from (num : nat) (ms : list sparse) (d : archive) : option archive :=
  match ms with [] => Some d | m :: rest => match save_one num m d with Some d' => save_from (S num) rest d' | None => None end end.
Definition save_matrices (ms : list sparse) : option archive := save_from 0 ms [].

(** 141-186 -- load_matrices; None: an exception. The constructor of a coo matrix raises unless rows, columns and data have one dimension *)
Definition load_one (d : archive) (num : nat) (format : string) : option sparse :=
  match get d (key "data" num), get d (key "shape" num) with
  | Some (Data data), Some (Ints shape) =>
    let comp f := match get d (key "indices" num), get d (key "indptr" num) with Some (Ints i), Some (Ints p) => Some (Compressed f data i p shape) | _, _ => None end in
    if String.eqb format "csc" then comp Csc else if String.eqb format "csr" then comp Csr else if String.eqb format "bsr" then comp Bsr
    else if String.eqb format "dia" then match get d (key "offsets" num) with Some (Ints o) => Some (Dia data o shape) | _ => None end
    else if String.eqb format "coo" then
      match get d (key "row" num), get d (key "col" num) with
      | Some (Ints r), Some (Ints c) => if ((length (dims r) =? 1) && (length (dims c) =? 1) && (length (dims data) =? 1))%nat then Some (Coo data r c shape) else None
      | _, _ => None end
    else None
  | _, _ => None
  end.
(** 147-184: stops at the first number without a format. An archive has fewer formats than entries, so that [fuel] is never used up *)
Fixpoint load_from (fuel num : nat) (d : archive) : option (list sparse) :=
  match fuel with O => None | S fuel' =>
    match get d (key "format" num) with
    | None => Some []
    | Some (Bytes f) => match load_one d num f with Some m => option_map (cons m) (load_from fuel' (S num) d) | None => None end
    | Some _ => None
    end
  end.
Definition load_matrices (d : archive) : option (list sparse) :=
  match get d (key "format" 0) with None => None | Some _ => load_from (S (length d)) 0 d end.

(** matrix sets: dictionaries. The values of param and permutation are arbitrary objects *)
Section Sets.
Variable O : Type.
Inductive value := Obj (x : O) | System (rhs rhs_p : arr R) (m m_p : sparse) | Mat (m : sparse).
Definition mset := list (string * value).
Inductive item := Pickled (x : O) | Keys (l : list string) | Npy (a : arr R) | Npz (d : archive).
(** 189 *)
Definition ignored (k : string) : bool := existsb (String.eqb k) ["param"; "permutation"; "precond"; "precond_p"].
(** 198-205: the loop over the keys: arrays written and matrices collected *)
Fixpoint collect (s : mset) (keys : list string) : option (list item * list sparse) :=
  match keys with
  | [] => Some ([], [])
  | k :: rest =>
    if ignored k then collect s rest else
    match get s k, collect s rest with
    | Some (System rhs rhs_p m m_p), Some (out, ms) => Some (Npy rhs :: Npy rhs_p :: out, m :: m_p :: ms)
    | _, _ => None
    end
  end.
(** 192-211 -- store_matrix_set, the contents of the file (212 reads it back, see load_set); None: an exception *)
Definition write_set (s : mset) : option (list item) :=
  match get s "param", get s "permutation", collect s (map fst s) with
  | Some (Obj p), Some (Obj q), Some (out, ms) =>
    let all := if existsb (String.eqb "precond") (map fst s)
      then match get s "precond", get s "precond_p" with Some (Mat a), Some (Mat b) => Some (ms ++ [a; b]) | _, _ => None end else Some ms in
    match all with
    | Some all => match save_matrices all with Some d => Some (Pickled p :: Pickled q :: Keys (map fst s) :: out ++ [Npz d]) | None => None end
    | None => None
    end
  | _, _, _ => None
  end.
(** 221-226: the arrays of the keys; the rest of the file *)
Fixpoint read_arrays (keys : list string) (file : list item) : option (list (string * (arr R * arr R)) * list item) :=
  match keys with
  | [] => Some ([], file)
  | k :: rest =>
    if ignored k then read_arrays rest file else
    match file with
    | Npy a :: Npy b :: file' => match read_arrays rest file' with Some (l, f) => Some ((k, (a, b)) :: l, f) | None => None end
    | _ => None
    end
  end.
(** 230-235: two matrices for each key; the number of those used *)
Fixpoint attach (l : list (string * (arr R * arr R))) (ms : list sparse) : option (mset * list sparse) :=
  match l with
  | [] => Some ([], ms)
  | (k, (a, b)) :: rest => match ms with m :: m' :: ms' => match attach rest ms' with Some (s, f) => Some ((k, System a b m m') :: s, f) | None => None end | _ => None end
  end.
(** 215-241 -- load_matrix_set *)
Definition load_set (file : list item) : option mset :=
  match file with
  | Pickled p :: Pickled q :: Keys keys :: file1 =>
    match read_arrays keys file1 with
    | Some (l, [Npz d]) =>
      match load_matrices d with
      | Some ms =>
        match attach l ms with
        | Some (s, ms') =>
          let s1 := ("param", Obj p) :: ("permutation", Obj q) :: s in
          if existsb (String.eqb "precond") keys then match ms' with a :: b :: _ => Some (s1 ++ [("precond", Mat a); ("precond_p", Mat b)]) | _ => None end else Some s1
        | None => None end
      | None => None end
    | _ => None end
  | _ => None
  end.
(** store_matrix_set: the file, unless an exception is raised, also when the file is read back (212) *)
Definition store_set (s : mset) : option (list item) :=
  match write_set s with Some f => match load_set f with Some _ => Some f | None => None end | None => None end.
End Sets.
