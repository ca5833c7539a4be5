(** The assembled matrices and their files (property C81). *)
From Coq Require Import Reals ZArith String List Arith.
From Verif Require Import AssembleModel AssembleSpec AssembleProofs AssembleSets AssembleCases.
Import ListNotations.
Local Open Scope R_scope.

(** On any number of processes, the matrix assembled for a linear operator is square, has the size of the whole vector, and its product with any vector is the value of the operator. *)
Theorem C81_matrix : forall P n A, linear P n A -> (0 < P)%nat ->
  exists M, gen_matrix A P n false 0 = Some M /\ size_of (P * n) (P * n) M /\ forall x, shaped P n x -> product (P * n) M (concat x) = concat (A x).
Proof. exact global_matrix. Qed.
Print Assumptions C81_matrix.
Example matrix_example : linear 2 1 two /\ gen_matrix two 2 1 false 0 = Some [[1; 3]; [2; 4]]. Proof. exact (conj two_linear two_matrix). Qed.

(** Each column is the value at a unit vector, also for operators that are not linear: before each call exactly one entry on one process is 1. *)
Theorem C81_columns : forall P n A r i M, keeps_shape P n A -> (r < P)%nat -> (i < n)%nat -> gen_matrix A P n false 0 = Some M -> nth (r * n + i) M [] = concat (A (unit_vector P n r i)).
Proof. exact unit_columns. Qed.
Print Assumptions C81_columns.
Example columns_example : keeps_shape 2 1 two /\ concat (two (unit_vector 2 1 1 0)) = [0 + 2 * 1; 3 * 0 + 4 * 1]. Proof. exact (conj (proj1 two_linear) eq_refl). Qed.

(** Two ways to divide the same vectors among processes give the same matrix. *)
Theorem C81_processes : forall P n P' n' A A', keeps_shape P n A -> keeps_shape P' n' A' -> (0 < P)%nat -> (0 < P')%nat -> (P * n = P' * n')%nat ->
  (forall x x', shaped P n x -> shaped P' n' x' -> concat x = concat x' -> concat (A x) = concat (A' x')) -> gen_matrix A P n false 0 = gen_matrix A' P' n' false 0.
Proof. exact same_matrix. Qed.
Print Assumptions C81_processes.
Example processes_example : keeps_shape 2 1 two /\ keeps_shape 1 2 two_one /\ forall x x', shaped 2 1 x -> shaped 1 2 x' -> concat x = concat x' -> concat (two x) = concat (two_one x'). Proof. exact two_same. Qed.

(** The local matrix of a process is the diagonal block: the action on vectors that are 0 on the other processes. *)
Theorem C81_local : forall P n A r, linear P n A -> (r < P)%nat ->
  exists M, gen_matrix A P n true r = Some M /\ size_of n n M /\ forall v, length v = n -> product n M v = nth r (A (only P n r v)) [].
Proof. exact local_matrix. Qed.
Print Assumptions C81_local.
Example local_example : linear 2 1 two /\ nth 1 (two (only 2 1 1 [5])) [] = [3 * 0 + 4 * 5]. Proof. exact (conj two_linear eq_refl). Qed.

(** The preconditioner made from the factorised blocks inverts the diagonal blocks of the operator it was prepared with, ... *)
Theorem C81_blocks : forall P n A solve blocks files, linear P n A -> (0 < P)%nat -> prepare A P n (repeat None P) = Prepared blocks files ->
  (forall M v, In M blocks -> length v = n -> length (solve M v) = n /\ product n M (solve M v) = v) ->
  forall x, shaped P n x -> shaped P n (apply_lu solve blocks x) /\ forall r, (r < P)%nat -> nth r (A (only P n r (nth r (apply_lu solve blocks x) []))) [] = nth r x [].
Proof. exact lu_blocks. Qed.
Print Assumptions C81_blocks.
Example blocks_example : prepare two 2 1 [None; None] = Prepared [[[1]]; [[4]]] [Some [[1]]; Some [[4]]] /\ forall M v, In M [[[1]]; [[4]]] -> length v = 1%nat -> length (divide M v) = 1%nat /\ product 1 M (divide M v) = v.
Proof. exact (conj two_blocks divide_solves). Qed.

(** ... and on one process the operator itself. *)
Theorem C81_inverse : forall n A solve blocks files, linear 1 n A -> prepare A 1 n [None] = Prepared blocks files ->
  (forall M v, In M blocks -> length v = n -> length (solve M v) = n /\ product n M (solve M v) = v) ->
  forall x, shaped 1 n x -> A (apply_lu solve blocks x) = x.
Proof. exact lu_one. Qed.
Print Assumptions C81_inverse.
Example inverse_example : prepare two_one 1 2 [None] = Prepared [[[1; 3]; [2; 4]]] [Some [[1; 3]; [2; 4]]] /\ forall M v, In M [[[1; 3]; [2; 4]]] -> length v = 2%nat -> length (cramer M v) = 2%nat /\ product 2 M (cramer M v) = v.
Proof. exact (conj one_block cramer_solves). Qed.

(** Files of an earlier run: when all processes find one, they are used for whatever operator is given; ... *)
Theorem C81_stale_refuted : forall A P n (earlier : list (list (list R))), prepare A P n (map Some earlier) = Prepared earlier (map Some earlier).
Proof. exact prepare_stale. Qed.
Print Assumptions C81_stale_refuted.

(** ... when some find one and some do not, as after a run that was stopped while the files were written, the preparation never ends. *)
Theorem C81_restart_refuted : forall A P n files, length files = P -> (0 < P * n)%nat -> (prepare A P n files = Hangs <-> In None files /\ exists m, In (Some m) files).
Proof. exact prepare_hangs. Qed.
Print Assumptions C81_restart_refuted.
Example restart_example : length [Some [[1]]; None] = 2%nat /\ (0 < 2 * 1)%nat. Proof. exact (conj eq_refl (le_S _ _ (le_n _))). Qed.

(** Matrices in compressed or diagonal form are read back as they were saved. *)
Theorem C81_archive : forall ms, Forall plain ms -> ms <> [] -> exists d, save_matrices ms = Some d /\ load_matrices d = Some ms.
Proof. exact matrices_back. Qed.
Print Assumptions C81_archive.
Example archive_example : Forall plain [some_csr; some_dia; some_csr]. Proof. exact (Forall_cons some_csr I (Forall_cons some_dia I (Forall_cons some_csr I (Forall_nil _)))). Qed.

(** An archive with a matrix in coordinate form is saved and cannot be read. *)
Theorem C81_coordinates_refuted : forall ms d, Exists is_coo ms -> save_matrices ms = Some d -> load_matrices d = None.
Proof. exact coo_lost. Qed.
Print Assumptions C81_coordinates_refuted.
Example coordinates_example : Exists is_coo [some_csr; some_coo] /\ exists d, save_matrices [some_csr; some_coo] = Some d. Proof. exact (conj (Exists_cons_tl _ (Exists_cons_hd is_coo some_coo [] eq_refl)) (ex_intro _ _ eq_refl)). Qed.

(** A stored set of matrices is read back with the same value under every key. *)
Theorem C81_sets : forall O (s : list (string * value O)), good_set s -> has_matrix s -> exists f s', store_set O s = Some f /\ load_set O f = Some s' /\ forall k, get s' k = get s k.
Proof. exact set_back. Qed.
Print Assumptions C81_sets.
Example sets_example : good_set some_set /\ has_matrix some_set. Proof. exact some_set_good. Qed.

(** A set without matrices cannot be stored: reading it back raises. *)
Theorem C81_empty_refuted : forall O (s : list (string * value O)), good_set s -> ~ has_matrix s -> store_set O s = None.
Proof. exact empty_set_raises. Qed.
Print Assumptions C81_empty_refuted.
Example empty_example : good_set empty_set /\ ~ has_matrix empty_set. Proof. exact empty_set_good. Qed.
