(** Concrete cases for the properties of the assembled matrices. *)
From Coq Require Import Reals ZArith String List Arith Bool Lia Lra.
From Verif Require Import AssembleModel AssembleSpec AssembleProofs.
Import ListNotations.
Local Open Scope R_scope.
Local Open Scope list_scope.

Ltac cells := repeat match goal with |- (_ :: _) = (_ :: _) => apply (f_equal2 (@cons _)) | |- Some _ = Some _ => apply f_equal | |- [] = [] => reflexivity end; try ring.
(** two processes with one number each: the matrix with the rows 1 2 and 3 4 *)
Definition two (x : list (list R)) : list (list R) := match x with [[a]; [b]] => [[a + 2 * b]; [3 * a + 4 * b]] | _ => x end.
(** the same operator on one process *)
Definition two_one (x : list (list R)) : list (list R) := match x with [[a; b]] => [[a + 2 * b; 3 * a + 4 * b]] | _ => x end.
Lemma shaped21 x : shaped 2 1 x -> exists a b, x = [[a]; [b]].
Proof.
  intros [L F]. destruct x as [|u [|v [|]]]; try (cbn in L; lia). inversion F as [|? ? F1 F2]; subst. inversion F2 as [|? ? F3 _]; subst.
  destruct u as [|a [|]]; try (cbn in F1; lia). destruct v as [|b [|]]; try (cbn in F3; lia). exists a, b. reflexivity.
Qed.
Lemma shaped12 x : shaped 1 2 x -> exists a b, x = [[a; b]].
Proof.
  intros [L F]. destruct x as [|u [|]]; try (cbn in L; lia). inversion F as [|? ? F1 _]; subst.
  destruct u as [|a [|b [|]]]; try (cbn in F1; lia). exists a, b. reflexivity.
Qed.
Lemma two_linear : linear 2 1 two.
Proof.
  split; [|split].
  - intros x Hx. destruct (shaped21 x Hx) as [a [b ->]]. repeat constructor.
  - intros x y Hx Hy. destruct (shaped21 x Hx) as [a [b ->]]. destruct (shaped21 y Hy) as [c [d ->]]. unfold two, sum_vectors. cbn. cells.
  - intros k x Hx. destruct (shaped21 x Hx) as [a [b ->]]. unfold two, multiple. cbn. cells.
Qed.
Lemma two_one_linear : linear 1 2 two_one.
Proof.
  split; [|split].
  - intros x Hx. destruct (shaped12 x Hx) as [a [b ->]]. repeat constructor.
  - intros x y Hx Hy. destruct (shaped12 x Hx) as [a [b ->]]. destruct (shaped12 y Hy) as [c [d ->]]. unfold two_one, sum_vectors. cbn. cells.
  - intros k x Hx. destruct (shaped12 x Hx) as [a [b ->]]. unfold two_one, multiple. cbn. cells.
Qed.
Lemma two_same : keeps_shape 2 1 two /\ keeps_shape 1 2 two_one /\ forall x x', shaped 2 1 x -> shaped 1 2 x' -> concat x = concat x' -> concat (two x) = concat (two_one x').
Proof.
  split; [apply two_linear|]. split; [apply two_one_linear|]. intros x x' Hx Hx'. destruct (shaped21 x Hx) as [a [b ->]]. destruct (shaped12 x' Hx') as [c [d ->]].
  cbn. intros E. injection E as -> ->. reflexivity.
Qed.
Lemma two_matrix : gen_matrix two 2 1 false 0 = Some [[1; 3]; [2; 4]].
Proof. unfold gen_matrix, tile, generate, one_column, set_nth. cbn. cells. Qed.
Lemma two_one_matrix : gen_matrix two_one 1 2 false 0 = Some [[1; 3]; [2; 4]].
Proof. rewrite <- two_matrix. symmetry. destruct two_same as [K [K' H]]. apply same_matrix; [exact K|exact K'|lia|lia|reflexivity|exact H]. Qed.
(** a solver for the blocks of [two] *)
Definition divide (M : list (list R)) (v : list R) : list R := match M, v with [[a]], [b] => [b / a] | _, _ => v end.
Lemma two_blocks : prepare two 2 1 [None; None] = Prepared [[[1]]; [[4]]] [Some [[1]]; Some [[4]]].
Proof.
  change [None; None] with (repeat (@None (list (list R))) 2). rewrite fresh_blocks by lia. cbn [seq map].
  assert (E0 : gen_matrix two 2 1 true 0 = Some [[1]]) by (rewrite local_spec by lia; cbn; cells).
  assert (E1 : gen_matrix two 2 1 true 1 = Some [[4]]) by (rewrite local_spec by lia; cbn; cells).
  rewrite E0, E1. reflexivity.
Qed.
Lemma divide_solves : forall M v, In M [[[1]]; [[4]]] -> length v = 1%nat -> length (divide M v) = 1%nat /\ product 1 M (divide M v) = v.
Proof.
  intros M v H L. destruct v as [|b [|]]; try (cbn in L; lia). destruct H as [<-|[<-|[]]]; (split; [reflexivity|]); unfold product, divide; cbn; f_equal; field.
Qed.
(** a solver for the matrix of two_one *)
Definition cramer (M : list (list R)) (v : list R) : list R :=
  match M, v with [[a; c]; [b; d]], [e; f] => [(d * e - b * f) / (a * d - b * c); (a * f - c * e) / (a * d - b * c)] | _, _ => v end.
Lemma one_block : prepare two_one 1 2 [None] = Prepared [[[1; 3]; [2; 4]]] [Some [[1; 3]; [2; 4]]].
Proof.
  change [None] with (repeat (@None (list (list R))) 1). rewrite fresh_blocks by lia. cbn [seq map].
  assert (E0 : gen_matrix two_one 1 2 true 0 = Some [[1; 3]; [2; 4]]) by (rewrite local_spec by lia; cbn; cells).
  rewrite E0. reflexivity.
Qed.
Lemma cramer_solves : forall M v, In M [[[1; 3]; [2; 4]]] -> length v = 2%nat -> length (cramer M v) = 2%nat /\ product 2 M (cramer M v) = v.
Proof.
  intros M v H L. destruct v as [|e [|f [|]]]; try (cbn in L; lia). destruct H as [<-|[]]. split; [reflexivity|]. unfold product, cramer; cbn. f_equal; [field; lra|]. f_equal. field; lra.
Qed.

Local Open Scope string_scope.
Definition some_arr : arr R := Arr [2]%nat [1; 2].
Definition some_csr : sparse := Compressed Csr some_arr (Arr [2]%nat [0; 1]%Z) (Arr [3]%nat [0; 1; 2]%Z) (Arr [2]%nat [2; 2]%Z).
Definition some_dia : sparse := Dia (Arr [1; 2]%nat [1; 2]) (Arr [1]%nat [0%Z]) (Arr [2]%nat [2; 2]%Z).
Definition some_coo : sparse := Coo some_arr (Arr [2]%nat [0; 1]%Z) (Arr [2]%nat [0; 1]%Z) (Arr [2]%nat [2; 2]%Z).
Definition some_set : list (string * value string) :=
  [("rat", System string some_arr some_arr some_csr some_dia); ("param", Obj string "options"); ("permutation", Obj string "identity"); ("precond_p", Mat string some_csr); ("precond", Mat string some_dia)].
Definition empty_set : list (string * value string) := [("param", Obj string "options"); ("permutation", Obj string "identity")].
Lemma some_set_good : good_set some_set /\ has_matrix some_set.
Proof.
  split.
  - split; [|split; [|split; [|split]]].
    + repeat constructor; cbn; intros H; repeat (destruct H as [H|H]; [discriminate H|]); destruct H.
    + exists "options". reflexivity.
    + exists "identity". reflexivity.
    + right. exists some_dia, some_csr. repeat split.
    + intros k v G N. unfold some_set in G. cbn [get] in G. destruct (String.eqb k "rat"); [injection G as <-; exists some_arr, some_arr, some_csr, some_dia; repeat split|].
      destruct (String.eqb k "param") eqn:E1; [apply String.eqb_eq in E1; subst k; cbn in N; tauto|]. destruct (String.eqb k "permutation") eqn:E2; [apply String.eqb_eq in E2; subst k; cbn in N; tauto|].
      destruct (String.eqb k "precond_p") eqn:E3; [apply String.eqb_eq in E3; subst k; cbn in N; tauto|]. destruct (String.eqb k "precond") eqn:E4; [apply String.eqb_eq in E4; subst k; cbn in N; tauto|]. discriminate G.
  - exists "rat", (System string some_arr some_arr some_csr some_dia). split; [reflexivity|]. cbn. intros [H|[H|[]]]; discriminate H.
Qed.
Lemma empty_set_good : good_set empty_set /\ ~ has_matrix empty_set.
Proof.
  split.
  - split; [|split; [|split; [|split]]].
    + repeat constructor; cbn; intros H; repeat (destruct H as [H|H]; [discriminate H|]); destruct H.
    + exists "options". reflexivity.
    + exists "identity". reflexivity.
    + left. split; reflexivity.
    + intros k v G N. unfold empty_set in G. cbn [get] in G.
      destruct (String.eqb k "param") eqn:E1; [apply String.eqb_eq in E1; subst k; cbn in N; tauto|]. destruct (String.eqb k "permutation") eqn:E2; [apply String.eqb_eq in E2; subst k; cbn in N; tauto|]. discriminate G.
  - intros [k [v [G N]]]. unfold empty_set in G. cbn [get] in G.
    destruct (String.eqb k "param") eqn:E1; [apply String.eqb_eq in E1; subst k; cbn in N; tauto|]. destruct (String.eqb k "permutation") eqn:E2; [apply String.eqb_eq in E2; subst k; cbn in N; tauto|]. discriminate G.
Qed.
