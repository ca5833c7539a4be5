(** C77: which test cases can be started *)
From Coq Require Import List Arith.
From Verif Require Import StartModel StartSpec StartProofs.
Import ListNotations.

(** These cases return a state with the variables at the points of every element, on every grid; on 21 and 22 if the two copies of the mountain that the code compares are equal *)
Theorem C77_starts_partial : forall g floors,
  (forall case, In case [1; 2; 5; 6] -> start_sw g case = Ok (state_sw (n g) (ns g))) /\
  (forall case, In case [21; 22; 31; 77] -> (case = 21 \/ case = 22 -> floors = true) -> start_euler g floors case = Ok (state_euler 5 (n g) (nv g) (ns g))) /\
  start_plane g 2 = Ok (state_plane (n g) (nv g) (ns g)).
Proof. exact starts. Qed.
Print Assumptions C77_starts_partial.
Example C77_starts_example : start_sw {| n := 4; nv := 1; ns := 3 |} 5 = Ok [3; 4; 4; 9] /\ start_euler {| n := 4; nv := 2; ns := 3 |} true 31 = Ok [5; 2; 4; 4; 27].
Proof. split; reflexivity. Qed.

(** The others, on every grid: the shallow water cases 0, 8, 9 and 10 and the plane cases 0, 1, 3 and 4 raise an exception, so does the Euler case 20; the states of the Euler cases 11 and 12 have the
    layout (levels, rows, columns) that the right hand side does not take *)
Theorem C77_starts_refuted : forall g floors, 0 < n g -> 0 < ns g ->
  (forall case, In case [0; 8; 9; 10] -> start_sw g case = Raise ValueError) /\
  start_euler g floors 20 = Raise TypeError /\
  (forall case, In case [11; 12] -> exists k, start_euler g floors case = Ok [k; nv g * ns g; n g * ns g; n g * ns g] /\ start_euler g floors case <> Ok (state_euler k (n g) (nv g) (ns g))) /\
  start_plane g 0 = Raise AttributeError /\ (forall case, In case [1; 3; 4] -> start_plane g case = Raise NameError).
Proof. exact broken. Qed.
Print Assumptions C77_starts_refuted.

(** A case number without a case is refused on the sphere *)
Theorem C77_unknown : forall g floors case, (~ In case documented_sw -> start_sw g case = Raise ValueError) /\ (~ In case documented_euler -> start_euler g floors case = Raise ValueError).
Proof. exact unknown. Qed.
Print Assumptions C77_unknown.
Example C77_unknown_example : ~ In 7 documented_sw /\ ~ In 13 documented_euler.
Proof. split; unfold documented_sw, documented_euler; cbn; intuition discriminate. Qed.

(** On the vertical plane it is not: every unknown case number silently starts an unperturbed state *)
Theorem C77_unknown_plane_refuted : forall g case, ~ In case documented_plane -> start_plane g case = Ok (state_plane (n g) (nv g) (ns g)).
Proof. exact plane_unknown. Qed.
Print Assumptions C77_unknown_plane_refuted.
