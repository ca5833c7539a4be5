(** Terrain: what the layers over it must satisfy. *)
From Coq Require Import Reals ZArith Arith.
From Verif Require Import SwSpec EulModel EulCutSpec.
From mathcomp Require Import all_ssreflect all_algebra.
From Verif Require Import RField RNum EulSlopes EulTerrain.
Import GRing.Theory.
Local Open Scope ring_scope.

(** the terrain of the tiles is that of the whole panels *)
Definition same_terrain (k N ns : nat) (A B : terrain) : Prop :=
  (forall r row col p, is_rank k r -> (row < N)%coq_nat -> (col < N)%coq_nat -> (p < (ns * ns)%coq_nat)%coq_nat -> zb_pt A r row col p = cut k N (zb_pt B) r row col p) /\
  (forall r row b p, is_rank k r -> (row < N)%coq_nat -> (b <= N)%coq_nat -> (p < ns)%coq_nat -> zb_i A r row b p = cut_i k N (zb_i B) r row b p) /\
  (forall r col b p, is_rank k r -> (col < N)%coq_nat -> (b <= N)%coq_nat -> (p < ns)%coq_nat -> zb_j A r col b p = cut_j k N (zb_j B) r col b p).
(** no mountains: the same height everywhere *)
Definition flat (k N ns : nat) (c : R) (T : terrain) : Prop :=
  (forall r row col p, is_rank k r -> (row < N)%coq_nat -> (col < N)%coq_nat -> (p < (ns * ns)%coq_nat)%coq_nat -> zb_pt T r row col p = c) /\
  (forall r row b p, is_rank k r -> (row < N)%coq_nat -> (b <= N)%coq_nat -> (p < ns)%coq_nat -> zb_i T r row b p = c) /\
  (forall r col b p, is_rank k r -> (col < N)%coq_nat -> (b <= N)%coq_nat -> (p < ns)%coq_nat -> zb_j T r col b p = c).
(** along line y of an element, and at its two ends, the terrain is the polynomial P *)
Definition polynomial_x1 (ns : nat) (pts : seq R) (T : terrain) (r : Z) (row col y : nat) (P : {poly R_numFieldType}) : Prop :=
  (forall x, (x < ns)%N -> zb_pt T r row col (y * ns + x)%N = P.[nth (0 : R_numFieldType) pts x]) /\ zb_i T r row col y = P.[-1] /\ zb_i T r row col.+1 y = P.[1].
Definition polynomial_x2 (ns : nat) (pts : seq R) (T : terrain) (r : Z) (row col x : nat) (P : {poly R_numFieldType}) : Prop :=
  (forall y, (y < ns)%N -> zb_pt T r row col (y * ns + x)%N = P.[nth (0 : R_numFieldType) pts y]) /\ zb_j T r col row x = P.[-1] /\ zb_j T r col row.+1 x = P.[1].
(** the points of an element lie inside it, one after the other *)
Definition inner (pts : seq R) : Prop := forall i, (i < size pts)%N -> Rlt (Ropp R1) (nth R0 pts i) /\ Rlt (nth R0 pts i) R1.
Definition increasing (pts : seq R) : Prop := forall i j, (i < j)%N -> (j < size pts)%N -> Rlt (nth R0 pts i) (nth R0 pts j).
(** the terrain lies between the sphere and the top *)
Definition below (k N ns : nat) (ztop : R) (T : terrain) : Prop :=
  forall r row col p, is_rank k r -> (row < N)%coq_nat -> (col < N)%coq_nat -> (p < (ns * ns)%coq_nat)%coq_nat -> Rle R0 (zb_pt T r row col p) /\ Rlt (zb_pt T r row col p) ztop.
(** along line y (x) of level z of an element, f is the polynomial Q *)
Definition along_x1 (ns : nat) (pts : seq R) (f : at_points) (r : Z) (l row col z y : nat) (Q : {poly R_numFieldType}) : Prop :=
  forall x, (x < ns)%N -> f r l row col ((z * ns + y) * ns + x)%N = Q.[nth (0 : R_numFieldType) pts x].
Definition along_x2 (ns : nat) (pts : seq R) (f : at_points) (r : Z) (l row col z x : nat) (Q : {poly R_numFieldType}) : Prop :=
  forall y, (y < ns)%N -> f r l row col ((z * ns + y) * ns + x)%N = Q.[nth (0 : R_numFieldType) pts y].
