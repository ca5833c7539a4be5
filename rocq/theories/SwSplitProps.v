(** C88: the stiff and the other part of the shallow water equations. *)
From Coq Require Import Reals ZArith Lra.
From Verif Require Import TopologyModel TopologySpec GeoModel SwModel SwSpec.
From mathcomp Require Import all_ssreflect all_algebra.
From Verif Require Import RField FluxModel SwRhs QuadModel SwSplitModel SwSplitSpec SwSplitProofs SwSplitFinal.
Import GRing.Theory.
Delimit Scope R_scope with re.
Delimit Scope Z_scope with zz.
Local Open Scope ring_scope.

(** The two parts sum to the right-hand side of rhs_sw.py, for every variable at every point of every tile, with or without topography, on any number of processes, when the depth is positive on both sides of the interfaces *)
Theorem C88_sum : forall k N pts radius Omega rot topo Q r v row col j i,
  (0 < k)%N -> (0 < N)%N -> (0 < size pts)%N -> radius <> 0%re -> wet k N (size pts) pts topo Q r ->
  (v < 3)%N -> (row < N)%N -> (col < N)%N -> (j < size pts)%N -> (i < size pts)%N ->
  sw_stiff k N (size pts) pts radius topo Q r v (row * size pts + j)%N (col * size pts + i)%N + sw_nonstiff k N (size pts) pts radius Omega rot topo Q r v (row * size pts + j)%N (col * size pts + i)%N
  = sw_rhs k N (size pts) pts radius Omega rot (same_ground (size pts) topo) (same_field (size pts) Q) r v row col (j * size pts + i)%N.
Proof. exact parts_sum. Qed.
Print Assumptions C88_sum.
(** water of constant depth, with any wind *)
Example C88_wet : forall wind r, (0 <= r < 24)%zz -> exists pts ws, gauss_legendre (fun _ => ([::], [::])) 3 = Some (pts, ws) /\ size pts = 3%N /\
  wet 2 4 3 pts None (fun r v y x => if v is 0%N then 1000%re else wind r v y x) r.
Proof. intros wind r Hr. eexists _, _. split; [reflexivity|]. split; [reflexivity|]. apply: (@constant_wet (fun _ => ([::], [::])) 2 4 3 _ _ 1000%re); try reflexivity; [lra|exact Hr]. Qed.
Example C88_sum_case : forall wind radius Omega rot, radius <> 0%re -> exists pts, let Q := fun r v y x => if v is 0%N then 1000%re else wind r v y x in
  sw_stiff 2 4 3 pts radius None Q 23%zz 1 10 5 + sw_nonstiff 2 4 3 pts radius Omega rot None Q 23%zz 1 10 5 = sw_rhs 2 4 3 pts radius Omega rot None (same_field 3 Q) 23%zz 1 3 1 5.
Proof.
  intros wind radius Omega rot Hr. destruct (C88_wet wind 23%zz) as [pts [ws [_ [S W]]]]; [easy|]. exists pts. intro Q.
  pose proof (@C88_sum 2 4 pts radius Omega rot None Q 23%zz 1 3 1 1 2) as X. rewrite S in X. exact (X erefl erefl erefl Hr W erefl erefl erefl erefl erefl).
Qed.

(** The part that is not stiff leaves the depth alone *)
Theorem C88_depth : forall k N pts radius Omega rot topo Q r y x, sw_nonstiff k N (size pts) pts radius Omega rot topo Q r 0 y x = 0%re.
Proof. exact nonstiff_depth. Qed.
Print Assumptions C88_depth.
(** also with wind *)
Example C88_depth_case : exists Q, forall radius Omega rot, sw_nonstiff 1 1 1 [:: 0%re] radius Omega rot None Q 0%zz 0 0 0 = 0%re /\ Q 0%zz 1%N 0%N 0%N <> 0%re.
Proof. exists (fun _ v _ _ => if v is 1%N then 2%re else 1%re). intros. split; [exact (@C88_depth 1 1 [:: 0%re] radius Omega rot None _ 0%zz 0 0)|lra]. Qed.

(** The stiff part keeps the mass of the whole sphere *)
Theorem C88_mass : forall roots k N ns pts ws radius topo Q,
  (0 < k)%N -> (0 < N)%N -> (0 < ns <= 5)%N -> gauss_legendre roots ns = Some (pts, ws) -> radius <> 0%re ->
  (if same_ground ns topo is Some t then one_surface k N ns (fun i => nth R0 pts i) (hsurf_itf_i t) (hsurf_itf_j t) else True) ->
  (forall r, (0 <= r < 6 * Z.of_nat k * Z.of_nat k)%zz -> wet k N ns pts topo Q r) ->
  global_integral_2d k N ns pts ws radius (fun r => by_element ns (sw_stiff k N ns pts radius topo Q r 0)) = 0%re.
Proof. exact stiff_mass. Qed.
Print Assumptions C88_mass.
Example C88_mass_case : forall wind radius, radius <> 0%re -> exists pts ws, gauss_legendre (fun _ => ([::], [::])) 3 = Some (pts, ws) /\
  global_integral_2d 2 4 3 pts ws radius (fun r => by_element 3 (sw_stiff 2 4 3 pts radius None (fun r v y x => if v is 0%N then 1000%re else wind r v y x) r 0)) = 0%re.
Proof.
  intros wind radius Hr. eexists _, _. split; [reflexivity|]. apply: (@C88_mass (fun _ => ([::], [::]))) => // r H.
  apply: (@constant_wet (fun _ => ([::], [::])) 2 4 3 _ _ 1000%re); try reflexivity; [lra|exact H].
Qed.
