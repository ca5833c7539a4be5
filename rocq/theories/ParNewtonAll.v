(** newton_krylov and kiops on the tiles and panels of the sphere. *)
From Coq Require Import Reals ZArith List Arith Lia.
From Coquelicot Require Import Hierarchy.
From Verif Require Import TopologyModel TopologySpec SwSpec FieldSpace FieldSpace3 EulModel EulCutSpec ParSolveModel ParSolveSpec ParSolve ParSolveInst ParNewtonModel ParNewtonSpec ParNewton ParExp.
Lemma more (k N : nat) : (0 < k)%nat -> (N <= k * N)%nat.
Proof. intro H. destruct k as [|k]; [inversion H|]. cbn [Nat.mul]. apply Nat.le_add_r. Qed.
From mathcomp Require Import all_ssreflect all_algebra.
From Verif Require Import RField OpModel RhsModel SwRhs SwCutSpec ParSolveAll.
Set Implicit Arguments.
Unset Strict Implicit.
Unset Printing Implicit Defensive.
Delimit Scope R_scope with re.

Lemma both_ways (V W : ModuleSpace R_Ring) (holds : list (list (V -> R))) (holds' : list (list (W -> R))) rel n n' f f' : redistribution holds holds' rel -> holds <> nil -> holds' <> nil -> (forall es, In es holds -> length es = n) -> (forall es, In es holds' -> length es = n') ->
  (30 < n)%coq_nat -> (30 < n')%coq_nat -> same_map rel f f' -> implicit_same holds holds' rel n n' f f' /\ implicit_same holds' holds (fun w v => rel v w) n' n f' f /\ exponential_same holds holds' rel f f'.
Proof.
  move=> D N N' E E' B B' Hf. split; [exact: implicit_holds|]. split; [|exact: exponential_holds].
  apply: implicit_holds => //; first exact: (other_way _ _ _ D). by move=> w v H; apply: Hf.
Qed.
Lemma sw_more k N ns pts radius Omega rot Tc T : (0 < k)%N -> (0 < N)%N -> (0 < ns)%N -> same_topography k N ns Tc T -> (30 < 3 * (N * (N * (ns * ns))))%coq_nat ->
  let f : states -> states := sw_rhs k N ns pts radius Omega (cut_rotation k rot) Tc in let g : states -> states := sw_rhs 1 (k * N)%coq_nat ns pts radius Omega rot T in
  let same : states -> states -> Prop := same_state k N ns in let tiles := sw_entries (6 * k * k)%coq_nat N ns in let panels := sw_entries 6 (k * N)%coq_nat ns in
  let size := (3 * (N * (N * (ns * ns))))%coq_nat in let size' := (3 * (k * N * (k * N * (ns * ns))))%coq_nat in
  implicit_same tiles panels same size size' f g /\ implicit_same panels tiles (fun q' q => same q q') size' size g f /\ exponential_same tiles panels same f g.
Proof.
  move=> Hk HN Hns ET L f g same tiles panels n n'. have Hk' : (0 < k)%coq_nat by apply/ltP. apply: both_ways.
  - exact: (sw_redistribution k N ns).
  - rewrite /tiles /sw_entries. case: k Hk' {Hk ET f same tiles g panels n'} => [|k] Hk'; [lia|]. by move/map_eq_nil.
  - by [].
  - move=> es H. exact (sw_length _ _ _ es H).
  - move=> es H. exact (sw_length _ _ _ es H).
  - exact: L.
  - apply: (Nat.lt_le_trans _ _ _ L). rewrite /n'. apply Nat.mul_le_mono_l, Nat.mul_le_mono; [|apply Nat.mul_le_mono_r]; exact: more.
  - exact: (sw_map pts radius Omega rot Hk HN Hns ET).
Qed.
Lemma eul_more k N NZ ns (f g : states3 -> states3) : (0 < k)%coq_nat -> (30 < 5 * (NZ * (N * (N * Nat.pow ns 3))))%coq_nat -> same_map (same_state3 k N NZ ns : states3 -> states3 -> Prop) f g ->
  let same : states3 -> states3 -> Prop := same_state3 k N NZ ns in let tiles := eul_entries (6 * k * k)%coq_nat N NZ ns in let panels := eul_entries 6 (k * N)%coq_nat NZ ns in
  let size := (5 * (NZ * (N * (N * Nat.pow ns 3))))%coq_nat in let size' := (5 * (NZ * (k * N * (k * N * Nat.pow ns 3))))%coq_nat in
  implicit_same tiles panels same size size' f g /\ implicit_same panels tiles (fun q' q => same q q') size' size g f /\ exponential_same tiles panels same f g.
Proof.
  move=> Hk L Hf same tiles panels n n'. apply: both_ways.
  - exact: (eul_redistribution k N NZ ns).
  - rewrite /tiles /eul_entries. case: k Hk {Hf same tiles panels n'} => [|k] Hk; [lia|]. by move/map_eq_nil.
  - by [].
  - move=> es H. exact (eul_length _ _ _ _ es H).
  - move=> es H. exact (eul_length _ _ _ _ es H).
  - exact: L.
  - apply: (Nat.lt_le_trans _ _ _ L). rewrite /n'. apply Nat.mul_le_mono_l, Nat.mul_le_mono_l, Nat.mul_le_mono; [|apply Nat.mul_le_mono_r]; exact: more.
  - exact: Hf.
Qed.
