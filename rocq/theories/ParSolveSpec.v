(** Two ways to distribute the same vectors over processes. *)
From Coq Require Import Reals ZArith List Permutation.
From Coquelicot Require Import Hierarchy.
From Verif Require Import FieldSpace FieldSpace3 EpiModel PmexModel ParSolveModel.
Import ListNotations.
Local Open Scope R_scope.

(** [rel u w]: u and w are the same vector, distributed in one and in the other way *)
Record redistribution {V W : ModuleSpace R_Ring} (holds : list (list (V -> R))) (holds' : list (list (W -> R))) (rel : V -> W -> Prop) : Prop := {
  same_zero : rel zero zero;
  same_plus : forall u u' w w', rel u w -> rel u' w' -> rel (plus u u') (plus w w');
  same_scal : forall a u w, rel u w -> rel (scal (V := V) a u) (scal (V := W) a w);
  (** the entries, in another order *)
  same_entries : forall u u' w w', rel u w -> rel u' w' -> Permutation (map (fun e => (e u, e u')) (concat holds)) (map (fun e => (e w, e w')) (concat holds')) }.
(** two maps that do the same to the same vectors *)
Definition same_map {V W : ModuleSpace R_Ring} (rel : V -> W -> Prop) (f : V -> V) (f' : W -> W) : Prop := forall u w, rel u w -> rel (f u) (f' w).
(** two runs with the same result, unless in one of them the processes get out of step *)
Definition same_outcome {V W : ModuleSpace R_Ring} (rel : V -> W -> Prop) (o : outcome (V := V)) (o' : outcome (V := W)) : Prop :=
  match o, o' with
  | Split, _ | _, Split => True
  | Raised, Raised => True
  | Returned a, Returned a' => rel (a_x a) (a_x a') /\ a_norm_r a = a_norm_r a' /\ a_norm_b a = a_norm_b a' /\ a_niter a = a_niter a'
  | _, _ => False
  end.
(** ** what each process holds of a state, in the order of its memory *)
Definition loop {A : Type} (n : nat) (f : nat -> list A) : list A := flat_map f (seq 0 n).
(** shallow water: variable, row, column, point *)
Definition sw_entries (ranks N ns : nat) : list (list (states -> R)) :=
  map (fun r => loop 3 (fun v => loop N (fun i => loop N (fun j => loop (ns * ns) (fun p => [fun q : states => q (Z.of_nat r) v i j p]))))) (seq 0 ranks).
(** Euler: variable, layer, row, column, point *)
Definition eul_entries (ranks N NZ ns : nat) : list (list (states3 -> R)) :=
  map (fun r => loop 5 (fun v => loop NZ (fun l => loop N (fun i => loop N (fun j => loop (ns ^ 3) (fun p => [fun q : states3 => q (Z.of_nat r) v l i j p])))))) (seq 0 ranks).
(** [n] steps of an integrator, each from the result of the one before *)
Fixpoint steps {V : ModuleSpace R_Ring} (step : V -> outcome (V := V)) (n : nat) (last : answer (V := V)) : outcome (V := V) :=
  match n with O => Returned last | S n => match step (a_x last) with Returned a => steps step n a | o => o end end.
(** before the first step *)
Definition from {V : ModuleSpace R_Ring} (q : V) : answer (V := V) := Answer q 0 0 0 [].
(** two runs of pmex: both raise, or the same number of passes, substeps, steps rejected and so on, and the same values at all output times *)
Definition same_pmex {V W : ModuleSpace R_Ring} (rel : V -> W -> Prop) (o : option (fstate (X := V))) (o' : option (fstate (X := W))) : Prop :=
  match o, o' with Some f, Some f' => ctl f = ctl f' /\ (forall k, rel (w f k) (w f' k)) | None, None => True | _, _ => False end.
(** a multistep exponential integrator on two distributions: the same coefficients, and parts that do the same to the same vectors. [same_i]: the same state of the method that makes the first steps *)
Record same_epi {V W : ModuleSpace R_Ring} {I I' K : Type} (rel : V -> W -> Prop) (same_i : I -> I' -> Prop) (e : epi V I K) (e' : epi W I' K) : Prop := {
  se_A : EpiModel.A e = EpiModel.A e';
  se_first : EpiModel.first_row e = EpiModel.first_row e';
  se_rows : phi_rows e = phi_rows e';
  se_sub : init_substeps e = init_substeps e';
  se_rhs : same_map rel (rhs e) (rhs e');
  se_jac : forall q q' f f' v v', rel q q' -> rel f f' -> rel v v' -> rel (jac e q f v) (jac e' q' f' v');
  se_phi : forall k dt q q' f f' vec vec', rel q q' -> rel f f' -> Forall2 rel vec vec' -> fst (phi e k dt q f vec) = fst (phi e' k dt q' f' vec') /\ rel (snd (phi e k dt q f vec)) (snd (phi e' k dt q' f' vec'));
  se_init : forall i i' q q' dt, same_i i i' -> rel q q' -> same_i (fst (init_step e i q dt)) (fst (init_step e' i' q' dt)) /\ rel (snd (init_step e i q dt)) (snd (init_step e' i' q' dt)) }.
(** steps of the given lengths, each from the result of the one before *)
Fixpoint epi_run {V : ModuleSpace R_Ring} {I K : Type} (e : epi V I K) (s : EpiModel.state V I K) (q : V) (dts : list R) : option V :=
  match dts with [] => Some q | dt :: dts => match EpiModel.step e s q dt with None => None | Some (s, q) => epi_run e s q dts end end.
Definition same_option {V W : Type} (rel : V -> W -> Prop) (o : option V) (o' : option W) : Prop := match o, o' with Some v, Some v' => rel v v' | None, None => True | _, _ => False end.
