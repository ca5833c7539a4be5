(** Model of the multistep exponential integrators: wx_factory/integrators/epi.py and epi_stiff.py. *)
From Coq Require Import Reals QArith Qreals List Bool Lra.
From Coquelicot Require Import Hierarchy.
Import ListNotations.
Local Open Scope R_scope.

(** epi.py:46-63 -- the coefficient tables.  Exact rationals; the code has the nearest doubles.  [None]: ValueError. *)
Definition table (order : nat) : option (list (list Q)) :=
  match order with
  | 2%nat => Some [[]]
  | 3%nat => Some [[2 # 3]]
  | 4%nat => Some [[-3 # 10; 3 # 40]; [32 # 5; -11 # 10]]
  | 5%nat => Some [[-4 # 5; 2 # 5; -4 # 45]; [12 # 1; -9 # 2; 8 # 9]; [3 # 1; 0 # 1; -1 # 3]]
  | 6%nat => Some [[-49 # 60; 351 # 560; -359 # 1260; 367 # 6720];
                   [92 # 7; -99 # 14; 176 # 63; -1 # 2];
                   [485 # 21; -151 # 14; 23 # 9; -31 # 168]]
  | _ => None
  end%Q.

(** epi.py:65 -- A.shape *)
Definition n_rows {T} (A : list (list T)) : nat := length A.
Definition n_cols {T} (A : list (list T)) : nat := match A with [] => 0%nat | r :: _ => length r end.
(** epi.py:65-69 -- max_phi *)
Definition max_phi (order : nat) (A : list (list Q)) : nat := ((if Nat.eqb order 2 then n_rows A - 1 else n_rows A) + 1)%nat.

Section Integrator.
Variable V : ModuleSpace R_Ring.
(** the start-up method's state; the state of the exponential solver (krylov_size) *)
Variables I K : Type.

(** What the constructor fixes.  Epi: [first_row] = 2 (epi.py:114), EpiStiff: [first_row] = 3 (epi_stiff.py:77-79).
    [phi] stands for the exponential solvers (epi.py:118-348): from krylov_size, dt, Q, rhs(Q) and the rows of vec to the
    new krylov_size and phiv.  [jac Q rhs v] is matvec_fun(v, 1.0, Q, rhs, ...) (epi.py:109).  [init_step] is
    init_method.step.  A is real here. *)
Record epi := { A : list (list R); first_row : nat; phi_rows : nat; rhs : V -> V; jac : V -> V -> V -> V;
  phi : K -> R -> V -> V -> list V -> K * V; init_step : I -> V -> R -> I * V; init_substeps : nat }.
Variable e : epi.
Definition n_prev : nat := n_cols (A e).

Record state := { previous_Q : list V; previous_rhs : list V; dt_ : R; krylov : K; init_state : I }.
(** epi.py:70-72 *)
Definition initial (k : K) (i : I) : state := {| previous_Q := []; previous_rhs := []; dt_ := 0; krylov := k; init_state := i |}.

(** epi.py:85 -- if self.dt and abs(self.dt - dt) > 1e-10 *)
Definition dt_changed (old new : R) : bool :=
  (if Req_EM_T old 0 then false else true) && (if Rlt_dec (/ 10 ^ 10) (Rabs (old - new)) then true else false).

(** epi.py:95-96 -- init_substeps calls *)
Fixpoint substeps (n : nat) (i : I) (q : V) (h : R) : I * V :=
  match n with O => (i, q) | S n' => let (i', q') := init_step e i q h in substeps n' i' q' h end.

(** vec[k, :] += x; [None]: IndexError *)
Fixpoint add_to (vec : list V) (k : nat) (x : V) : option (list V) :=
  match vec, k with
  | [], _ => None
  | v :: r, O => Some (plus v x :: r)
  | v :: r, S k' => match add_to r k' x with Some r' => Some (v :: r') | None => None end
  end.
(** epi.py:114-116 -- the inner loop over enumerate(A[:, i], start) *)
Fixpoint add_column (vec : list V) (k : nat) (column : list R) (r : V) : option (list V) :=
  match column with
  | [] => Some vec
  | a :: column' => match add_to vec k (scal (V := V) a r) with Some vec' => add_column vec' (S k) column' r | None => None end
  end.
(** epi.py:108-116 -- the loop over i in range(n_prev); previous_Q[i] and previous_rhs[i] raise IndexError when missing *)
Fixpoint add_previous (vec : list V) (q f : V) (i n : nat) (pq pr : list V) : option (list V) :=
  match n with
  | O => Some vec
  | S n' =>
      match nth_error pq i, nth_error pr i with
      | Some qi, Some ri =>
          let r := minus (minus ri f) (jac e q f (minus qi q)) in
          match add_column vec (first_row e) (map (fun row => nth i row 0) (A e)) r with
          | Some vec' => add_previous vec' q f (S i) n' pq pr
          | None => None
          end
      | _, _ => None
      end
  end.
(** epi.py:106-107 -- vec = zeros((max_phi + 1, ...)); vec[1, :] = rhs.  The constructors make max_phi at least 1. *)
Definition vec0 (f : V) : list V := zero :: f :: repeat zero (phi_rows e - 2).

(** deque.pop: the rightmost element goes *)
Definition pop (l : list V) : list V := removelast l.

(** epi.py:81-360 -- __step__; [None]: an IndexError *)
Definition step (s : state) (q : V) (dt : R) : option (state * V) :=
  let pq := if dt_changed (dt_ s) dt then [] else previous_Q s in
  let pr := if dt_changed (dt_ s) dt then [] else previous_rhs s in
  if (length pq <? n_prev)%nat then
    let (i', q') := substeps (init_substeps e) (init_state s) q (dt / INR (init_substeps e)) in
    Some ({| previous_Q := q :: pq; previous_rhs := rhs e q :: pr; dt_ := dt; krylov := krylov s; init_state := i' |}, q')
  else
    let f := rhs e q in
    match add_previous (vec0 f) q f 0 n_prev pq pr with
    | None => None
    | Some vec =>
        let (k', phiv) := phi e (krylov s) dt q f vec in
        let pq' := if (0 <? n_prev)%nat then q :: pop pq else pq in
        let pr' := if (0 <? n_prev)%nat then f :: pop pr else pr in
        Some ({| previous_Q := pq'; previous_rhs := pr'; dt_ := dt; krylov := k'; init_state := init_state s |},
              plus q (scal (V := V) dt phiv))
    end.

(** A sequence of calls on one integrator object, in order *)
Fixpoint steps (s : state) (calls : list (V * R)) : option (state * list V) :=
  match calls with
  | [] => Some (s, [])
  | (q, dt) :: r =>
      match step s q dt with
      | None => None
      | Some (s', q') => match steps s' r with None => None | Some (s'', qs) => Some (s'', q' :: qs) end
      end
  end.
End Integrator.
Arguments A {V I K} _.
Arguments first_row {V I K} _.
Arguments phi_rows {V I K} _.
Arguments rhs {V I K} _ _.
Arguments jac {V I K} _ _ _ _.
Arguments phi {V I K} _ _ _ _ _ _.
Arguments init_step {V I K} _ _ _ _.
Arguments init_substeps {V I K} _.
Arguments n_prev {V I K} _.
Arguments previous_Q {V I K} _.
Arguments previous_rhs {V I K} _.
Arguments dt_ {V I K} _.
Arguments krylov {V I K} _.
Arguments init_state {V I K} _.
Arguments initial {V I K} _ _.
Arguments substeps {V I K} _ _ _ _ _.
Arguments step {V I K} _ _ _ _.
Arguments steps {V I K} _ _ _.

(** epi.py:30-79 and epi_stiff.py:15-42: the shapes the constructors can produce -- a rectangular table that fits in vec *)
Definition well_formed {V I K} (e : epi V I K) : Prop :=
  (1 <= init_substeps e)%nat /\ Forall (fun row => length row = n_prev e) (A e) /\ (1 <= first_row e)%nat /\ (2 <= phi_rows e)%nat /\
  (n_prev e = 0%nat \/ (first_row e + length (A e) <= phi_rows e)%nat).

(** epi.py:30-79 -- Epi(order), with phi_rows = max_phi + 1 (line 106) *)
Definition Epi {V : ModuleSpace R_Ring} {I K : Type} (order : nat) (r : V -> V) (j : V -> V -> V -> V) (p : K -> R -> V -> V -> list V -> K * V)
  (init : I -> V -> R -> I * V) (sub : nat) : option (epi V I K) :=
  match table order with
  | None => None
  | Some A => Some {| A := map (map Q2R) A; first_row := 2; phi_rows := max_phi order A + 1; rhs := r; jac := j; phi := p;
                      init_step := init; init_substeps := sub |}
  end.
(** epi_stiff.py:25-42 -- EpiStiff(order); [alpha] is the matrix of alpha_coeff, entry by entry (AlphaModel.v) *)
Definition EpiStiff {V : ModuleSpace R_Ring} {I K : Type} (order : nat) (alpha : nat -> nat -> R) (r : V -> V) (j : V -> V -> V -> V)
  (p : K -> R -> V -> V -> list V -> K * V) (init : I -> V -> R -> I * V) (sub : nat) : option (epi V I K) :=
  if (order <? 2)%nat then None else
  Some {| A := map (fun k => map (alpha k) (seq 0 (order - 2))) (seq 0 (order - 2)); first_row := 3;
          phi_rows := (if (2 <? order)%nat then order else 1) + 1; rhs := r; jac := j; phi := p; init_step := init; init_substeps := sub |}.
