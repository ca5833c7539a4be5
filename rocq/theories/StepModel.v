(** Jacobian-vector products and the one-step and two-step time integrators of WxFactory, over an abstract real vector space. *)
From Coq Require Import Reals List.
From Coquelicot Require Import Hierarchy.
Import ListNotations.
Local Open Scope R_scope.

(** ** solvers/matvec.py *)
Section Matvec.
Context {V : ModuleSpace R_Ring}.

(** matvec.py 59: sqrt of the spacing of double precision numbers at 1 *)
Definition eps_complex : R := sqrt (/ 2 ^ 52).
(** matvec.py 64, 84: sqrt of the spacing of single precision numbers at 1 *)
Definition eps_fd : R := sqrt (/ 2 ^ 23).

(** matvec.py 57-61 (matvec_fun, method "complex"). A complex vector is the pair of its real and imaginary part; [rhsC] is the right-hand side
    run on complex numbers. Reshaping and flattening (60, 68) do not change the sequence of the values and are left out. *)
Definition matvec_complex (vec : V) (dt : R) (Q : V) (rhsC : V * V -> V * V) : V :=
  scal (V := V) dt (scal (V := V) (/ eps_complex) (snd (rhsC (Q, scal (V := V) eps_complex vec)))).

(** matvec.py 62-66 (matvec_fun, any other method) *)
Definition matvec_fd (vec : V) (dt : R) (Q rhs : V) (handle : V -> V) : V :=
  scal (V := V) (/ eps_fd) (scal (V := V) dt (minus (handle (plus Q (scal (V := V) eps_fd vec))) rhs)).

(** matvec.py 76-88 (matvec_rat) *)
Definition matvec_rat (vec : V) (dt : R) (Q rhs : V) (handle : V -> V) : V :=
  minus vec (scal (V := V) (/ 2) (scal (V := V) (/ eps_fd) (scal (V := V) dt (minus (handle (plus Q (scal (V := V) eps_fd vec))) rhs)))).
End Matvec.

Section Steps.
Context {V : ModuleSpace R_Ring}.

(** newton_krylov (solvers/nonlin.py): given the function and the starting point, returns an approximate zero. An arbitrary function here. *)
Definition newton_t := (V -> V) -> V -> V.
(** fgmres (solvers/fgmres.py), or gcrot: given the operator, the right-hand side and the starting point. An arbitrary function here. *)
Definition linear_t := (V -> V) -> V -> V -> V.
(** pmex (solvers/pmex.py) with the output time 1: given the operator and the two vectors. An arbitrary function here. *)
Definition pmex_t := (V -> V) -> V -> V -> V.

(** euler1.py 10-12 *)
Definition euler1 (rhs : V -> V) (Q : V) (dt : R) : V := plus Q (scal (V := V) dt (rhs Q)).

(** tvdrk3.py 12-19 *)
Definition tvdrk3 (rhs : V -> V) (Q : V) (dt : R) : V :=
  let Q1 := plus Q (scal (V := V) dt (rhs Q)) in
  let Q2 := plus (plus (scal (V := V) (3 / 4) Q) (scal (V := V) (1 / 4) Q1)) (scal (V := V) dt (scal (V := V) (1 / 4) (rhs Q1))) in
  plus (plus (scal (V := V) (1 / 3) Q) (scal (V := V) (2 / 3) Q2)) (scal (V := V) dt (scal (V := V) (2 / 3) (rhs Q2))).

(** crank_nicolson.py 14-15, 18-19 *)
Definition cn_fun (rhs : V -> V) (Q : V) (dt : R) (Qp : V) : V :=
  minus (scal (V := V) (/ dt) (minus Qp Q)) (scal (V := V) (1 / 2) (plus (rhs Qp) (rhs Q))).
(** crank_nicolson.py 17-41 *)
Definition crank_nicolson (newton : newton_t) (rhs : V -> V) (Q : V) (dt : R) : V := newton (cn_fun rhs Q dt) Q.

(** backward_euler.py 21-22 *)
Definition be_fun (rhs : V -> V) (Q : V) (dt : R) (Qp : V) : V := minus (scal (V := V) (/ dt) (minus Qp Q)) (rhs Qp).
(** backward_euler.py 20-44 *)
Definition backward_euler (newton : newton_t) (rhs : V -> V) (Q : V) (dt : R) : V := newton (be_fun rhs Q dt) Q.

(** imex2.py 19-22 *)
Definition imex_fun (rhs_exp rhs_imp : V -> V) (Q : V) (dt : R) (v : V) : V :=
  minus (minus v (scal (V := V) (dt / 2) (rhs_imp v))) (plus Q (scal (V := V) (dt / 2) (rhs_exp Q))).
(** imex2.py 18-27 *)
Definition imex2 (newton : newton_t) (rhs_exp rhs_imp : V -> V) (Q : V) (dt : R) : V :=
  let Y1 := newton (imex_fun rhs_exp rhs_imp Q dt) Q in
  plus Q (scal (V := V) dt (plus (rhs_imp Y1) (rhs_exp Y1))).

(** bdf2.py 23: the function of one start-up substep *)
Definition bdf2_start_fun (rhs : V -> V) (newQ : V) (init_dt : R) (Qp : V) : V :=
  minus (scal (V := V) (/ init_dt) (minus Qp newQ)) (scal (V := V) (1 / 2) (rhs Qp)).
(** bdf2.py 21-25: the start-up loop *)
Fixpoint bdf2_start (newton : newton_t) (rhs : V -> V) (init_dt : R) (n : nat) (newQ : V) : V :=
  match n with O => newQ | S n' => bdf2_start newton rhs init_dt n' (newton (bdf2_start_fun rhs newQ init_dt) newQ) end.
(** bdf2.py 29-30 *)
Definition bdf2_fun (rhs : V -> V) (Q Qprev : V) (dt : R) (Qp : V) : V :=
  minus (scal (V := V) (/ dt) (plus (minus Qp (scal (V := V) (4 / 3) Q)) (scal (V := V) (1 / 3) Qprev))) (scal (V := V) (2 / 3) (rhs Qp)).
(** bdf2.py 16-44; the state is Qprev (14, 42) *)
Definition bdf2 (newton : newton_t) (rhs : V -> V) (init_substeps : nat) (Qprev : option V) (Q : V) (dt : R) : option V * V :=
  (Some Q, match Qprev with
           | None => bdf2_start newton rhs (dt / INR init_substeps) init_substeps Q
           | Some P => newton (bdf2_fun rhs Q P dt) Q
           end).

(** ros2.py 24-81 *)
Definition ros2_A (rhs : V -> V) (Q : V) (dt : R) : V -> V := fun v => matvec_rat v dt Q (rhs Q) rhs.
Definition ros2_b (rhs : V -> V) (Q : V) (dt : R) : V := plus (ros2_A rhs Q dt Q) (scal (V := V) dt (rhs Q)).
Definition ros2 (linear : linear_t) (rhs : V -> V) (Q : V) (dt : R) : V := linear (ros2_A rhs Q dt) (ros2_b rhs Q dt) Q.

(** rosexp2.py 28-29 and partrosexp2.py 29-36 *)
Definition J_exp (rhs_fullC rhs_impC : V * V -> V * V) (Q : V) (dt : R) (v : V) : V :=
  minus (matvec_complex v dt Q rhs_fullC) (matvec_complex v dt Q rhs_impC).
(** rosexp2.py 31-35: the vectors given to the exponential solver are 0 and the full right-hand side *)
Definition rosexp2_phiv (pmex : pmex_t) (rhs_full : V -> V) (rhs_fullC rhs_impC : V * V -> V * V) (Q : V) (dt : R) : V :=
  pmex (J_exp rhs_fullC rhs_impC Q dt) zero (rhs_full Q).
(** rosexp2.py 45-48 *)
Definition rosexp2_b (pmex : pmex_t) (rhs_full rhs_imp : V -> V) (rhs_fullC rhs_impC : V * V -> V * V) (Q : V) (dt : R) : V :=
  plus (matvec_rat Q dt Q (rhs_imp Q) rhs_imp) (scal (V := V) dt (rosexp2_phiv pmex rhs_full rhs_fullC rhs_impC Q dt)).
(** rosexp2.py 21-74 *)
Definition rosexp2 (pmex : pmex_t) (linear : linear_t) (rhs_full rhs_imp : V -> V) (rhs_fullC rhs_impC : V * V -> V * V) (Q : V) (dt : R) : V :=
  linear (fun v => matvec_rat v dt Q (rhs_imp Q) rhs_imp) (rosexp2_b pmex rhs_full rhs_imp rhs_fullC rhs_impC Q dt) Q.

(** partrosexp2.py 24-27, 41-46 *)
Definition partrosexp2_phiv (pmex : pmex_t) (rhs_full rhs_imp : V -> V) (rhs_fullC rhs_impC : V * V -> V * V) (Q : V) (dt : R) : V :=
  pmex (J_exp rhs_fullC rhs_impC Q dt) (scal (V := V) (1 / 2) (rhs_imp Q)) (minus (rhs_full Q) (rhs_imp Q)).
(** partrosexp2.py 56-57 *)
Definition partrosexp2_A (rhs_impC : V * V -> V * V) (Q : V) (dt : R) (v : V) : V := minus v (scal (V := V) (/ 2) (matvec_complex v dt Q rhs_impC)).
(** partrosexp2.py 59 *)
Definition partrosexp2_b (pmex : pmex_t) (rhs_full rhs_imp : V -> V) (rhs_fullC rhs_impC : V * V -> V * V) (Q : V) (dt : R) : V :=
  plus (partrosexp2_A rhs_impC Q dt Q)
       (scal (V := V) dt (plus (partrosexp2_phiv pmex rhs_full rhs_imp rhs_fullC rhs_impC Q dt) (scal (V := V) (1 / 2) (rhs_imp Q)))).
(** partrosexp2.py 22-85 *)
Definition partrosexp2 (pmex : pmex_t) (linear : linear_t) (rhs_full rhs_imp : V -> V) (rhs_fullC rhs_impC : V * V -> V * V) (Q : V) (dt : R) : V :=
  linear (partrosexp2_A rhs_impC Q dt) (partrosexp2_b pmex rhs_full rhs_imp rhs_fullC rhs_impC Q dt) Q.
End Steps.

(** ** splitting.py. The sub-integrators are arbitrary objects with a state of their own. *)
Section Splitting.
Context {V : Type} {S1 S2 : Type}.
Variable step1 : S1 -> V -> R -> S1 * V.
Variable step2 : S2 -> V -> R -> S2 * V.

(** splitting.py 11-14 *)
Definition lie (s1 : S1) (s2 : S2) (Q : V) (dt : R) : (S1 * S2) * V :=
  let (s1', Q1) := step1 s1 Q dt in
  let (s2', Q2) := step2 s2 Q1 dt in
  ((s1', s2'), Q2).

(** splitting.py 23-27 *)
Definition strang (s1 : S1) (s2 : S2) (Q : V) (dt : R) : (S1 * S2) * V :=
  let (s1', Q1) := step1 s1 Q (dt / 2) in
  let (s2', Q2) := step2 s2 Q1 dt in
  let (s1'', Q3) := step1 s1' Q2 (dt / 2) in
  ((s1'', s2'), Q3).

(** splitting.py 36-41: the rows of alpha. The constructor itself raises before it gets there: line 32 omits the argument of the constructor
    of the base class and line 36 uses numpy, which the file does not import. *)
Definition os22_alpha (p : R) : list (R * R) := [((2 * p - 1) / (2 * p - 2), 1 - p); (- 1 / (2 * p - 2), p)].

(** splitting.py 44-49 *)
Fixpoint os22_loop (rows : list (R * R)) (s1 : S1) (s2 : S2) (Q : V) (dt : R) : (S1 * S2) * V :=
  match rows with
  | [] => ((s1, s2), Q)
  | (a1, a2) :: r =>
      let (s1', Q1) := if Req_EM_T a1 0 then (s1, Q) else step1 s1 Q (a1 * dt) in
      let (s2', Q2) := if Req_EM_T a2 0 then (s2, Q1) else step2 s2 Q1 (a2 * dt) in
      os22_loop r s1' s2' Q2 dt
  end.
Definition os22 (p : R) := os22_loop (os22_alpha p).
End Splitting.
