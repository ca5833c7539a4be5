(** Specification for C30: rooted trees and the order conditions of Runge-Kutta methods; the Taylor expansion of the solution of a linear
    problem with polynomial forcing. *)
From Coq Require Import Reals List QArith.
From Coquelicot Require Import Hierarchy.
From Verif Require Import RkModel RkSpec ButcherTables.
Import ListNotations.
Local Open Scope R_scope.

(** A rooted tree: a root and the subtrees that hang on it *)
Inductive tree := Node (subtrees : list tree).

(** Number of nodes *)
Fixpoint size (t : tree) : nat := match t with Node l => S (list_sum (map size l)) end.
(** Density gamma(t): the product over all nodes of the size of the subtree below *)
Fixpoint density (t : tree) : nat := match t with Node l => (size t * fold_right Nat.mul 1 (map density l))%nat end.

(** g 0 + ... + g (n-1) *)
Fixpoint rsum (n : nat) (g : nat -> R) : R := match n with O => 0 | S n' => rsum n' g + g n' end.

(** The i-th component of the elementary weight of a tree for the coefficients a_ij, i,j < n: the product over the subtrees of
    sum_j a_ij (weight of the subtree)_j *)
Fixpoint weight (n : nat) (a : nat -> nat -> R) (t : tree) (i : nat) : R :=
  match t with Node l => fold_right Rmult 1 (map (fun c => rsum n (fun j => a i j * weight n a c j)) l) end.

(** The order conditions of order p hold up to [eps]: sum_i b_i weight_i(t) = 1 / gamma(t) for all trees with at most p nodes *)
Definition order_conditions (n : nat) (a : nat -> nat -> R) (b : nat -> R) (p : nat) (eps : R) : Prop :=
  forall t, (size t <= p)%nat -> Rabs (rsum n (fun i => b i * weight n a t i) - / INR (density t)) <= eps.
(** The weights e annihilate, up to [eps], the elementary weights of all trees with at most p nodes *)
Definition null_conditions (n : nat) (a : nat -> nat -> R) (e : nat -> R) (p : nat) (eps : R) : Prop :=
  forall t, (size t <= p)%nat -> Rabs (rsum n (fun i => e i * weight n a t i)) <= eps.

(** Entries of a tableau *)
Definition a_ (tb : tableau) (i j : nat) : R := nth j (nth i (tA tb) []) 0.
Definition b_ (tb : tableau) (i : nat) : R := nth i (tB tb) 0.
Definition c_ (tb : tableau) (i : nat) : R := nth i (tC tb) 0.
Definition e_ (tb : tableau) (i : nat) : R := nth i (tE tb) 0.
(** The tableau with one more stage, the derivative at the new value: the error estimate may use it *)
Definition ea_ (tb : tableau) (i j : nat) : R := if Nat.ltb i (n_stages tb) then a_ tb i j else b_ tb j.

(** The problem x' = A x + u_1 + t u_2 + ... + t^(p-1)/(p-1)! u_p of phi_problem (RkSpec.v) *)
Definition linear_map {V : ModuleSpace R_Ring} (A : V -> V) : Prop :=
  (forall x z, A (plus x z) = plus (A x) (A z)) /\ (forall k x, A (scal (V := V) k x) = scal (V := V) k (A x)).
(** The n-th derivative of the forcing at the time tt *)
Definition forcing {V : ModuleSpace R_Ring} (u : list V) (tt : R) (n : nat) : V :=
  vsum (length u - 1 - n) (fun i => scal (V := V) (tt ^ i / INR (fact i)) (nth (n + i + 1) u zero)).
(** The derivatives at the time tt of the solution that has the value yy there: x^(n+1) = A x^(n) + (n-th derivative of the forcing) *)
Fixpoint derivative {V : ModuleSpace R_Ring} (A : V -> V) (u : list V) (tt : R) (yy : V) (n : nat) : V :=
  match n with O => yy | S n' => plus (A (derivative A u tt yy n')) (forcing u tt n') end.
(** The Taylor polynomial of degree p of that solution, at the time tt + hh *)
Definition taylor {V : ModuleSpace R_Ring} (A : V -> V) (u : list V) (tt : R) (yy : V) (p : nat) (hh : R) : V :=
  vsum (S p) (fun n => scal (V := V) (hh ^ n / INR (fact n)) (derivative A u tt yy n)).

(** An expression in the step size: hh^k (r_0 + hh r_1 + ... + hh^N r_N) *)
Definition higher {V : ModuleSpace R_Ring} (k N : nat) (r : nat -> V) (hh : R) : V := vsum N (fun i => scal (V := V) (hh ^ (k + i)) (r i)).

(** The parts the solution's derivatives consist of: A^k applied to the slope (j = 0) or to the j-th derivative of the forcing *)
Definition part {V : ModuleSpace R_Ring} (A : V -> V) (u : list V) (tt : R) (yy : V) (k j : nat) : V :=
  Nat.iter k A (match j with O => phi_problem A u tt yy | _ => forcing u tt j end).
(** sum over k + j = n of delta_kj A^k g_j *)
Definition perturbed {V : ModuleSpace R_Ring} (A : V -> V) (u : list V) (tt : R) (yy : V) (delta : nat -> nat -> R) (n : nat) : V :=
  vsum (S n) (fun k => scal (V := V) (delta k (n - k)%nat) (part A u tt yy k (n - k))).

(** A method behaves on linear problems with polynomial forcing as a method of order p with an error estimate of order q, up to perturbations of
    the coefficients by [eb] and [ee] *)
Definition linear_order (tb : tableau) (p q : nat) (eb ee : R) : Prop :=
  exists delta eta : nat -> nat -> R,
    (forall k j, (k + j < p)%nat -> Rabs (delta k j) <= eb) /\ (forall k j, (k + j < q)%nat -> Rabs (eta k j) <= ee) /\
    forall (V : ModuleSpace R_Ring) (A : V -> V) (u : list V) (tt : R) (yy : V), linear_map A -> exists (N : nat) (r r' : nat -> V),
      forall (s : solver V) (hh : R), tab s = tb -> (forall t x, fun_ s t x = phi_problem A u t x) ->
        y_new s tt hh yy (fun_ s tt yy) =
          plus (taylor A u tt yy p hh) (plus (vsum p (fun n => scal (V := V) (hh ^ S n) (perturbed A u tt yy delta n))) (higher (S p) N r hh)) /\
        err_estimate s tt hh yy (fun_ s tt yy) =
          plus (vsum q (fun n => scal (V := V) (hh ^ S n) (perturbed A u tt yy eta n))) (higher (S q) N r' hh).

(** The method whose propagating and embedded weights are exchanged *)
Definition exchanged (m : method) : method :=
  {| m_name := m_name m; m_stages := m_stages m; m_order := m_order m; m_est := m_est m; mA := mA m;
     mB := map (fun p => Qred (fst p + snd p)) (combine (mB m) (mE m)); mC := mC m; mE := map Qopp (mE m) |}.
