(** What is expected of a time step of an exponential method. Nothing here refers to the model of the integrator. *)
From Coq Require Import Reals List.
From Coquelicot Require Import Coquelicot.
Import ListNotations.
Local Open Scope R_scope.

(** a polynomial in t, coefficients from the lowest power: value and derivative *)
Fixpoint poly_at {V : ModuleSpace R_Ring} (a : list V) (t : R) : V := match a with [] => zero | x :: r => plus x (scal (V := V) t (poly_at r t)) end.
Fixpoint poly_slope {V : ModuleSpace R_Ring} (a : list V) (t : R) : V := match a with [] => zero | x :: r => plus (poly_at r t) (scal (V := V) t (poly_slope r t)) end.
(** sum over k of t^k / k! u_k *)
Fixpoint taylor {V : ModuleSpace R_Ring} (u : list V) (k : nat) (t : R) : V := match u with [] => zero | x :: r => plus (scal (V := V) (t ^ k / INR (fact k)) x) (taylor r (S k) t) end.
(** what the solvers for phi functions compute for the vectors u_0, u_1, ...: sum over k of t^k phi_k(t A) u_k, that is the value at t of the solution of y' = A y + u_1 + t u_2 + t^2/2 u_3 + ..., y(0) = u_0 *)
Definition phi_value {V : NormedModule R_AbsRing} (A : V -> V) (u : list V) (t : R) (w : V) : Prop :=
  exists y : R -> V, y 0 = hd zero u /\ (forall s, is_derive y s (plus (A (y s)) (taylor (tl u) 0 s))) /\ w = y t.
(** the step of size dt from q arrives at q' on a solution of U' = f(U) *)
Definition on_solution {V : NormedModule R_AbsRing} (f : V -> V) (q : V) (dt : R) (q' : V) : Prop :=
  exists U : R -> V, U 0 = q /\ (forall s, is_derive U s (f (U s))) /\ U dt = q'.
(** the numbers c are the roots of the polynomial with the coefficients a *)
Definition roots_of (a c : list R) : Prop := exists lead, lead <> 0 /\ forall x, poly_at (V := R_ModuleSpace) a x = lead * fold_right Rmult 1 (map (fun ci => x - ci) c).
(** linear maps *)
Definition linear {V : ModuleSpace R_Ring} (L : V -> V) : Prop := (forall x y, L (plus x y) = plus (L x) (L y)) /\ (forall (k : R) x, L (scal (V := V) k x) = scal (V := V) k (L x)).

(** a solver for phi functions without error for the operator A: one value per requested time *)
Definition exact_solver {V : NormedModule R_AbsRing} (A : V -> V) (solve : list R -> (V -> V) -> list V -> list V) : Prop :=
  forall ts u, length (solve ts A u) = length ts /\ forall i, (i < length ts)%nat -> phi_value A u (nth i ts 0) (nth i (solve ts A u) zero).

(** u' = L u + g(t), with the time as a first unknown whose derivative is 1 *)
Definition forced {V : NormedModule R_AbsRing} (L : V -> V) (g : R -> V) (x : R * V) : R * V := (1, plus (L (snd x)) (g (fst x))).
(** dt times its Jacobian at the time t0, where g has the slope d *)
Definition forced_jac {V : NormedModule R_AbsRing} (L : V -> V) (d : V) (dt : R) (x : R * V) : R * V := (0, scal (V := V) dt (plus (L (snd x)) (scal (V := V) (fst x) d))).
