(** Specification for C32 and C36: Taylor polynomials of the exact solution, accuracy of a step, phi functions, polynomial right-hand sides. *)
From Coq Require Import Reals List.
From Coquelicot Require Import Hierarchy Series Derive Complex.
From Verif Require Import StepModel.
Import ListNotations.
Local Open Scope R_scope.

Section Linear.
Context {V : NormedModule R_AbsRing}.
Definition linear (L : V -> V) : Prop :=
  (forall x y, L (plus x y) = plus (L x) (L y)) /\ (forall (a : R) x, L (scal a x) = scal a (L x)).
Definition bounded (L : V -> V) (lam : R) : Prop := forall x, norm (L x) <= lam * norm x.

(** [f] is an affine function with the linear part L *)
Definition affine (f L : V -> V) : Prop := linear L /\ exists c, forall x, f x = plus (L x) c.
(** [fC] is the extension of [f] to complex arguments: f (x + i y) = f x + i L y *)
Definition complexified (f L : V -> V) (fC : V * V -> V * V) : Prop := forall x y, fC (x, y) = (f x, L y).

(** L applied n times *)
Fixpoint power (L : V -> V) (n : nat) (x : V) : V := match n with O => x | S n' => L (power L n' x) end.
(** The solution of Q' = f(Q), f affine with linear part L, has the derivatives f(Q), L f(Q), L^2 f(Q), ...: its Taylor polynomial of degree p after a time h,
    Q + h f(Q) + h^2/2 L f(Q) + ... + h^p/p! L^(p-1) f(Q) *)
Fixpoint taylor (p : nat) (f L : V -> V) (Q : V) (h : R) : V :=
  match p with O => Q | S p' => plus (taylor p' f L Q h) (scal (h ^ p / INR (fact p)) (power L p' (f Q))) end.

(** w = phi_k(J) x = sum over j of J^j x / (j+k)! *)
Definition phi (k : nat) (J : V -> V) (x w : V) : Prop := is_series (fun j => scal (/ INR (fact (j + k))) (power J j x)) w.

(** The exponential solver called with the operator J0 and any vectors a, b returns phi_0(J0) a + phi_1(J0) b, up to tol *)
Definition exponential (pmex : (V -> V) -> V -> V -> V) (J0 : V -> V) (tol : R) : Prop := forall J a b, (forall v, J v = J0 v) ->
  exists w0 w1, phi 0 J a w0 /\ phi 1 J b w1 /\ norm (minus (pmex J a b) (plus w0 w1)) <= tol.

(** The last value of the function whose zero is sought has at most the norm tol *)
Definition small (g : V -> V) (q : V) (tol : R) : Prop := norm (g q) <= tol.
End Linear.

(** A stepping method with states S is accurate to order p for Q' = L Q: from every state, the result of a short step differs from
    the Taylor polynomial of degree p by at most K h^(p+1) |Q|. *)
Definition accurate {V : NormedModule R_AbsRing} {S : Type} (p : nat) (step : S -> V -> R -> S * V) (L : V -> V) : Prop :=
  exists K d, 0 < d /\ forall s h Q, Rabs h <= d -> norm (minus (snd (step s Q h)) (taylor p L L Q h)) <= K * Rabs h ^ (p + 1) * norm Q.

(** A stepping method that also records the sizes of its steps, the latest first *)
Definition logged {V S} (step : S -> V -> R -> S * V) : S * list R -> V -> R -> (S * list R) * V :=
  fun sl Q h => let (s', Q') := step (fst sl) Q h in ((s', h :: snd sl), Q').
Definition total (l : list R) : R := fold_right Rplus 0 l.

(** Steps of the sizes [hs] one after the other *)
Fixpoint run {V S1 S2} (step : S1 -> S2 -> V -> R -> (S1 * S2) * V) (s1 : S1) (s2 : S2) (Q : V) (hs : list R) : (S1 * S2) * V :=
  match hs with
  | [] => ((s1, s2), Q)
  | h :: r => let '((s1', s2'), Q') := step s1 s2 Q h in run step s1' s2' Q' r
  end.

(** Polynomials in the components of a vector *)
Inductive poly := Const (c : R) | Comp (i : nat) | Add (a b : poly) | Mul (a b : poly).
Fixpoint eval (x : nat -> R) (p : poly) : R :=
  match p with Const c => c | Comp i => x i | Add a b => eval x a + eval x b | Mul a b => eval x a * eval x b end.
(** The same with complex arguments *)
Fixpoint evalC (z : nat -> C) (p : poly) : C :=
  match p with Const c => RtoC c | Comp i => z i | Add a b => Cplus (evalC z a) (evalC z b) | Mul a b => Cmult (evalC z a) (evalC z b) end.
Fixpoint degree (p : poly) : nat :=
  match p with Const _ => 0 | Comp _ => 1 | Add a b => Nat.max (degree a) (degree b) | Mul a b => degree a + degree b end.
(** d is the derivative of the polynomial at x in the direction v *)
Definition directional (p : poly) (x v : nat -> R) (d : R) : Prop := is_derive (fun t => eval (fun i => x i + t * v i) p) 0 d.

(** The real vectors with components numbered by nat, as a vector space (equality of functions is by functional extensionality) *)
From Coq Require Import FunctionalExtensionality Lra.
Definition vectors_AbelianGroup_mixin : AbelianGroup.mixin_of (nat -> R).
Proof.
  refine (AbelianGroup.Mixin (nat -> R) (fun x y i => x i + y i) (fun x i => - x i) (fun _ => 0) _ _ _ _);
    intros; apply functional_extensionality; intros i; ring.
Defined.
Definition vectors_mixin : ModuleSpace.mixin_of R_Ring (AbelianGroup.Pack (nat -> R) vectors_AbelianGroup_mixin (nat -> R)).
Proof.
  refine (ModuleSpace.Mixin R_Ring (AbelianGroup.Pack (nat -> R) vectors_AbelianGroup_mixin (nat -> R)) (fun a x i => a * x i) _ _ _ _);
    intros; apply functional_extensionality; intros i; cbn; ring.
Defined.
Definition vectors : ModuleSpace R_Ring := ModuleSpace.Pack R_Ring (nat -> R) (ModuleSpace.Class R_Ring (nat -> R) _ vectors_mixin) (nat -> R).

(** The right-hand side with the polynomials F as components, for real and for complex arguments *)
Definition field (F : nat -> poly) : vectors -> vectors := fun x i => eval x (F i).
Definition fieldC (F : nat -> poly) : vectors * vectors -> vectors * vectors :=
  fun z => (fun i => Re (evalC (fun j => (fst z j, snd z j)) (F i)), fun i => Im (evalC (fun j => (fst z j, snd z j)) (F i))).

(** The sum of the absolute values of all terms of the polynomial when the components have the absolute values y *)
Fixpoint magnitude (y : nat -> R) (p : poly) : R :=
  match p with Const c => Rabs c | Comp i => y i | Add a b => magnitude y a + magnitude y b | Mul a b => magnitude y a * magnitude y b end.

(** n steps of the size h one after the other *)
Fixpoint iterate {V S} (step : S -> V -> R -> S * V) (n : nat) (s : S) (Q : V) (h : R) : S * V :=
  match n with O => (s, Q) | S n' => let (s', Q') := step s Q h in iterate step n' s' Q' h end.

(** The nonlinear solver finds the exact zeros of the functions of BDF2 when the right-hand side is the constant c *)
Definition solves_const {V : NormedModule R_AbsRing} (newton : newton_t (V := NormedModule.ModuleSpace R_AbsRing V)) (c : V) : Prop :=
  (forall Q P h, h <> 0 -> let g := bdf2_fun (V := NormedModule.ModuleSpace R_AbsRing V) (fun _ => c) Q P h in g (newton g Q) = zero) /\
  (forall Q h, h <> 0 -> let g := bdf2_start_fun (V := NormedModule.ModuleSpace R_AbsRing V) (fun _ => c) Q h in g (newton g Q) = zero).
