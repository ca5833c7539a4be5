(** Model of the Jacobian-free Newton-Krylov solver: wx_factory/solvers/nonlin.py. Vectors are lists of exact reals, the parts of all processes together (the norms are global). *)
From Coq Require Import Reals List Bool Arith.
Import ListNotations.
Local Open Scope R_scope.

(** norms, tolerances and their quotients: finite numbers, inf and nan; they are never negative *)
Inductive num := Fin (r : R) | Inf | NaN.
(** a <= b *)
Definition le_num (a b : num) : bool :=
  match a, b with NaN, _ | _, NaN => false | _, Inf => true | Inf, Fin _ => false | Fin x, Fin y => if Rle_dec x y then true else false end.
(** a / b *)
Definition div_num (a b : num) : num :=
  match a, b with
  | NaN, _ | _, NaN => NaN | Inf, Inf => NaN | Inf, Fin _ => Inf | Fin _, Inf => Fin 0
  | Fin x, Fin y => if Req_EM_T y 0 then (if Req_EM_T x 0 then NaN else Inf) else Fin (x / y)
  end.

Definition vec := list R.
(** x + s * dx *)
Definition axpy (x : vec) (s : R) (dx : vec) : vec := map (fun p => fst p + s * snd p) (combine x dx).
Definition vneg (v : vec) : vec := map Ropp v.
Definition vsub (u v : vec) : vec := map (fun p => fst p - snd p) (combine u v).
Definition vscale (k : R) (v : vec) : vec := map (Rmult k) v.
(** global_operations.py: global_norm, global_inf_norm; the arrays are not empty *)
Definition norm2 (v : vec) : R := sqrt (fold_right Rplus 0 (map (fun x => x * x) v)).
Definition inf_norm (v : vec) : R := fold_right Rmax 0 (map Rabs v).

(** 196-201 -- KrylovJacobian.matvec; 191-194 -- omega, with rdiff = sqrt(eps) *)
Definition omega (rdiff : R) (x f : vec) : R := rdiff * Rmax 1 (inf_norm x) / Rmax 1 (inf_norm f).
Definition jac_matvec (F : vec -> vec) (rdiff : R) (x f v : vec) : vec :=
  let nv := norm2 v in if Req_EM_T nv 0 then vscale 0 v else
  let sc := omega rdiff x f / nv in vscale (/ sc) (vsub (F (axpy x sc v)) f).

(** the scalar searches of scipy: they ask for values of phi and give a step length, or None. The flag says whether phi keeps the value (130-144: derphi asks once without and once with) *)
Inductive search := Ask (s : R) (store : bool) (next : R -> search) | Stop (s : option R).
(** 125-127 -- tmp_s, tmp_phi, tmp_Fx *)
Record memory := Mem { m_s : R; m_phi : R; m_fx : vec }.
Section Search.
Variables (F : vec -> vec) (x fx dx : vec).
(** 130-140 *)
Definition phi (m : memory) (s : R) (store : bool) : R * memory :=
  if Req_EM_T s (m_s m) then (m_phi m, m) else
  let v := F (axpy x s dx) in let p := norm2 v * norm2 v in (p, if store then Mem s p v else m).
Fixpoint run_search (m : memory) (t : search) : option R * memory :=
  match t with Stop s => (s, m) | Ask s store next => let (p, m') := phi m s store in run_search m' (next p) end.
(** 124-170 -- _nonlin_line_search: the new x and F(x) *)
Definition line_search (strategy : R -> search) : vec * vec :=
  let phi0 := norm2 fx * norm2 fx in
  let (so, m) := run_search (Mem 0 phi0 fx) (strategy phi0) in
  let s := match so with Some s => s | None => 1 end in
  let x' := axpy x s dx in
  (x', if Req_EM_T s (m_s m) then m_fx m else F x').
End Search.

Record options := Opts { o_ftol : num; o_frtol : num; o_xtol : num; o_xrtol : num; o_maxiter : nat;
  (** scipy's search for this x, F(x), dx (it sees them through phi only), or None: full steps *)
  o_search : option (vec -> vec -> vec -> R -> search) }.
(** the result: [Unbound] is an UnboundLocalError (line 118); [Done x n r b]: what is returned, and whether the message of line 119 (true) or of line 116 (false) is printed *)
Inductive outcome := Unbound | Done (x : vec) (iterations : nat) (residuals : list R) (found : bool).
Record state := St { s_x : vec; s_fx : vec; s_norm : R; s_eta : R; s_dx : num }.

Section Newton.
(** [solve matvec b tol]: fgmres with the operator matvec; external *)
Variables (F : vec -> vec) (rdiff : R) (solve : (vec -> vec) -> vec -> R -> vec) (o : options).
(** 103-107; where Fx_norm is 0 the quotient is nan or inf and min and max give eta_max *)
Definition next_eta (eta old new : R) : R :=
  if Req_EM_T old 0 then 9999 / 10000 else
  let eta_A := 9 / 10 * (new * new) / (old * old) in
  if Rlt_dec (9 / 10 * (eta * eta)) (1 / 10) then Rmin (9999 / 10000) eta_A else Rmin (9999 / 10000) (Rmax eta_A (9 / 10 * (eta * eta))).
(** 88-109 *)
Definition newton_step (s : state) : state :=
  let tol := Rmin (s_eta s) (s_eta s * s_norm s) in
  let dx := vneg (solve (jac_matvec F rdiff (s_x s) (s_fx s)) (s_fx s) tol) in
  let (x', fx') := match o_search o with
    | Some strategy => line_search F (s_x s) (s_fx s) dx (strategy (s_x s) (s_fx s) dx)
    | None => let x' := axpy (s_x s) 1 dx in (x', F x') end in
  St x' fx' (norm2 fx') (next_eta (s_eta s) (s_norm s) (norm2 fx')) (Fin (inf_norm dx)).
(** 81-83 *)
Definition converged (f0 : R) (s : state) : bool :=
  let f := Fin (inf_norm (s_fx s)) in
  (le_num f (o_ftol o) && le_num (div_num f (o_frtol o)) (Fin f0)) && (le_num (s_dx s) (o_xtol o) && le_num (div_num (s_dx s) (o_xrtol o)) (Fin (inf_norm (s_x s)))).
(** 65-121 -- [k] passes are left, [n] have been made *)
Fixpoint newton_loop (k n : nat) (f0 : R) (s : state) (residuals : list R) : outcome :=
  match k with
  | O => Done (s_x s) (n - 1) residuals false
  | S k' => let r := residuals ++ [inf_norm (s_fx s)] in
      if converged f0 s then Done (s_x s) n r true else newton_loop k' (S n) f0 (newton_step s) r
  end.
(** 12-121 -- newton_krylov; the times in residuals are left out *)
Definition newton (x0 : vec) : outcome :=
  let fx := F x0 in
  if Nat.eqb (o_maxiter o) 0 then Unbound else newton_loop (o_maxiter o) 0 (inf_norm fx) (St x0 fx (norm2 fx) (1 / 1000) Inf) [].
End Newton.
