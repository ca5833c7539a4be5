(** The control of the Krylov solver for phi functions: choice of substeps and of the basis size, output times, and the augmented part of the vectors.
    Models wx_factory/solvers/kiops.py. Numbers are exact reals; numpy's inf and nan are represented where they can occur (see raw_tau, raw_m).
    The orthogonalisation and the matrix exponential are not modelled here: each pass of the loop receives where the orthogonalisation breaks down (if it does) and the error estimate before abs. *)
From Coq Require Import Reals ZArith List Bool.
From Coquelicot Require Import Hierarchy.
Import ListNotations.
Local Open Scope R_scope.

Definition ltR (a b : R) : bool := if Rlt_dec a b then true else false.
Definition eqR (a b : R) : bool := if Req_EM_T a b then true else false.
(** numpy.ceil on reals *)
Definition ceil (x : R) : Z := (- Int_part (- x))%Z.

(** the arguments, kiops.py lines 10-21 *)
Record args := Args { tau_out : list R; tol : R; m_init : Z; mmin : Z; mmax : Z }.

(** arguments that make sense: an output time, a positive tolerance and bounds of the basis size in order *)
Definition good (a : args) : Prop := tau_out a <> [] /\ 0 < tol a /\ (1 <= mmin a <= mmax a)%Z.
(** sign, numpy.sign *)
Definition sign (x : R) : R := if Rlt_dec 0 x then 1 else if Rlt_dec x 0 then -1 else 0.
Definition last_out (a : args) : R := nth (length (tau_out a) - 1) (tau_out a) 0.
(** lines 97, 99 *)
Definition sgn (a : args) : R := sign (last_out a).
Definition tau_end (a : args) : R := Rabs (last_out a).
(** lines 134-141 *)
Definition gamma (a : args) : R := if Rlt_dec 1 (tau_end a) then 0.2 else 0.9.
Definition gamma_mmax (a : args) : R := if Rlt_dec 1 (tau_end a) then 0.1 else 0.6.
Definition delta : R := 1.4.

(** the variables that are kept from one pass of the loop to the next. oldtau and omega start as nan: None.
    w[k, :] is represented by the (signed) time at which it is evaluated, times k; substeps lists the accepted substeps, last first, and is not a variable of the code *)
Record state := State { tau_now : R; tau : R; m : Z; j : Z; ireject : nat; reject : nat; step : nat; krystep : Z; exps : nat; conv : R;
  oldm : Z; oldtau : option R; omega : option R; order : R; orderold : bool; kest : R; kestold : bool; l : nat; times : nat -> R; substeps : list R }.

(** lines 85-150. order and kest are unbound at first; they are set before their first use (lines 248-250 and 258-260) *)
Definition start (a : args) : state :=
  State 0 (tau_end a) (Z.max (mmin a) (Z.min (m_init a) (mmax a))) 0 0 0 0 0 0 0 (-1) None None 0 true 0 true 0 (fun _ => 0) [].

(** what a pass of the loop learns from the linear algebra: the iteration at which the new vector is below the tolerance, and beta * nrm * F[j - 1, j] *)
Record probe := Probe { breakdown : option Z; estimate : R }.

(** lines 176-211: j and happy after the orthogonalisation *)
Definition arnoldi (s : state) (b : option Z) : Z * bool :=
  match b with Some h => if ((j s <? h) && (h <=? m s))%Z then (h, true) else (Z.max (j s) (m s), false) | None => (Z.max (j s) (m s), false) end.
(** line 211: the breakdown iteration is not counted *)
Definition new_krylov (s : state) (j1 : Z) (happy : bool) : Z := if happy then (j1 - 1 - j s)%Z else (j1 - j s)%Z.

Definition neq_opt (x : R) (o : option R) : bool := match o with Some y => negb (eqR x y) | None => true end.
Definition eq_opt (x : R) (o : option R) : bool := match o with Some y => eqR x y | None => false end.

(** lines 245-252: (order, orderold); None when math.log raises because its argument is 0. A nan from the previous omega gives max(1.0, nan) = 1.0 *)
Definition estimate_order (s : state) (j1 : Z) (om : R) : option (R * bool) :=
  if ((m s =? oldm s)%Z && neq_opt (tau s) (oldtau s) && (1 <=? ireject s)%nat) then
    match omega s, oldtau s with
    | Some old, Some ot => if Rlt_dec 0 (om / old) then Some (Rmax 1 (ln (om / old) / ln (tau s / ot)), false) else None
    | _, _ => Some (1, false)
    end
  else if orderold s || (ireject s =? 0)%nat then Some (IZR j1 / 4, true)
  else Some (order s, true).

(** lines 255-262: (kest, kestold). With omega = 0 the power is inf; the value is then not used (see raw_m) and 2 stands for it *)
Definition estimate_k (s : state) (om : R) : R * bool :=
  if (negb (m s =? oldm s)%Z && eq_opt (tau s) (oldtau s) && (1 <=? ireject s)%nat) then
    match omega s with
    | Some old => if Rlt_dec 0 (om / old) then (Rmax 1.1 (Rpower (om / old) (1 / IZR (oldm s - m s))), false) else (2, false)
    | None => (1.1, false)
    end
  else if kestold s || (ireject s =? 0)%nat then (2, true)
  else (kest s, true).

(** tau * (gamma / omega) ** (1 / order), lines 272 and 281; None is inf (omega = 0) *)
Definition raw_tau (t g om ord : R) : option R := if Rlt_dec 0 om then Some (t * Rpower (g / om) (1 / ord)) else None.
(** xp.ceil(j + xp.log(omega / gamma) / xp.log(kest)), line 275; None is -inf or nan (omega = 0) *)
Definition raw_m (j1 : Z) (om g k : R) : option Z := if Rlt_dec 0 om then Some (ceil (IZR j1 + ln (om / g) / ln k)) else None.

Definition min_inf (x : R) (o : option R) : R := match o with Some y => Rmin x y | None => x end.
(** line 273 *)
Definition tau_opt (remaining t : R) (raw : option R) : R := Rmin remaining (Rmax (t / 5) (min_inf (5 * t) raw)).
(** line 276 *)
Definition m_opt (a : args) (m0 : Z) (raw : option Z) : Z :=
  let inner := match raw with Some r => Z.max (3 * m0 / 4) (Z.min r (- (- (4 * m0) / 3))) | None => (3 * m0 / 4)%Z end in
  Z.max (mmin a) (Z.min (mmax a) inner).

(** the result of the error estimation, lines 227-288 *)
Record decision := Decision { d_omega : R; d_err : R; d_tau : R; d_m : Z; d_order : R; d_orderold : bool; d_kest : R; d_kestold : bool }.
Definition decide (a : args) (s : state) (j1 : Z) (happy : bool) (est : R) : option decision :=
  if happy then
    (* lines 228-233 *)
    Some (Decision 0 0 (Rmin (tau_end a - (tau_now s + tau s)) (tau s)) (m s) (order s) (orderold s) (kest s) (kestold s))
  else
    let err := Rabs est in
    let om := tau_end a * err / (tau s * tol a) in
    match estimate_order s j1 om with
    | None => None
    | Some (ord, oo) =>
      let (k, ko) := estimate_k s om in
      let remaining := if ltR delta om then tau_end a - tau_now s else tau_end a - (tau_now s + tau s) in
      let same_tau := Rmin remaining (tau s) in
      let topt := tau_opt remaining (tau s) (raw_tau (tau s) (gamma a) om ord) in
      let mopt := m_opt a (m s) (raw_m j1 om (gamma a) k) in
      let '(mn, tn) :=
        if (j1 =? mmax a)%Z then
          if ltR delta om then (j1, Rmin (tau_end a - tau_now s) (match raw_tau (tau s) (gamma_mmax a) om ord with Some r => Rmax (tau s / 5) r | None => tau s end))
          else (m s, topt)
        else (mopt, same_tau) in
      Some (Decision om err tn mn ord oo k ko)
    end.

(** lines 298-302 *)
Definition blown (a : args) (s : state) : nat := length (filter (fun k => ltR (Rabs (nth k (tau_out a) 0)) (Rabs (tau_now s + tau s))) (seq (l s) (length (tau_out a) - l s))).
(** lines 304-317: the rows that are written. The expm of line 310 is taken over sgn * tauPhantom from the start of the substep, the one of line 221 over sgn * tau *)
Definition write_rows (a : args) (s : state) : nat -> R :=
  fun k => let b := blown a s in
    if (k =? l s + b)%nat then sgn a * tau_now s + sgn a * tau s
    else if ((l s <=? k)%nat && (k <? l s + b)%nat) then sgn a * tau_now s + sgn a * (nth k (tau_out a) 0 - tau_now s)
    else times s k.

(** one pass, lines 155-338 *)
Definition pass (a : args) (s : state) (p : probe) : option state :=
  let (j1, happy) := arnoldi s (breakdown p) in
  match decide a s j1 happy (estimate p) with
  | None => None
  | Some d =>
    let k1 := (krystep s + new_krylov s j1 happy)%Z in
    if ltR delta (d_omega d) then
      (* lines 328-332 *)
      Some (State (tau_now s) (d_tau d) (d_m d) j1 (S (ireject s)) (reject s) (step s) k1 (S (exps s)) (conv s) (m s) (Some (tau s)) (Some (d_omega d)) (d_order d) (d_orderold d) (d_kest d) (d_kestold d) (l s) (times s) (substeps s))
    else
      (* lines 293-325 *)
      Some (State (tau_now s + tau s) (d_tau d) (d_m d) 0 0 (reject s + ireject s) (S (step s)) k1 (S (exps s)) (conv s + d_err d) (m s) (Some (tau s)) (Some (d_omega d)) (d_order d) (d_orderold d) (d_kest d) (d_kestold d)
        (l s + blown a s) (write_rows a s) (tau s :: substeps s))
  end.

(** the loop of line 152, as far as the given probes go *)
Fixpoint run (a : args) (ps : list probe) (s : state) : option state :=
  match ps with
  | [] => Some s
  | p :: ps => if Rlt_dec (tau_now s) (tau_end a) then match pass a s p with None => None | Some s' => run a ps s' end else Some s
  end.

(** ** The augmented part of the vectors *)

(** lines 120-125 and 128: mu = 2 ** ex, u_flip = 2 ** (-ex) * flipud(u[1:, :]). Row k of u_flip is row p - k of u times nu *)
Definition mu (ex : Z) : R := powerRZ 2 ex.
Definition nu (ex : Z) : R := powerRZ 2 (- ex).
(** lines 160-163: V[0, n + k] before the division by beta *)
Definition augmented (p : nat) (now mu : R) (k : nat) : R :=
  if (k <? p - 1)%nat then let i := (p - k + 1)%nat in now ^ i / INR (fact i) * mu
  else mu.
(** lines 182-183: the augmented part of the product *)
Definition shift (p : nat) (e : nat -> R) (k : nat) : R := if (k <? p - 1)%nat then e (S k) else 0.
(** line 181: the first part of the product, A(v) + e @ u_flip (p >= 1) *)
Definition product {E : NormedModule R_AbsRing} (A : E -> E) (u : nat -> E) (ex : Z) (p : nat) (v : E) (e : nat -> R) : E :=
  Hierarchy.plus (A v) (sum_n (fun k => Hierarchy.scal (e k) (Hierarchy.scal (nu ex) (u (p - k)%nat))) (p - 1)).
(** lines 77-83: the number p of rows of u after the first, and whether the rows can be stacked: with a single row, row_stack joins it (of length n) with a row of length len(u) = 1 *)
Definition stacked (ppo n : nat) : option nat := if (ppo =? 1)%nat then if (n =? 1)%nat then Some 1%nat else None else Some (ppo - 1)%nat.
