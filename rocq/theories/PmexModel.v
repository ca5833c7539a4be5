(** The default solver for phi functions. Models wx_factory/solvers/pmex.py as a whole, and the linear algebra of wx_factory/solvers/kiops.py, whose control is in KiopsModel.
    Numbers are exact reals. The vectors of the state are elements of a vector space X, [dot] is the sum over the processes of the local products. scipy's expm is a parameter.
    None stands for an exception. The parts of pmex that are the same as in kiops (arguments, safety factors, bounds, output rows) are those of KiopsModel. *)
From Coq Require Import Reals ZArith List Bool Arith FunctionalExtensionality.
From Coquelicot Require Import Hierarchy.
From Verif Require Import FgmresModel KiopsModel.
Import ListNotations.
Local Open Scope R_scope.

(** ** The control of pmex *)
(** what a pass learns from the linear algebra: the iteration of a breakdown, beta * nrm * F_half[j - 1, j] and beta * nrm * F[j - 1, j], lines 261-262 *)
Record p_probe := PProbe { p_breakdown : option Z; p_half : R; p_full : R }.
(** 1 / order, lines 269, 289 and 298. err = 0: math.log(0), or math.log(nan) and then math.log(ohm / gamma) with ohm = 0 (line 292) raise ValueError.
    err_half = 0: the quotient of numpy numbers is inf, and so is the order. err = err_half: the order is 0.0 and line 289 raises ZeroDivisionError *)
Definition exponent (err_half err : R) : option R :=
  if Req_EM_T err 0 then None else if Req_EM_T err_half 0 then Some 0 else if Req_EM_T err err_half then None else Some (ln 2 / ln (err / err_half)).
(** lines 250-308. [delta] is an argument of pmex (default 1.2). The order is not kept: the fields for it in the records of KiopsModel are not used *)
Definition p_decide (a : args) (delta : R) (s : state) (j1 : Z) (happy : bool) (p : p_probe) : option decision :=
  if happy then Some (Decision 0 0 (Rmin (tau_end a - (tau_now s + tau s)) (tau s)) (m s) 0 true (kest s) (kestold s))
  else
    let err := Rabs (p_full p) in
    let om := tau_end a * err / (tau s * tol a) in
    match exponent (Rabs (p_half p)) err with
    | None => None
    | Some e =>
      let (k, ko) := estimate_k s om in
      let remaining := if ltR delta om then tau_end a - tau_now s else tau_end a - (tau_now s + tau s) in
      let same_tau := Rmin remaining (tau s) in
      let topt := tau_opt remaining (tau s) (Some (tau s * Rpower (gamma a / om) e)) in
      let mopt := m_opt a (m s) (Some (ceil (IZR j1 + ln (om / gamma a) / ln k))) in
      let '(mn, tn) :=
        if (j1 =? mmax a)%Z then
          if ltR delta om then (j1, Rmin (tau_end a - tau_now s) (Rmax (tau s / 5) (tau s * Rpower (gamma_mmax a / om) e)))
          else (m s, topt)
        else (if ltR same_tau (tau s) then m s else mopt, same_tau) in
      Some (Decision om err tn mn 0 true k ko)
    end.
(** lines 133-364, the control *)
Definition p_pass (a : args) (delta : R) (s : state) (p : p_probe) : option state :=
  let (j1, happy) := arnoldi s (p_breakdown p) in
  match p_decide a delta s j1 happy p with
  | None => None
  | Some d =>
    let k1 := (krystep s + new_krylov s j1 happy)%Z in
    if ltR delta (d_omega d) then
      Some (State (tau_now s) (d_tau d) (d_m d) j1 (S (ireject s)) (reject s) (step s) k1 (S (exps s)) (conv s) (m s) (Some (tau s)) (Some (d_omega d)) 0 true (d_kest d) (d_kestold d) (l s) (times s) (substeps s))
    else
      Some (State (tau_now s + tau s) (d_tau d) (d_m d) 0 0 (reject s + ireject s) (S (step s)) k1 (S (exps s)) (conv s + d_err d) (m s) (Some (tau s)) (Some (d_omega d)) 0 true (d_kest d) (d_kestold d)
        (l s + blown a s) (write_rows a s) (tau s :: substeps s))
  end.
Fixpoint p_run (a : args) (delta : R) (ps : list p_probe) (s : state) : option state :=
  match ps with
  | [] => Some s
  | p :: ps => if Rlt_dec (tau_now s) (tau_end a) then match p_pass a delta s p with None => None | Some s' => p_run a delta ps s' end else Some s
  end.

(** ** The rows of the array V: n entries of the state and p augmented ones *)
(** the augmented entries: a function of the position, only the first p are used *)
Definition coeffs : Type := nat -> R.
Definition co_plus (u w : coeffs) : coeffs := fun k => u k + w k.
Definition co_opp (u : coeffs) : coeffs := fun k => - u k.
Definition co_zero : coeffs := fun _ => 0.
Definition co_scal (a : R) (u : coeffs) : coeffs := fun k => a * u k.
Ltac co_ := intros; unfold co_plus, co_opp, co_zero, co_scal; apply functional_extensionality; intro.
Lemma co_comm u w : co_plus u w = co_plus w u. Proof. co_. ring. Qed.
Lemma co_assoc u w z : co_plus u (co_plus w z) = co_plus (co_plus u w) z. Proof. co_. ring. Qed.
Lemma co_0 u : co_plus u co_zero = u. Proof. co_. ring. Qed.
Lemma co_inv u : co_plus u (co_opp u) = co_zero. Proof. co_. ring. Qed.
Definition co_mixin := AbelianGroup.Mixin coeffs co_plus co_opp co_zero co_comm co_assoc co_0 co_inv.
Canonical co_group := AbelianGroup.Pack coeffs co_mixin coeffs.
Lemma co_s1 (x y : R) (u : coeffs) : co_scal x (co_scal y u) = co_scal (mult x y) u. Proof. co_. unfold mult. cbn. ring. Qed.
Lemma co_s2 (u : coeffs) : co_scal one u = u. Proof. co_. unfold one. cbn. ring. Qed.
Lemma co_s3 (x : R) (u w : coeffs) : co_scal x (co_plus u w) = co_plus (co_scal x u) (co_scal x w). Proof. co_. ring. Qed.
Lemma co_s4 (x y : R) (u : coeffs) : co_scal (plus x y) u = co_plus (co_scal x u) (co_scal y u). Proof. co_. unfold plus. cbn. ring. Qed.
Definition co_module_mixin := ModuleSpace.Mixin R_Ring co_group co_scal co_s1 co_s2 co_s3 co_s4.
Canonical co_module := ModuleSpace.Pack R_Ring coeffs (ModuleSpace.Class R_Ring coeffs co_mixin co_module_mixin) coeffs.

Section Pmex.
Context {X : ModuleSpace R_Ring}.
Definition row : ModuleSpace R_Ring := prod_ModuleSpace R_Ring X co_module.
Variable dot : X -> X -> R.
Variable A : X -> X.
Variable u : nat -> X.          (* the rows of u *)
Variable p : nat.               (* the number of rows after the first, at least 1 *)
Variable ex : Z.                (* lines 99-105: nu = 2 ** (-ex), mu = 2 ** ex; 0 when there is nothing to scale *)
Variable expm : nat -> (nat -> nat -> R) -> nat -> nat -> R.   (* expm of a matrix with n rows and columns *)

(** lines 149-153, 169-175: products over all processes *)
Definition adot (x y : row) : R := dot (fst x) (fst y) + rsum p (fun k => snd x k * snd y k).
(** lines 164-166 *)
Definition augmented_product (v : row) : row := (plus (A (fst v)) (vsum p (fun k => scal (V := X) (snd v k) (scal (V := X) (nu ex) (u (p - k)%nat)))), shift p (snd v)).
(** lines 140-146 *)
Definition start_row (x : X) (now : R) : row := (x, augmented p now (mu ex)).

(** the arrays V, H, N and Minv, and beta *)
Record kry := Kry { vs : nat -> row; hm : nat -> nat -> R; nm : nat -> nat -> R; mi : nat -> nat -> R; beta : R }.
(** lines 78-83 *)
Definition kry0 : kry := Kry (fun _ => zero) (fun _ _ => 0) (fun _ _ => 0) (fun i k => if Nat.eqb i k then 1 else 0) 0.
(** lines 136-156 *)
Definition first_row (K : kry) (x : X) (now : R) : kry :=
  let v := start_row x now in
  let b := sqrt (adot v v) in
  Kry (set1 (vs K) 0 (scal (V := row) (/ b) v)) (fun _ _ => 0) (nm K) (mi K) b.
(** lines 161-232 for the incremented j; true: breakdown, after which neither H nor the norm of V[j] are set. The triangular solve of lines 190-192 is made without lower=True on a matrix whose strict upper triangle is zero: sol is rhs *)
Definition orth (tolerance : R) (K : kry) (j : nat) : kry * bool :=
  let v1 := set1 (vs K) j (augmented_product (vs K (j - 1)%nat)) in
  let gv i c := adot (v1 i) (v1 (j - 1 + c)%nat) in
  let N1 := if Nat.ltb 1 j then set_col (nm K) (j - 1) (j - 1) (fun i => - gv i 0%nat) else nm K in
  let I1 := if Nat.ltb 1 j then (fun i k => if Nat.eqb i (j - 1) && Nat.ltb k (j - 1) then - rsum (j - 1) (fun q => gv q 0%nat * mi K q k) else mi K i k) else mi K in
  let sol i := gv i 1%nat + rsum j (fun k => rsum j (fun q => N1 i q * I1 q k) * gv k 1%nat) in
  let v := plus (v1 j) (opp (vsum j (fun i => scal (V := row) (sol i) (v1 i)))) in
  let sum_sqrd := rsum j (fun i => gv i 1%nat ^ 2) in
  let curr_nrm := if Rlt_dec (gv j 1%nat) sum_sqrd then sqrt (adot v v) else sqrt (gv j 1%nat - sum_sqrd) in
  if Rlt_dec curr_nrm tolerance then (Kry (set1 v1 j v) (hm K) N1 I1 (beta K), true)
  else (Kry (set1 v1 j (scal (V := row) (/ curr_nrm) v)) (fun i k => if Nat.eqb k (j - 1) then if Nat.ltb i j then sol i else if Nat.eqb i j then curr_nrm else hm K i k else hm K i k) N1 I1 (beta K), false).
(** the loop of line 159; [rest] is m - j *)
Fixpoint orths (tolerance : R) (rest : nat) (K : kry) (j : nat) : kry * nat * bool :=
  match rest with
  | O => (K, j, false)
  | S rest => let (K1, happy) := orth tolerance K (S j) in if happy then (K1, S j, true) else orths tolerance rest K1 (S j)
  end.
(** the matrix whose exponential is taken, lines 235-242 *)
Definition with_phi (H : nat -> nat -> R) (j : nat) : nat -> nat -> R := fun i k => if Nat.eqb i j && Nat.eqb k (j - 1) then 0 else if Nat.eqb i 0 && Nat.eqb k j then 1 else H i k.
Definition mat_mul (n : nat) (F G : nat -> nat -> R) : nat -> nat -> R := fun i k => rsum n (fun q => F i q * G q k).
(** beta * F[:j, 0] @ V[:j, :n], lines 337 and 343 *)
Definition combine_rows (K : kry) (h : nat) (F : nat -> nat -> R) : X := vsum h (fun i => scal (V := X) (beta K * F i 0%nat) (fst (vs K i))).

Record fstate := FState { ctl : state; kr : kry; w : nat -> X }.
(** the basis used by a pass: lines 136-232; the arrays, j and happy *)
Definition basis_of (a : args) (f : fstate) : kry * nat * bool :=
  let s := ctl f in
  let K0 := if (j s =? 0)%Z then first_row (kr f) (w f (l s)) (tau_now s) else kr f in
  orths (tol a) (Z.to_nat (m s - j s)) K0 (Z.to_nat (j s)).
(** one pass of the loop, lines 133-364 *)
Definition f_pass (a : args) (delta : R) (f : fstate) : option fstate :=
  let s := ctl f in
  let '(K, h, happy) := basis_of a f in
  let F_half := expm (S h) (fun i k => sgn a * 0.5 * tau s * with_phi (hm K) h i k) in
  let F := mat_mul (S h) F_half F_half in
  let nrm := hm K h (h - 1)%nat in
  match p_pass a delta s (PProbe (if happy then Some (Z.of_nat h) else None) (beta K * nrm * F_half (h - 1)%nat h) (beta K * nrm * F (h - 1)%nat h)) with
  | None => None
  | Some s' =>
    let accepted := Nat.ltb (step s) (step s') in
    let K' := Kry (vs K) (fun i k => if Nat.eqb i 0 && Nat.eqb k h then if accepted then 1 else 0 else hm K i k) (nm K) (mi K) (beta K) in
    if accepted then
      let b := blown a s in
      Some (FState s' K' (fun k =>
        if Nat.eqb k (l s + b) then combine_rows K h F
        else if (Nat.leb (l s) k && Nat.ltb k (l s + b))%bool then combine_rows K h (expm h (fun i q => sgn a * (nth k (tau_out a) 0 - tau_now s) * hm K i q))
        else w f k))
    else Some (FState s' K' (w f))
  end.
(** lines 85-87 and 131: the state before the loop *)
Definition f_start (a : args) : fstate := FState (start a) kry0 (fun k => match k with O => u 0%nat | _ => zero end).
(** at most [n] passes *)
Fixpoint f_run (a : args) (delta : R) (n : nat) (f : fstate) : option fstate :=
  match n with
  | O => Some f
  | S n => if Rlt_dec (tau_now (ctl f)) (tau_end a) then match f_pass a delta f with None => None | Some f' => f_run a delta n f' end else Some f
  end.
End Pmex.
