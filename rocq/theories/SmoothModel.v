(** The smoothers of the multigrid preconditioner. Models wx_factory/precondition/smoother.py with exact reals. Vectors are elements of a vector space V, [dot] is the sum over the processes of
    the local products. [x = None] is Python's None (no initial guess). KiopsSmoother is not modelled here (the control of kiops is in KiopsModel). Printing is left out. *)
From Coq Require Import Reals List Bool Arith ZArith.
From Coquelicot Require Import Hierarchy.
From Verif Require Import InnerSpec FgmresModel.
Import ListNotations.
Local Open Scope R_scope.

Section Smooth.
Context {V : ModuleSpace R_Ring}.
Let minus_ (x y : V) : V := plus x (opp y).

(** RK1Smoother.__smoothe__, lines 253-264; [h] multiplies a vector by the pseudo time step (an array, one value per entry, multigrid.py line 212). The modification of x in place is not modelled *)
Definition rk1 (h : V -> V) (A : V -> V) (b : V) (x : option V) : V :=
  match x with None => h b | Some x => plus x (h (minus_ b (A x))) end.
(** RK3Smoother.__smoothe__, lines 274-287 *)
Definition rk3 (h : V -> V) (A : V -> V) (b : V) (x : option V) : V :=
  let alpha1 := 145 / 1000 in let alpha2 := 395 / 1000 in
  match x with
  | None => let s1 := scal (V := V) alpha1 (h b) in let s2 := scal (V := V) alpha2 (h (minus_ b (A s1))) in h (minus_ b (A s2))
  | Some x => let s1 := plus x (scal (V := V) alpha1 (h (minus_ b (A x)))) in let s2 := plus x (scal (V := V) alpha2 (h (minus_ b (A s1)))) in plus x (h (minus_ b (A s2)))
  end.
(** ARKSmoother.A_conv and A_visc, lines 306-315. [Jc] and [J] are the products with the Jacobians of the convective and of the full right-hand side; solvers/matvec.py lines 36-68: matvec_fun returns dt times the product *)
Definition matvec_fun (dt : R) (J : V -> V) (x : V) : V := scal (V := V) dt (J x).
Definition a_conv (dt : R) (Jc : V -> V) (x : V) : V := scal (V := V) (- dt / 2) (matvec_fun dt Jc x).
Definition a_visc (dt : R) (Jc J : V -> V) (x : V) : V := minus_ x (scal (V := V) (dt / 2) (minus_ (matvec_fun dt J x) (matvec_fun dt Jc x))).
(** ARK3Smoother.__smoothe__, lines 321-357; the argument A is not used *)
Definition ark3 (h : V -> V) (Ac Av : V -> V) (b : V) (x : option V) : V :=
  let alpha1 := 145 / 1000 in let alpha2 := 395 / 1000 in let alpha3 := 1 in let beta2 := / 2 in let beta3 := / 2 in
  let f_c u := minus_ b (Ac u) in
  let f_v u := opp (Av u) in
  let sc a u := scal (V := V) a u in
  match x with
  | None =>
    let u1 := sc alpha1 (h b) in
    let f_c1 := f_c u1 in
    let f_v1 := sc beta2 (f_v u1) in
    let u2 := sc alpha2 (h (plus f_c1 f_v1)) in
    let f_c2 := f_c u2 in
    let f_v2 := plus (sc beta3 (f_v u2)) (sc (1 - beta3) f_v1) in
    sc alpha3 (h (plus f_c2 f_v2))
  | Some x =>
    let f_c0 := f_c x in
    let f_v0 := f_v x in
    let u1 := plus x (sc alpha1 (h (plus f_c0 f_v0))) in
    let f_c1 := f_c u1 in
    let f_v1 := plus (sc beta2 (f_v u1)) (sc (1 - beta2) f_v0) in
    let u2 := plus x (sc alpha2 (h (plus f_c1 f_v1))) in
    let f_c2 := f_c u2 in
    let f_v2 := plus (sc beta3 (f_v u2)) (sc (1 - beta3) f_v1) in
    plus x (sc alpha3 (h (plus f_c2 f_v2)))
  end.
(** solvers/matvec.py lines 76-88: the operator of the linear systems solved with these smoothers (multigrid.py lines 248-251) *)
Definition matvec_rat (dt : R) (J : V -> V) (x : V) : V := minus_ x (scal (V := V) (/ 2) (scal (V := V) dt (J x))).

(** * ExponentialSmoother *)
Variable dot : V -> V -> R.
Variable A : V -> V.
(* the sum of the absolute values of all entries, lines 63-67 *)
Variable norm1 : V -> R.
(* the largest modulus of the eigenvalues of the leading n rows and columns (numpy.linalg.eig, lines 164-166), and the matrix exponential of scipy *)
Variable radius : nat -> (nat -> nat -> R) -> R.
Variable expm : nat -> (nat -> nat -> R) -> nat -> nat -> R.
(** a row of the array V, lines 51-52: n entries and p = 1 more *)
Definition aug : Type := (V * R)%type.
Definition adot (x y : aug) : R := dot (fst x) (fst y) + snd x * snd y.
Definition asub (x : aug) (a : R) (y : aug) : aug := (plus (fst x) (scal (V := V) (- a) (fst y)), snd x - a * snd y).
Definition ascale (a : R) (x : aug) : aug := (scal (V := V) a (fst x), a * snd x).
Fixpoint asub_all (n : nat) (a : nat -> R) (q : nat -> aug) (x : aug) : aug := match n with O => x | S n => asub (asub_all n a q x) (a n) (q n) end.
Record arnoldi := Arnoldi { vs : nat -> aug; hm : nat -> nat -> R; nmat : nat -> nat -> R; minv : nat -> nat -> R }.
Definition happy_tol : R := / 10 ^ 10.
(** lines 105-161: one pass, for the incremented j; true: happy breakdown. The triangular solve of lines 134-136 is called without lower=True on a matrix whose strict upper triangle is zero: it returns rhs *)
Definition pass (global_dt : R) (u_flip : V) (S : arnoldi) (j : nat) : arnoldi * bool :=
  let prev := vs S (j - 1)%nat in
  let w : aug := (plus (scal (V := V) (/ global_dt) (opp (A (fst prev)))) (scal (V := V) (snd prev) u_flip), 0) in
  let v1 := set1 (vs S) j w in
  let gv i c := adot (v1 i) (v1 (j - 1 + c)%nat) in
  let H1 := set_col (hm S) j (j - 1) (fun i => gv i 1%nat) in
  let N1 := if Nat.ltb 1 j then set_col (nmat S) (j - 1) (j - 1) (fun i => - gv i 0%nat) else nmat S in
  let I1 := if Nat.ltb 1 j then (fun i l => if Nat.eqb i (j - 1) && Nat.ltb l (j - 1) then - rsum (j - 1) (fun k => minv S l k * gv k 0%nat) else minv S i l) else minv S in
  let rhs i := gv i 1%nat + rsum j (fun l => rsum j (fun k => N1 i k * I1 k l) * gv l 1%nat) in
  let v := asub_all j rhs v1 w in
  let sum_sqrd := rsum j (fun i => gv i 1%nat * gv i 1%nat) in
  let curr_nrm := if Rlt_dec (gv j 1%nat) sum_sqrd then sqrt (adot v v) else sqrt (gv j 1%nat - sum_sqrd) in
  if Rlt_dec curr_nrm happy_tol then (Arnoldi (set1 v1 j v) H1 N1 I1, true)
  else (Arnoldi (set1 v1 j (ascale (/ curr_nrm) v)) (fun i l => if Nat.eqb i j && Nat.eqb l (j - 1) then curr_nrm else H1 i l) N1 I1, false).
(** the loop of lines 103-161; [rest] passes remain; the final state and j *)
Fixpoint passes (global_dt : R) (u_flip : V) (rest : nat) (S : arnoldi) (j : nat) : arnoldi * nat :=
  match rest with
  | O => (S, j)
  | S rest' => let (S', happy) := pass global_dt u_flip S (j + 1) in if happy then (S', j + 1)%nat else passes global_dt u_flip rest' S' (j + 1)
  end.
(** lines 69-76: the scale is a power of two; ceil(log2(normU)) *)
Definition scale_exponent (n : R) : Z := (- Int_part (- (ln n / ln 2)))%Z.
Definition mu_of (n : R) : R := if Rlt_dec 0 n then powerRZ 2 (scale_exponent n) else 1.
Definition nu_of (n : R) : R := if Rlt_dec 0 n then powerRZ 2 (- scale_exponent n) else 1.
(** lines 47-190 for niter >= 1: the new solution before it is compared with the initial guess. None: all its entries are NaN. This happens when the spectral radius is zero: dt is inf (line 166, a division of a
    numpy number), the product with the zeros of H (line 181) NaN, so that the exponential and all that follows are NaN *)
Definition candidate (niter : nat) (target_spectral_radius global_dt : R) (x0_residual : V) (x0 : option V) : option V :=
  let u1 := scal (V := V) (/ global_dt) x0_residual in
  let normU := norm1 u1 in
  let mu := mu_of normU in
  let u_flip := scal (V := V) (nu_of normU) u1 in
  let beta := sqrt (dot zero zero + mu * mu) in
  let S0 := Arnoldi (set1 (fun _ => (zero, 0)) 0 (ascale (/ beta) (zero, mu))) (fun _ _ => 0) (fun _ _ => 0) (fun i l => if Nat.eqb i l then 1 else 0) in
  let (S, j) := passes global_dt u_flip niter S0 0 in
  let rho := radius (j + 1) (hm S) in
  if Req_EM_T rho 0 then None
  else
    let dt := target_spectral_radius / rho in
    let H2 := fun i l => if Nat.eqb i j && Nat.eqb l (j - 1) then 0 else if Nat.eqb i 0 && Nat.eqb l j then 1 else hm S i l in
    let F := expm (j + 1) (fun i l => dt * H2 i l) in
    let phiv := vsum j (fun i => scal (V := V) (beta * F i 0%nat) (fst (vs S i))) in
    Some (match x0 with None => scal (V := V) dt phiv | Some x => plus (scal (V := V) dt phiv) x end).
(** ExponentialSmoother.__smoothe__, lines 35-209. Comparisons with NaN are false: line 194 does not reject a solution with NaN *)
Definition exponential (niter : nat) (target_spectral_radius global_dt : R) (b : V) (x0 : option V) : option V :=
  let x0_residual := match x0 with None => b | Some x => minus_ b (A x) end in
  match candidate niter target_spectral_radius global_dt x0_residual x0 with
  | None => None
  | Some y =>
    if Rlt_dec (norm dot x0_residual) (norm dot (minus_ b (A y))) then Some (match x0 with None => zero | Some x => x end)
    else Some y
  end.
End Smooth.
