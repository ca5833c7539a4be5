(** The solvers for phi functions with fewer synchronisations, selected by exponential_solver (integrators/epi.py, lines 119-348): the bases they build.
    Models the inner loops of wx_factory/solvers/icwy_ne.py, cwy_ne.py, icwy_1s.py, cwy_1s.py, pmex_1s.py, icwy_ne1s.py, cwy_ne1s.py, pmex_ne1s.py, icwy_neiop.py, kiops_nest.py and dcgs2.py.
    Numbers are exact reals (numpy.float128 as well). None stands for an exception or for values that are not finite. The rest of these files (arguments, control of the substeps, output) is that of kiops.py or of pmex.py.
    The entry H[0, j] = 1 for the error estimate is restored or overwritten before the basis is extended, and is left out; so is the write to H[0, -1] at j = 1 in the 1s files, an entry that is only read after it has been set to 1. *)
From Coq Require Import Reals ZArith List Bool Arith.
From Coquelicot Require Import Hierarchy.
From Verif Require Import FgmresModel KiopsModel PmexModel.
Import ListNotations.
Local Open Scope R_scope.

(** the three ways to turn the products with the basis into coefficients: pmex, icwy and cwy files *)
Inductive projection := Gauss_Seidel | Inverse_compact | Compact.

Section Bases.
Context {W : ModuleSpace R_Ring}.
Variable op : W -> W.                (* the augmented product *)
Variable lp : W -> W -> R.           (* the products of the loop, summed over the processes *)
Variable fp : W -> W -> R.           (* the product in the norm of the last vector *)
Variable tol : R.

(** the arrays V, H, T, N and Minv; beta, prev_normalized and prev_nrm_est. A file uses T, or N and Minv; the steps below update all three, and the coefficients are taken from those that the file has *)
Record arrays := Arrays { av : nat -> W; ah : nat -> nat -> R; at_ : nat -> nat -> R; an : nat -> nat -> R; ai : nat -> nat -> R; ab : R; anormal : bool; aest : R }.
(** T[j - 1, 0 : j - 1], N[0 : j - 1, j - 1] and Minv[j - 1, 0 : j - 1], set for j > 1 from the products g of the rows before j - 1 with row j - 1.
    icwy_ne.py 171-174, icwy_1s.py 199-202, icwy_ne1s.py 204-207; cwy_ne.py 206-207, cwy_1s.py 203-205, cwy_ne1s.py 199-201; pmex_1s.py 189-193, pmex_ne1s.py 183-187 *)
Definition new_row (k : projection) (T : nat -> nat -> R) (j : nat) (g : nat -> R) : nat -> nat -> R :=
  if Nat.ltb 1 j then fun i q => if Nat.eqb i (j - 1) && Nat.ltb q (j - 1) then match k with Inverse_compact => - g q | _ => - rsum (j - 1) (fun r => g r * T r q) end else T i q else T.
Definition new_col (N : nat -> nat -> R) (j : nat) (g : nat -> R) : nat -> nat -> R := if Nat.ltb 1 j then set_col N (j - 1) (j - 1) (fun i => - g i) else N.
(** the coefficients from the products g of the rows before j with row j: icwy_ne.py 177, icwy_1s.py 205, icwy_ne1s.py 210, cwy_ne.py 214, cwy_1s.py 208, cwy_ne1s.py 204, pmex_1s.py 196-201, pmex_ne1s.py 190-195.
    The triangular solve of the pmex files is made without lower=True on a matrix whose strict upper triangle is zero: sol is rhs *)
Definition coefficients (k : projection) (T N I : nat -> nat -> R) (j : nat) (g : nat -> R) (i : nat) : R :=
  match k with
  | Gauss_Seidel => g i + rsum j (fun q => rsum j (fun r => N i r * I r q) * g q)
  | _ => rsum j (fun q => T i q * g q)
  end.
(** V[j] - coefficients @ V[0 : j] *)
Definition reduce (V : nat -> W) (j : nat) (c : nat -> R) : W := plus (V j) (opp (vsum j (fun i => scal (V := W) (c i) (V i)))).
Definition set_entry (H : nat -> nat -> R) (r c : nat) (x : R) : nat -> nat -> R := fun i k => if Nat.eqb i r && Nat.eqb k c then x else H i k.

(** the rows of T or Minv and the columns of N after the steps 1 ... j, when the vectors are V (which need not be orthogonal) *)
Fixpoint rows_of (V : nat -> W) (k : projection) (j : nat) : nat -> nat -> R :=
  match j with O => fun i q => if Nat.eqb i q then 1 else 0 | Datatypes.S j => new_row k (rows_of V k j) (Datatypes.S j) (fun i => lp (V i) (V j)) end.
Fixpoint cols_of (V : nat -> W) (j : nat) : nat -> nat -> R := match j with O => fun _ _ => 0 | Datatypes.S j => new_col (cols_of V j) (Datatypes.S j) (fun i => lp (V i) (V j)) end.

(** ** norm estimate, no lag: icwy_ne.py 158-209, cwy_ne.py 164-257 for the incremented j, and with Gauss_Seidel pmex.py 161-232 (see PmexModel.orth); true: breakdown, after which neither H nor the norm of V[j] are set.
    If the estimate is not possible, cwy_ne.py raises (numpy.empty_link, line 229) and the others compute the norm *)
Definition step_ne (k : projection) (last : bool) (S : arrays) (j : nat) : option (arrays * bool) :=
  let v1 := set1 (av S) j (op (av S (j - 1)%nat)) in
  let g c i := lp (v1 i) (v1 (j - 1 + c)%nat) in
  let T1 := new_row k (at_ S) j (g 0%nat) in
  let N1 := new_col (an S) j (g 0%nat) in
  let I1 := new_row k (ai S) j (g 0%nat) in
  let c := coefficients k T1 N1 I1 j (g 1%nat) in
  let v := reduce v1 j c in
  let sum := rsum j (fun i => g 1%nat i ^ 2) in
  let nrm := if Rlt_dec (g 1%nat j) sum then match k with Compact => None | _ => Some (sqrt (lp v v)) end else Some (sqrt (g 1%nat j - sum)) in
  match nrm with
  | None => None
  | Some nrm =>
    if Rlt_dec nrm tol then Some (Arrays (set1 v1 j v) (ah S) T1 N1 I1 (ab S) (anormal S) (aest S), true)
    else Some (Arrays (set1 v1 j (scal (V := W) (/ nrm) v)) (set_entry (set_col (ah S) j (j - 1) c) j (j - 1) nrm) T1 N1 I1 (ab S) (anormal S) (aest S), false)
  end.
(** ** lagged normalisation: pmex_1s.py 152-213, icwy_1s.py 170-217, cwy_1s.py 173-220. [est] is false for these and true for the files with the norm estimate:
    pmex_ne1s.py 141-236, icwy_ne1s.py 163-247, cwy_ne1s.py 161-241; [last]: j = m. *)
(** the rows, the two columns of products, H, beta and the norm of row j - 1 after "scale for arnoldi": pmex_1s.py 154-184, icwy_1s.py 172-196, cwy_1s.py 175-201, pmex_ne1s.py 143-178, icwy_ne1s.py 165-201, cwy_ne1s.py 163-196.
    A division by zero gives rows that are not finite *)
Record scaled := Scaled { sv : nat -> W; s0 : nat -> R; s1 : nat -> R; sh : nat -> nat -> R; sb : R; sn : R }.
Definition lag_scale (est : bool) (S : arrays) (j : nat) : option scaled :=
  let v0 := set1 (av S) j (op (av S (j - 1)%nat)) in
  let two (s : R) (v : nat -> W) := fun i => if Nat.eqb i (j - 1) || Nat.eqb i j then scal (V := W) s (v i) else v i in
  let v1 := if est && Nat.ltb 1 j && negb (anormal S) then two (aest S) v0 else v0 in
  let g0 i := lp (v1 i) (v1 (j - 1)%nat) in
  let g1 i := lp (v1 i) (v1 j) in
  let nrm := sqrt (g0 (j - 1)%nat) in
  let b := if Nat.eqb j 1 then nrm else ab S in
  if anormal S then Some (Scaled v1 g0 g1 (ah S) b nrm)
  else if Req_EM_T nrm 0 then None
  else Some (Scaled (two (/ nrm) v1)
         (fun i => if Nat.ltb i (j - 1) then g0 i / nrm else g0 i)
         (fun i => if Nat.ltb i (j - 1) then g1 i / nrm else g1 i / nrm / nrm)
         (if Nat.ltb 1 j then set_entry (ah S) (j - 1) (j - 2) nrm else ah S) b nrm).
(** the rest: pmex_1s.py 189-213, icwy_1s.py 199-217, cwy_1s.py 203-220, pmex_ne1s.py 183-236, icwy_ne1s.py 203-247, cwy_ne1s.py 198-241; true: breakdown *)
Definition lag_project (k : projection) (est last : bool) (S : arrays) (j : nat) (q : scaled) : arrays * bool :=
  let T1 := new_row k (at_ S) j (s0 q) in
  let N1 := new_col (an S) j (s0 q) in
  let I1 := new_row k (ai S) j (s0 q) in
  let c := coefficients k T1 N1 I1 j (s1 q) in
  let v := reduce (sv q) j c in
  let H2 := set_col (sh q) j (j - 1) c in
  if est then
    if last then (Arrays (set1 (sv q) j v) H2 T1 N1 I1 (sb q) false (aest S), false)
    else
      let sum := rsum j (fun i => s1 q i ^ 2) in
      let cur := if Rlt_dec (s1 q j) sum then sqrt (lp v v) else sqrt (s1 q j - sum) in
      if Rlt_dec cur tol then (Arrays (set1 (sv q) j v) H2 T1 N1 I1 (sb q) (anormal S) (aest S), true)
      else (Arrays (set1 (sv q) j (scal (V := W) (/ cur) v)) H2 T1 N1 I1 (sb q) false cur, false)
  else if Rlt_dec (sn q) tol then (Arrays (set1 (sv q) j v) (sh q) T1 N1 I1 (sb q) (anormal S) (aest S), true)
  else (Arrays (set1 (sv q) j v) H2 T1 N1 I1 (sb q) false (aest S), false).
Definition step_lag (k : projection) (est last : bool) (S : arrays) (j : nat) : option (arrays * bool) :=
  match lag_scale est S j with None => None | Some q => Some (lag_project k est last S j q) end.
(** the norm of the last vector, after the loop: pmex_1s.py 218-235, icwy_1s.py 223-233, cwy_1s.py 225-234, pmex_ne1s.py 241-250, icwy_ne1s.py 253-263, cwy_ne1s.py 246-255 *)
Definition finish (S : arrays) (m : nat) : option arrays :=
  let n := sqrt (fp (av S m) (av S m)) in
  if Req_EM_T n 0 then None
  else Some (Arrays (set1 (av S) m (scal (V := W) (/ n) (av S m))) (set_entry (ah S) m (m - 1) n) (at_ S) (an S) (ai S) (ab S) true (aest S)).

(** the files *)
Inductive scheme := NE (k : projection) | OneSync (k : projection) | NE_OneSync (k : projection).
Definition step (s : scheme) : bool -> arrays -> nat -> option (arrays * bool) :=
  match s with NE k => step_ne k | OneSync k => step_lag k false | NE_OneSync k => step_lag k true end.
(** while j < m; [rest] is m - j. With the arrays, j and happy *)
Fixpoint loop (s : scheme) (rest : nat) (S : arrays) (j : nat) : option (arrays * nat * bool) :=
  match rest with
  | O => Some (S, j, false)
  | Datatypes.S r => match step s (Nat.eqb r 0) S (Datatypes.S j) with
    | None => None
    | Some (S1, true) => Some (S1, Datatypes.S j, true)
    | Some (S1, false) => loop s r S1 (Datatypes.S j)
    end
  end.
(** the beginning of a substep, j = 0: H is cleared, V[0] is the start vector, divided by its norm beta in the ne files (icwy_ne.py 137-154, cwy_ne.py 142-159) and as it is in the others; reached_mmax and prev_normalized are False.
    T, N, Minv and the other rows are those of the last substep *)
Definition begin (s : scheme) (S : arrays) (x : W) : arrays :=
  let b := sqrt (lp x x) in
  match s with
  | NE _ => Arrays (set1 (av S) 0 (scal (V := W) (/ b) x)) (fun _ _ => 0) (at_ S) (an S) (ai S) b false (aest S)
  | _ => Arrays (set1 (av S) 0 x) (fun _ _ => 0) (at_ S) (an S) (ai S) (ab S) false (aest S)
  end.
(** the passes of one substep with basis sizes [ms], all rejected but the last one: the loop, then the norm of the last vector unless reached_mmax.
    prev_nrm_est is set to 0 before the loop (pmex_ne1s.py 136, icwy_ne1s.py 158, cwy_ne1s.py 156). After a breakdown with j < m the last row V[m] is divided as well, which has no effect on the rows used; with j = m only row m, which is not used, and the entry H[m, m - 1], which is removed, are changed *)
Fixpoint passes (s : scheme) (mmax : nat) (ms : list nat) (S : arrays) (j : nat) (reached : bool) : option (arrays * nat * bool) :=
  match ms with
  | [] => Some (S, j, false)
  | m :: ms =>
    match loop s (m - j) (Arrays (av S) (ah S) (at_ S) (an S) (ai S) (ab S) (anormal S) 0) j with
    | None => None
    | Some (S1, j1, true) => Some (S1, j1, true)
    | Some (S1, j1, false) =>
      match (match s with NE _ => Some S1 | _ => if reached then Some S1 else finish S1 m end) with
      | None => None
      | Some S2 => passes s mmax ms S2 j1 (reached || Nat.eqb j1 mmax)
      end
    end
  end.
Definition substep (s : scheme) (mmax : nat) (ms : list nat) (S : arrays) (x : W) : option (arrays * nat * bool) := passes s mmax ms (begin s S x) 0 false.
(** the arrays before the first substep: V = 0, H = 0, T = I, N = 0, Minv = I *)
Definition fresh : arrays := let I i k := if Nat.eqb i k then 1 else 0 in Arrays (fun _ => zero) (fun _ _ => 0) I (fun _ _ => 0) I 0 false 0.

(** ** incomplete orthogonalisation against two vectors *)
Record pair_basis := Pairs { pv : nat -> W; ph : nat -> nat -> R; pt : R; pb : R }.   (* V, H, T[1, 0], beta *)
(** kiops_nest.py 159-200; the products b are over whole rows and summed over the processes (lp), the norm that replaces a failing estimate is right (fp). After a breakdown H[j, j - 1] is not set and V[j] not divided *)
Definition step_nest (S : pair_basis) (j : nat) : pair_basis * bool :=
  let v1 := set1 (pv S) j (op (pv S (j - 1)%nat)) in
  let ilow := (j - 2)%nat in
  let b i := lp (v1 (ilow + i)%nat) (v1 j) in
  let idx := Nat.min 1 (j - 1) in
  let H1 i k := if (Nat.eqb k (j - 1) && Nat.leb ilow i && Nat.ltb i j)%bool then b (i - ilow)%nat else ph S i k in
  let v := plus (v1 j) (opp (vsum (j - ilow) (fun i => scal (V := W) (H1 (ilow + i)%nat (j - 1)%nat) (v1 (ilow + i)%nat)))) in
  let sum := rsum (idx + 1) (fun i => b i ^ 2) in
  let nrm := if Rlt_dec (lp (v1 j) (v1 j)) sum then sqrt (fp v v) else sqrt (lp (v1 j) (v1 j) - sum) in
  if Rlt_dec nrm tol then (Pairs (set1 v1 j v) H1 (pt S) (pb S), true)
  else (Pairs (set1 v1 j (scal (V := W) (/ nrm) v)) (set_entry H1 j (j - 1) nrm) (pt S) (pb S), false).
(** icwy_neiop.py 159-211, iop = 2; T is the matrix [[1, 0], [T10, 1]]. After a breakdown H is not set and V[j] not divided *)
Definition step_neiop (S : pair_basis) (j : nat) : pair_basis * bool :=
  let v1 := set1 (pv S) j (op (pv S (j - 1)%nat)) in
  let indx := (j - 2)%nat in
  let g c i := lp (v1 (indx + i)%nat) (v1 (j - 1 + c)%nat) in
  let T1 := if Nat.ltb 1 j then - g 0%nat 0%nat else pt S in
  let c i := if Nat.ltb 1 j then if Nat.eqb i 0 then g 1%nat 0%nat else T1 * g 1%nat 0%nat + g 1%nat 1%nat else g 1%nat 0%nat in
  let v := plus (v1 j) (opp (vsum (j - indx) (fun i => scal (V := W) (c i) (v1 (indx + i)%nat)))) in
  let sum := rsum (Nat.min 1 (j - 1) + 1) (fun i => g 1%nat i ^ 2) in
  let nrm := if Rlt_dec (lp (v1 j) (v1 j)) sum then sqrt (lp v v) else sqrt (lp (v1 j) (v1 j) - sum) in
  if Rlt_dec nrm tol then (Pairs (set1 v1 j v) (ph S) T1 (pb S), true)
  else (Pairs (set1 v1 j (scal (V := W) (/ nrm) v))
         (set_entry (fun i k => if (Nat.eqb k (j - 1) && Nat.leb indx i && Nat.ltb i j)%bool then c (i - indx)%nat else ph S i k) j (j - 1) nrm) T1 (pb S), false).
(** the beginning of a substep, kiops_nest.py 137-154, icwy_neiop.py 137-154: H is cleared *)
Definition pairs_begin (S : pair_basis) (x : W) : pair_basis :=
  let b := sqrt (fp x x) in Pairs (set1 (pv S) 0 (scal (V := W) (/ b) x)) (fun _ _ => 0) (pt S) b.
Fixpoint pairs_loop (f : pair_basis -> nat -> pair_basis * bool) (rest : nat) (S : pair_basis) (j : nat) : pair_basis * nat * bool :=
  match rest with
  | O => (S, j, false)
  | Datatypes.S r => let (S1, happy) := f S (Datatypes.S j) in if happy then (S1, Datatypes.S j, true) else pairs_loop f r S1 (Datatypes.S j)
  end.

(** ** dcgs2.py: V, H, beta and prev_normalized; beta is computed with fp (lines 149-151), V[0] is not divided by it *)
Record dcgs := Dcgs { dv : nat -> W; dh : nat -> nat -> R; db : R; dn : bool }.
Definition dcgs_begin (S : dcgs) (x : W) : dcgs := Dcgs (set1 (dv S) 0 x) (fun _ _ => 0) (sqrt (fp x x)) false.
(** lines 161-228. The square root of a negative number raises (math.sqrt, line 190) *)
Definition dcgs_step (S : dcgs) (j : nat) : option (dcgs * bool) :=
  let v1 := set1 (dv S) j (op (dv S (j - 1)%nat)) in
  if Nat.eqb j 1 || dn S then
    let g := lp (v1 (j - 1)%nat) (v1 j) in
    Some (Dcgs (set1 v1 j (plus (v1 j) (opp (scal (V := W) g (v1 (j - 1)%nat))))) (set_entry (dh S) (j - 1) (j - 1) g) (db S) false, false)
  else
    let g0 i := lp (v1 i) (v1 (j - 1)%nat) in
    let g1 i := lp (v1 i) (v1 j) in
    let d := g0 (j - 1)%nat - rsum (j - 1) (fun i => g0 i * g0 i) in
    if Rlt_dec d 0 then None
    else
      let nrm := sqrt d in
      if Req_EM_T nrm 0 then None
      else
        let h i := if Nat.eqb i (j - 1) then (g1 (j - 1)%nat - rsum (j - 1) (fun q => g0 q * g1 q)) / nrm ^ 2 else g1 i / nrm in
        let w := plus (v1 (j - 1)%nat) (opp (vsum (j - 1) (fun i => scal (V := W) (g0 i) (v1 i)))) in
        let v2 := set1 (set1 v1 (j - 1) (scal (V := W) (/ nrm) w)) j (scal (V := W) (/ nrm) (v1 j)) in
        let H1 i k := if Nat.eqb k (j - 2) && Nat.ltb i (j - 1) then dh S i k + g0 i else dh S i k in
        let H2 := set_col H1 j (j - 1) (fun i => h i - rsum (j - 1) (fun q => H1 i q * g0 q) / nrm) in
        let S1 := Dcgs (set1 v2 j (reduce v2 j h)) (set_entry H2 (j - 1) (j - 2) nrm) (db S) (dn S) in
        if Rlt_dec nrm tol then Some (S1, true) else Some (Dcgs (dv S1) (dh S1) (db S1) false, false).
(** lines 234-247: global_sum[-1] is the product of V[m - 1] and V[m]; numpy.sqrt of a negative number is nan *)
Definition dcgs_finish (S : dcgs) (m : nat) : option dcgs :=
  let g i := lp (dv S i) (dv S m) in
  let d := g (m - 1)%nat - rsum m (fun i => g i ^ 2) in
  if Rlt_dec d 0 then None
  else
    let n := sqrt d in
    if Req_EM_T n 0 then None
    else Some (Dcgs (set1 (dv S) m (scal (V := W) (/ n) (reduce (dv S) m g)))
      (fun i k => if Nat.eqb k (m - 1) then if Nat.eqb i m then n else if Nat.ltb i m then dh S i k + g i else dh S i k else dh S i k) (db S) true).
Fixpoint dcgs_loop (rest : nat) (S : dcgs) (j : nat) : option (dcgs * nat * bool) :=
  match rest with
  | O => Some (S, j, false)
  | Datatypes.S r => match dcgs_step S (Datatypes.S j) with
    | None => None
    | Some (S1, true) => Some (S1, Datatypes.S j, true)
    | Some (S1, false) => dcgs_loop r S1 (Datatypes.S j)
    end
  end.
Fixpoint dcgs_passes (mmax : nat) (ms : list nat) (S : dcgs) (j : nat) (reached : bool) : option (dcgs * nat * bool) :=
  match ms with
  | [] => Some (S, j, false)
  | m :: ms =>
    match dcgs_loop (m - j) S j with
    | None => None
    | Some (S1, j1, true) => Some (S1, j1, true)
    | Some (S1, j1, false) => match (if reached then Some S1 else dcgs_finish S1 m) with None => None | Some S2 => dcgs_passes mmax ms S2 j1 (reached || Nat.eqb j1 mmax) end
    end
  end.
End Bases.

(** the products over [P] processes, all of which hold the same p augmented entries: with these entries added once after the sum (icwy_ne.py 164-168, cwy_ne.py 186-189, pmex_1s.py 160-164, cwy_1s.py 181-185, icwy_neiop.py 173-177) ... *)
Definition once {X : ModuleSpace R_Ring} (dot : X -> X -> R) (p : nat) : @row X -> @row X -> R := adot dot p.
(** ... or with whole rows in the sum (icwy_1s.py 176-180, 225-228, the ne1s files, kiops_nest.py 176-177, dcgs2.py 173, 184 and 236, and the last norm of pmex_1s.py 219-221 and cwy_1s.py 226-228) *)
Definition each {X : ModuleSpace R_Ring} (dot : X -> X -> R) (p P : nat) (x y : @row X) : R := dot (fst x) (fst y) + INR P * rsum p (fun k => snd x k * snd y k).
(** the files and their products *)
Inductive file := pmex | icwy_ne | cwy_ne | pmex_1s | icwy_1s | cwy_1s | pmex_ne1s | icwy_ne1s | cwy_ne1s.
Definition scheme_of (f : file) : scheme :=
  match f with
  | pmex => NE Gauss_Seidel | icwy_ne => NE Inverse_compact | cwy_ne => NE Compact
  | pmex_1s => OneSync Gauss_Seidel | icwy_1s => OneSync Inverse_compact | cwy_1s => OneSync Compact
  | pmex_ne1s => NE_OneSync Gauss_Seidel | icwy_ne1s => NE_OneSync Inverse_compact | cwy_ne1s => NE_OneSync Compact
  end.
Definition loop_product {X : ModuleSpace R_Ring} (dot : X -> X -> R) (p P : nat) (f : file) : @row X -> @row X -> R :=
  match f with pmex | icwy_ne | cwy_ne | pmex_1s | cwy_1s => once dot p | _ => each dot p P end.
Definition final_product {X : ModuleSpace R_Ring} (dot : X -> X -> R) (p P : nat) (f : file) : @row X -> @row X -> R :=
  match f with pmex | icwy_ne | cwy_ne => once dot p | _ => each dot p P end.
(** the passes of a substep that starts with the state x at time now *)
Definition build {X : ModuleSpace R_Ring} (dot : X -> X -> R) (A : X -> X) (u : nat -> X) (p : nat) (ex : Z) (P : nat) (f : file) (tol : R) (mmax : nat) (ms : list nat) (S : arrays) (x : X) (now : R) : option (arrays * nat * bool) :=
  substep (augmented_product A u p ex) (loop_product dot p P f) (final_product dot p P f) tol (scheme_of f) mmax ms S (start_row p ex x now).
(** the basis sizes m of the passes of one substep, as long as they are rejected and as far as the given probes go: with the control of kiops.py (the kiops, icwy, cwy and dcgs2 files) and of pmex.py (the pmex files) *)
Fixpoint sizes (a : args) (ps : list probe) (s : state) : list Z :=
  m s :: match ps with [] => [] | p :: ps => match pass a s p with Some s' => if Nat.eqb (KiopsModel.step s') (KiopsModel.step s) then sizes a ps s' else [] | None => [] end end.
Fixpoint p_sizes (a : args) (delta : R) (ps : list p_probe) (s : state) : list Z :=
  m s :: match ps with [] => [] | p :: ps => match p_pass a delta s p with Some s' => if Nat.eqb (KiopsModel.step s') (KiopsModel.step s) then p_sizes a delta ps s' else [] | None => [] end end.
