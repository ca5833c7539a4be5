(** The FGMRES solver. Models wx_factory/solvers/fgmres.py with exact reals. A vector space V and the scalar product [dot] stand for arrays distributed over the processes and the sums
    of the local products over the processes (global_norm, global_dotprod, the allreduce of line 44). None stands for a raised exception. Printing, timing and the list of residuals are left out. *)
From Coq Require Import Reals List Bool Arith.
From Coquelicot Require Import Hierarchy.
From Verif Require Import InnerSpec.
Import ListNotations.
Local Open Scope R_scope.

(** abs and copysign of rotg *)
Definition sign_of (a : R) : R := if Rlt_dec a 0 then -1 else 1.
(** lines 75-94 *)
Definition rotg (a b : R) : R * R * R :=
  let anorm := Rabs a in let bnorm := Rabs b in
  if Req_EM_T bnorm 0 then (1, 0, a)
  else if Req_EM_T anorm 0 then (0, 1, b)
  else
    let scl := Rmin anorm bnorm in
    let sigma := if Rlt_dec bnorm anorm then sign_of a else sign_of b in
    let r := sigma * (scl * sqrt ((a / scl) ^ 2 + (b / scl) ^ 2)) in
    (a / r, b / r, r).

(** sums over range(n) *)
Fixpoint rsum (n : nat) (f : nat -> R) : R := match n with O => 0 | S n => rsum n f + f n end.
(** assignments to an element, and to a column *)
Definition set1 {T : Type} (f : nat -> T) (i : nat) (v : T) : nat -> T := fun l => if Nat.eqb l i then v else f l.
Definition set_col (f : nat -> nat -> R) (n col : nat) (v : nat -> R) : nat -> nat -> R := fun i j => if Nat.eqb j col && Nat.ltb i n then v i else f i j.

(** line 53: the solution of (I + strict lower triangle of T.T) r3 = v, as a list *)
Fixpoint lower_solve (T : nat -> nat -> R) (v : nat -> R) (n : nat) : list R :=
  match n with O => [] | S k => let p := lower_solve T v k in p ++ [v k - rsum k (fun l => T l k * nth l p 0)] end.

Section Fgmres.
Context {V : ModuleSpace R_Ring}.
Variable dot : V -> V -> R.
Variable A : V -> V.
Variable M : V -> V.          (* preconditioner; the identity when it is None, lines 142-143 *)
Let nrm := norm dot.
Let axpy (x : V) (a : R) (y : V) : V := plus x (scal (V := V) a y).
Fixpoint vsum (n : nat) (f : nat -> V) : V := match n with O => zero | S n => plus (vsum n f) (f n) end.

(** V, R, T, K of lines 180-186 (V is called Q in _ortho_1_sync_igs) *)
Record basis := Basis { rows : nat -> V; mr : nat -> nat -> R; mt : nat -> nat -> R; mk : nat -> nat -> R }.
(** lines 16-72, for j >= 2; a division by zero gives NaN, which is modelled by stopping where the results are used, see [inner_step] *)
Definition ortho (B : basis) (j : nat) : R * basis :=
  let q := rows B in
  let tmp i c := dot (q i) (q (j - 2 + c)%nat) in
  let small i := tmp i 0%nat in
  let R1 := set_col (mr B) (j - 1) (j - 1) (fun i => tmp i 1%nat) in
  let norm2 := tmp (j - 2)%nat 0%nat - rsum (j - 2) (fun i => small i * small i) in
  let n := sqrt norm2 in
  let last := (R1 (j - 2)%nat (j - 1)%nat - rsum (j - 2) (fun i => small i * R1 i (j - 1)%nat)) / n in
  let R2 := fun i l => if Nat.eqb i (j - 2) && Nat.eqb l (j - 2) then n else if Nat.eqb i (j - 2) && Nat.eqb l (j - 1) then last else R1 i l in
  let T1 := set_col (mt B) (j - 2) (j - 2) (fun i => small i / n) in
  let '(R3, K1, q1) :=
    if Nat.ltb 2 j then
      let r3 := lower_solve T1 small (j - 2) in
      let R3 := set_col R2 (j - 2) (j - 2) (fun i => mk B i (j - 3)%nat + nth i r3 0) in
      (R3,
       set_col (mk B) (j - 1) (j - 2) (fun i => (R3 i (j - 1)%nat - rsum (j - 2) (fun l => R3 i (l + 1)%nat * nth l r3 0)) / n),
       set1 (set1 q (j - 2) (axpy (q (j - 2)%nat) (-1) (vsum (j - 2) (fun i => scal (V := V) (small i) (q i)))))
            (j - 1) (axpy (q (j - 1)%nat) (-1) (vsum (j - 2) (fun i => scal (V := V) (R3 i (j - 1)%nat) (q i)))))
    else (R2, set_col (mk B) (j - 1) (j - 2) (fun i => R2 i (j - 1)%nat / n), q) in
  let q2 := set1 q1 (j - 2) (scal (V := V) (/ n) (q1 (j - 2)%nat)) in
  let q3 := set1 q2 (j - 1) (axpy (q2 (j - 1)%nat) (- R3 (j - 2)%nat (j - 1)%nat) (q2 (j - 2)%nat)) in
  (n, Basis (set1 q3 (j - 1) (scal (V := V) (/ n) (q3 (j - 1)%nat))) R3 T1 K1).

(** [[c, s], [-s, c]] applied to v[j : j+2], lines 226 and 303 *)
Definition rotate (c s : R) (j : nat) (v : nat -> R) : nat -> R := fun l => if Nat.eqb l j then c * v j + s * v (S j) else if Nat.eqb l (S j) then - s * v j + c * v (S j) else v l.
(** lines 279-303; None: IndexError *)
Fixpoint apply_givens (Q : list (R * R)) (j k : nat) (v : nat -> R) : option (nat -> R) :=
  match k with O => Some v | S k => match Q with [] => None | (c, s) :: Q => apply_givens Q (S j) k (rotate c s j v) end end.

(** the variables of the outer loop body; the rows of H as a list, [g] and [v_norm] *)
Record cycle := Cycle { bas : basis; zs : nat -> V; hs : list (nat -> R); rots : list (R * R); g : nat -> R; v_norm : R }.
(** lines 180-195 *)
Definition first_cycle (r : V) (norm_r : R) : cycle :=
  let v0 := scal (V := V) (/ norm_r) r in
  let z0 := M v0 in
  let (n, B) := ortho (Basis (set1 (set1 (fun _ => zero) 0 v0) 1 (A z0)) (fun _ _ => 0) (fun _ _ => 0) (fun _ _ => 0)) 2 in
  Cycle B (set1 (fun _ => zero) 0 z0) [] [] (set1 (fun _ => 0) 0 norm_r) n.
(** lines 198-230. A v_norm of zero makes the new vector NaN, hence all later columns of H, and solve_triangular of line 246 raises ValueError: None *)
Definition inner_step (C : cycle) (i : nat) : option cycle :=
  if Req_EM_T (v_norm C) 0 then None
  else
    let z := M (rows (bas C) (S i)) in
    let w := scal (V := V) (v_norm C) (A (scal (V := V) (/ v_norm C) z)) in
    let (n, B) := ortho (Basis (set1 (rows (bas C)) (i + 2) w) (mr (bas C)) (mt (bas C)) (mk (bas C))) (i + 3) in
    let h0 := fun l => if Nat.ltb l (i + 2) then mr B l (i + 1)%nat else 0 in
    let zs' := set1 (zs C) (S i) (scal (V := V) (/ n) z) in
    match apply_givens (rots C) 0 i h0 with
    | None => None
    | Some h =>
      if Req_EM_T (h (S i)) 0 then Some (Cycle B zs' (hs C ++ [h]) (rots C) (g C) n)
      else
        let '(c, s, _) := rotg (h i) (h (S i)) in
        Some (Cycle B zs' (hs C ++ [set1 (set1 h i (c * h i + s * h (S i))) (S i) 0]) (rots C ++ [(c, s)]) (rotate c s i (g C)) n)
    end.
(** lines 196-241: [rest] iterations of range(restart) remain; the final state and the number of columns *)
Fixpoint inner_loop (tol_relative : R) (rest : nat) (i : nat) (C : cycle) : option (cycle * nat) :=
  match rest with
  | O => Some (C, i)
  | S rest =>
    match inner_step C i with
    | None => None
    | Some C => match rest with O => Some (C, S i) | S _ => if Rlt_dec (Rabs (g C (S i))) tol_relative then Some (C, S i) else inner_loop tol_relative rest (S i) C end
    end
  end.
(** line 246: back substitution with the n columns of H; None: a zero on the diagonal, scipy raises LinAlgError. [cols] has the last column first *)
Fixpoint upper_solve (cols : list (nat -> R)) (v : nat -> R) : option (list R) :=
  match cols with
  | [] => Some []
  | h :: cols => let n := length cols in
      if Req_EM_T (h n) 0 then None
      else let y := v n / h n in match upper_solve cols (fun l => v l - y * h l) with None => None | Some ys => Some (ys ++ [y]) end
  end.

Variable stalled : V -> V -> bool.   (* lines 260-266: whether the largest relative change of x is below 1e-12; a function of the update and of x *)
Record result := Result { x : V; norm_r : R; norm_b : R; niter : nat; flag : Z }.
(** lines 178-276, for restart >= 1; norm_r = 0 makes V[0] NaN and line 246 raises ValueError; [rest] iterations of range(maxiter) remain *)
Fixpoint outer_loop (b : V) (tol_relative : R) (restart : nat) (rest : nat) (x : V) (r : V) (norm_r : R) (niter : nat) : option result :=
  match rest with
  | O => Some (Result x norm_r (nrm b) niter (if Rle_dec tol_relative norm_r then -1 else 0)%Z)
  | S rest =>
    if Req_EM_T norm_r 0 then None
    else
      match inner_loop tol_relative restart 0 (first_cycle r norm_r) with
      | None => None
      | Some (C, n) =>
        match upper_solve (rev (hs C)) (g C) with
        | None => None
        | Some y =>
          let update := vsum n (fun i => scal (V := V) (nth i y 0) (zs C i)) in
          let x := plus x update in
          let r := plus b (opp (A x)) in
          let norm_r := nrm r in
          let it := (niter + n)%nat in
          if stalled update x then Some (Result x norm_r (nrm b) it (-1)%Z)
          else if Rlt_dec norm_r tol_relative then Some (Result x norm_r (nrm b) it 0%Z)
          else outer_loop b tol_relative restart rest x r norm_r it
        end
      end
  end.
(** lines 97-276; [len_b] is len(b). With x0 = None, line 170 multiplies None; it is reached only if A of the zero vector is not zero, and then raises TypeError *)
Definition fgmres (b : V) (len_b : nat) (x0 : option V) (tol : R) (restart maxiter : nat) (hegedus : bool) : option result :=
  if Nat.leb len_b restart then None
  else if Req_EM_T (nrm b) 0 then Some (Result zero 0 0 0 0%Z)
  else
    let x := match x0 with None => zero | Some v => v end in
    let Ax := A x in
    let start x := let r := plus b (opp (A x)) in outer_loop b (tol * nrm b) restart maxiter x r (nrm r) 0 in
    if hegedus then
      if Req_EM_T (dot Ax Ax) 0 then start x else match x0 with None => None | Some v => start (scal (V := V) (dot b Ax / dot Ax Ax) v) end
    else start x.
End Fgmres.
