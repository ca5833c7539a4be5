(** The older right-hand sides of the Euler equations on a vertical plane: rhs/rhs_bubble_implicit.py, rhs/rhs_bubble_convective.py, rhs/rhs_bubble_fv.py. Variables: rho (0), rho_u (1), rho_w (2), rho_theta (3). Numbers are exact reals. All the operations of the two directions act on one line of points (one column for x3), so that a direction is modelled on a line; the text of the code is the same in both, with rho_u (x1) or rho_w (x3) as the momentum [d] across the faces. *)
From Coq Require Import Reals.
From Verif Require Import FluxModel.
From mathcomp Require Import all_ssreflect all_algebra.
From Verif Require Import RField OpModel RhsModel SwSplitModel.
Set Implicit Arguments.
Unset Strict Implicit.
Unset Printing Implicit Defensive.
Import GRing.Theory.
Delimit Scope R_scope with re.
Local Open Scope ring_scope.

(** arrays of the values at the faces: variable, element, side (0 low, 1 high) *)
Definition faces := nat -> nat -> nat -> R.
(** f[p] = x *)
Definition assign (p : nat -> nat -> nat -> bool) (x : faces) (f : faces) : faces := fun v e s => if p v e s then x v e s else f v e s.
Definition at_face (e s : nat) (v e' s' : nat) : bool := (e' == e) && (s' == s).
Definition at_var (w e s : nat) (v e' s' : nat) : bool := (v == w) && (e' == e) && (s' == s).

Section Line.
(** n elements of ns points; q: variable, point of the line *)
Variables (n ns d : nat) (pts : seq R) (q : nat -> nat -> R).
(** implicit 53-63, convective 44-54 *)
Definition face_var (v e s : nat) : R := \sum_(l < ns) q v (e * ns + l)%N * weights pts s l.
(** implicit 66-67, convective 57-58 *)
Definition face_pres (e s : nat) : R := pressure_faces (face_var 3 e s).
(** implicit 72-83, convective 63-76, finite volumes 70-81; the flux zero is not set on the sides of a periodic domain (67 of convective) *)
Definition walls (pres : nat -> nat -> R) (zero : bool) (f : faces) : faces :=
  let f1 := if zero then assign (at_face 0 0) (fun _ _ _ => R0) f else f in
  let f2 := if zero then assign (at_face n.-1 1) (fun _ _ _ => R0) f1 else f1 in
  let f3 := assign (at_var d 0 0) (fun _ _ _ => pres 0%N 0%N) f2 in
  assign (at_var d n.-1 1) (fun _ _ _ => pres n.-1 1%N) f3.
(** implicit 46-47 (x1), 49-50 (x3): fluxes at the points; the rest of the arrays holds the zeros of 26-27 *)
Definition imp_point (v x : nat) : R := if v == 0%N then q d x else if v == d then pressure_faces (q 3%N x) else R0.
(** implicit 86-108 (x3), 110-132 (x1): the body of the loop over the interfaces *)
Definition imp_step (itf : nat) (f : faces) : faces :=
  let left := itf.-1 in let right := itf in
  let a_L := (sqrt (heat_capacity_ratio * face_pres left 1 / face_var 0 left 1))%re in
  let M_L := (face_var d left 1 / (face_var 0 left 1 * a_L))%re in
  let a_R := (sqrt (heat_capacity_ratio * face_pres right 0 / face_var 0 right 0))%re in
  let M_R := (face_var d right 0 / (face_var 0 right 0 * a_R))%re in
  let M := (1 / 4 * ((M_L + 1) ^ 2 - (M_R - 1) ^ 2))%re in
  let f1 := assign (at_var 0 right 0) (fun _ _ _ => face_var 0 left 1 * Rmax 0 M * a_L + face_var 0 right 0 * Rmin 0 M * a_R)%re f in
  let f2 := assign (at_var d right 0) (fun _ _ _ => f1 d right 0%N + 1 / 2 * ((1 + M_L) * face_pres left 1 + (1 - M_R) * face_pres right 0))%re f1 in
  assign (at_face left 1) (fun v _ _ => f2 v right 0%N) f2.
(** 32-36, 72-132 *)
Definition imp_faces : faces := for_loop n.-1 (fun i => imp_step i.+1) (walls face_pres true (fun _ _ _ => R0)).
(** convective 33-41, finite volumes 40-48 *)
Definition conv_point (v x : nat) : R :=
  (let vel := q d x / q 0%N x in
   if v == 0%N then q d x else if v == 3%N then q 3%N x * vel else if v == d then q d x * vel + pressure_faces (q 3%N x) else q d x * (q v x / q 0%N x))%re.
Variable xperiodic : bool.
(** convective 95-97 *)
Definition conv_var (v e s : nat) : R := if xperiodic && (e == 0%N) then face_var v n.-1 s else face_var v e s.
Definition conv_pres (e s : nat) : R := if xperiodic && (e == 0%N) then face_pres n.-1 s else face_pres e s.
(** convective 79-93 (x3, never periodic), 99-117 (x1). left = -1 is the last element *)
Definition conv_step (itf : nat) (f : faces) : faces :=
  let left := if xperiodic && (itf.-1 == 0%N) then n.-1 else itf.-1 in let right := itf in
  let w_L := (conv_var d left 1 / conv_var 0 left 1)%re in
  let w_R := (conv_var d right 0 / conv_var 0 right 0)%re in
  let f1 := assign (at_face right 0) (fun v _ _ => 1 / 2 * (conv_var v left 1 * w_L + conv_var v right 0 * w_R))%re f in
  let f2 := assign (at_var d right 0) (fun _ _ _ => f1 d right 0%N + 1 / 2 * (conv_pres left 1 + conv_pres right 0))%re f1 in
  assign (at_face left 1) (fun v _ _ => f2 v right 0%N) f2.
(** 20-24, 63-120. [old]: what numpy.empty holds *)
Definition conv_faces (old : faces) : faces :=
  let f := for_loop n.-1 (fun i => conv_step i.+1) (walls face_pres (~~ xperiodic) old) in
  if xperiodic then assign (fun _ e _ => e == 0%N) (fun v _ s => f v n.-1 s) f else f.
(** implicit 135-159, convective 123-135: dx is geom.Δx1 or geom.Δx3 *)
Definition slope (dx : R) (flux : nat -> R) (f : nat -> nat -> R) (x : nat) : R :=
  let e := (x %/ ns)%N in let i := (x %% ns)%N in
  ((\sum_(l < ns) flux (e * ns + l)%N * diff_solpt pts i l + (f e 0%N * correction_neg pts i + f e 1%N * correction_pos pts i)) * 2 / dx)%re.
End Line.

Section Plane.
(** variable, line, column *)
Variables (nx nz ns : nat) (pts : seq R) (dx1 dx3 : R) (Q : nat -> nat -> nat -> R).
Definition line_x1 (z : nat) (v x : nat) : R := Q v z x.
Definition line_x3 (x : nat) (v z : nat) : R := Q v z x.
(** implicit 135-159. df1_dx1 and df3_dx3 hold the zeros of 29-30 where they are not set; [:-2] is rho and rho_u *)
Definition imp_df1 (v z x : nat) : R := if (v < 2)%N then slope ns pts dx1 (imp_point 1 (line_x1 z) v) (imp_faces nx ns 1 pts (line_x1 z) v) x else R0.
Definition imp_df3 (v z x : nat) : R := if (v == 0%N) || (v == 2%N) then slope ns pts dx3 (imp_point 2 (line_x3 x) v) (imp_faces nz ns 2 pts (line_x3 x) v) z else R0.
(** implicit 163-165 *)
Definition rhs_bubble_implicit (v z x : nat) : R :=
  (if v == 3%N then - (Q 3%N z x / Q 0%N z x) * (imp_df1 0 z x + imp_df3 0 z x)
   else - (imp_df1 v z x + imp_df3 v z x) - (if v == 2%N then Q 0%N z x * gravity else 0))%re.
(** convective 123-140. old1, old3: what numpy.empty holds for ifaces_flux[:, :, z, :] and kfaces_flux[:, :, :, x] *)
Definition rhs_bubble_convective (xperiodic : bool) (old1 old3 : nat -> faces) (v z x : nat) : R :=
  (- (slope ns pts dx1 (conv_point 1 (line_x1 z) v) (conv_faces nx ns 1 pts (line_x1 z) xperiodic (old1 z) v) x
      + slope ns pts dx3 (conv_point 2 (line_x3 x) v) (conv_faces nz ns 2 pts (line_x3 x) false (old3 x) v) z)
   - (if v == 2%N then Q 0%N z x * gravity else 0))%re.
(** ** rhs_bubble_fv.py *)
(** compute_flux: the functions of pde/fluxes.py 33-147 *)
Inductive scheme := Ausm | Upwind | Rusanov.
Definition compute_flux (c : scheme) (n d : nat) (var : nat -> face) (pres : face) (flux : nat -> face) : nat -> face :=
  match c with Ausm => ausm_2d_fv n d var pres flux | Upwind => upwind_2d_fv n d var flux | Rusanov => rusanov_2d_fv n d var pres flux end.
(** 51-85; the fluxes at the points on both faces of the cell (51-61), then the walls *)
Definition fv_faces (c : scheme) (n d : nat) (q : nat -> nat -> R) : nat -> face :=
  let var := fun v e (_ : nat) => q v e in
  let pres := fun e (_ : nat) => pressure_points (q 3%N e) in
  compute_flux c n d var pres (walls n d pres true (fun v e _ => conv_point d q v e)).
(** 88-94 *)
Definition rhs_bubble_fv (c : scheme) (v z x : nat) : R :=
  (let f1 := fv_faces c nx 1 (line_x1 z) v in let f3 := fv_faces c nz 2 (line_x3 x) v in
   - ((f1 x 1%N - f1 x 0%N) / dx1 + (f3 z 1%N - f3 z 0%N) / dx3) - (if v == 2%N then Q 0%N z x * gravity else 0))%re.
End Plane.
