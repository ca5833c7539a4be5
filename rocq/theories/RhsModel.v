(** Right-hand sides: wx_factory/rhs/rhs.py and rhs/rhs_dfr.py with pde/pde_euler_cartesian.py (Euler on a plane), rhs/rhs_dfr.py with pde/pde_euler_cubesphere.py (Euler on the cubed sphere). The numbers are Coq's reals; the fluxes are those of FluxModel, the operators those of OpModel. *)
From Coq Require Import Reals.
From mathcomp Require Import all_ssreflect all_algebra.
From Verif Require Import RField OpModel FluxModel.
Set Implicit Arguments.
Unset Strict Implicit.
Unset Printing Implicit Defensive.
Import GRing.Theory.
Local Open Scope ring_scope.

(** ** Euler on a plane: n2 rows of n1 elements, ns x ns points each; q: variable, element, point *)
Section Plane.
Variables (n1 n2 ns : nat) (pts : seq R) (dx1 dx3 : R).
Definition neg := @extrap_neg R_fieldType pts.
Definition pos := @extrap_pos R_fieldType pts.
Definition D := @diff_solpt R_fieldType pts.
Definition cneg := @correction_neg R_fieldType pts.
Definition cpos := @correction_pos R_fieldType pts.
(** an array of four variables with np values per element, in memory *)
Definition flat (np : nat) (q : nat -> face) : memory :=
  fun a => q (Nat.div a (n1 * n2 * np)%coq_nat) (Nat.div (Nat.modulo a (n1 * n2 * np)%coq_nat) np) (Nat.modulo a np).
Definition unflat (np : nat) (m : memory) (v e p : nat) : R := m (v * (n1 * n2 * np)%coq_nat + (e * np + p)%coq_nat)%coq_nat.
(** rhs_dfr.py 11-21; y and z have the same operators in two dimensions *)
Definition plane_q_itf_x1 (q : nat -> face) : nat -> face := fun v e => apply_op (ns * ns) (q v e) (extrap_x_2d ns neg pos).
Definition plane_q_itf_x3 (q : nat -> face) : nat -> face := fun v e => apply_op (ns * ns) (q v e) (extrap_y_2d ns neg pos).
(** rhs_dfr.py 23-24, pde_euler_cartesian.py 27-32 *)
Definition plane_fluxes (q : nat -> face) (f0 : memory * memory) : memory * memory := pointwise_eulercartesian_2d (flat (ns * ns) q) n1 n2 (ns * ns) f0.
(** rhs.py 158-166, pde_euler_cartesian.py 34-48 *)
Definition plane_fluxes_itf (q : nat -> face) (f0 : memory * memory) : memory * memory :=
  riemann_eulercartesian_ausm_2d (flat (2 * ns)%coq_nat (plane_q_itf_x1 q)) (flat (2 * ns)%coq_nat (plane_q_itf_x3 q)) n1 n2 ns f0.
(** rhs_dfr.py 26-47; [f0], [g0]: what the arrays held before *)
Definition plane_df1 (q : nat -> face) (f0 g0 : memory * memory) (v e p : nat) : R :=
  apply_op (ns * ns) (unflat (ns * ns) (plane_fluxes q f0).1 v e) (derivative_x_2d ns D) p +
  apply_op (ns + ns) (unflat (2 * ns)%coq_nat (plane_fluxes_itf q g0).1 v e) (correction_WE_2d ns cneg cpos) p.
Definition plane_df3 (q : nat -> face) (f0 g0 : memory * memory) (v e p : nat) : R :=
  apply_op (ns * ns) (unflat (ns * ns) (plane_fluxes q f0).2 v e) (derivative_y_2d ns D) p +
  apply_op (ns + ns) (unflat (2 * ns)%coq_nat (plane_fluxes_itf q g0).2 v e) (correction_SN_2d ns cneg cpos) p.
(** and the forcing, pde_euler_cartesian.py 50-51 *)
Definition plane_rhs (q : nat -> face) (f0 g0 : memory * memory) (v e p : nat) : R :=
  let r := plane_df1 q f0 g0 v e p * (- 2%:R / dx1) + plane_df3 q f0 g0 v e p * (- 2%:R / dx3) in
  if v == 2%N then r - q 0%N e p * gravity else r.
End Plane.

(** ** Euler on the cubed sphere, one tile of N x N columns of NZ elements. Fields: layer, row, column, point. All variables but rho_w, whose flux is split (rhs_dfr.py 104-135) *)
Section Sphere.
Variables (N NZ ns : nat) (pts : seq R).
(** values of f at the points and fluxes at the faces: along x1 per layer and row, along x2 per layer and column, along x3 per row and column; elements with the halo *)
Variables (f1 f2 f3 : nat -> nat -> nat -> nat -> R) (itf1 itf2 itf3 : nat -> nat -> face) (inv_sqrtG forcing : nat -> nat -> nat -> nat -> R).
(** rhs_dfr.py 95-111, 139-141 *)
Definition sphere_df1 (l r c p : nat) : R := apply_op (ns ^ 3) (f1 l r c) (derivative_x_3d ns (D pts)) p + apply_op (ns ^ 2 + ns ^ 2) (itf1 l r c.+1) (correction_WE_3d ns (cneg pts) (cpos pts)) p.
Definition sphere_df2 (l r c p : nat) : R := apply_op (ns ^ 3) (f2 l r c) (derivative_y_3d ns (D pts)) p + apply_op (ns ^ 2 + ns ^ 2) (itf2 l c r.+1) (correction_SN_3d ns (cneg pts) (cpos pts)) p.
Definition sphere_df3 (l r c p : nat) : R := apply_op (ns ^ 3) (f3 l r c) (derivative_z_3d ns (D pts)) p + apply_op (ns ^ 2 + ns ^ 2) (itf3 r c l.+1) (correction_DU_3d ns (cneg pts) (cpos pts)) p.
Definition sphere_rhs (l r c p : nat) : R := - inv_sqrtG l r c p * (sphere_df1 l r c p + sphere_df2 l r c p + sphere_df3 l r c p) - forcing l r c p.
End Sphere.
