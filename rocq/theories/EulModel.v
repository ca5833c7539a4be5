(** The Euler equations on all the tiles of the cubed sphere: what the tiles exchange, the metric and the fluxes at the faces of the elements. rhs/rhs_dfr.py, pde/pde_euler_cubesphere.py, geometry/metric3d.py, geometry/cubed_sphere_3d.py, process_topology.py. One element of an array is one application of a function; ranks are those of TopologyModel, coordinates of lines and sides those of SwModel (cubed_sphere_3d.py 218-229, 246-259, 540-575 are the same formulas). Numbers are exact reals; where numpy gives nan (logarithm of a density that is not positive) the functions of the reals have some value, and what is proved holds for it too. *)
From Coq Require Import Reals ZArith Arith List Bool.
From Verif Require Import TopologyModel GeoModel FluxModel SwModel.
Import ListNotations.
Local Open Scope R_scope.

(** entry of a symmetric tensor *)
Definition entry (t : sym3) (a b : nat) : R :=
  match a, b with
  | 0%nat, 0%nat => t11 t | 0%nat, 1%nat => t12 t | 0%nat, _ => t13 t
  | 1%nat, 0%nat => t12 t | 1%nat, 1%nat => t22 t | 1%nat, _ => t23 t
  | _, 0%nat => t13 t | _, 1%nat => t23 t | _, _ => t33 t
  end.
(** arrays of a tile, without the halo. At the points: layer, row, column of the element, point (vertical, then x2, then x1). At the interfaces before _to_new_itf_i, _j, _k: for i layer, row, boundary 0 .. N, point (vertical, then x2); for j layer, column, boundary, point (vertical, then x1); for k row, column, boundary 0 .. NZ, point (x2, then x1) *)
Definition at_points := Z -> nat -> nat -> nat -> nat -> R.
Definition at_itf := Z -> nat -> nat -> nat -> nat -> R.
(** geometry of the layers: heights coordVec_gnom[2] at the points and interfaces, derivatives of the radius along x1 and x2 there (metric3d.py 30-90, 360-501: here any arrays, EulSlopes computes them from the heights), derivative along eta at the points *)
Record layers := { z_pt : at_points; z_i : at_itf; z_j : at_itf; z_k : at_itf;
  s1_pt : at_points; s2_pt : at_points; s1_i : at_itf; s2_i : at_itf; s1_j : at_itf; s2_j : at_itf; s1_k : at_itf; s2_k : at_itf;
  dRdeta_pt : at_points }.

Section Sphere.
(** k x k tiles per panel, N x N columns of NZ elements per tile, ns x ns x ns points per element; points of an element, radius of the earth, height of an element in eta, deep atmosphere or not *)
Variables (k N NZ ns : nat) (pts : nat -> R) (earth_radius deta : R) (deep : bool) (geo : layers).
Definition itf_size : nat := ns * ns.
Notation m := itf_size.
Notation dx := (dx k N).

(** ** One side of a tile: layer, element along the side, vertical point, point along the side (halo_side_shape) *)
Definition slab (A : Type) := nat -> nat -> nat -> nat -> A.
(** flip_dim = (-3, -1) *)
Definition flip_slab {A} (f : slab A) : slab A := fun l x z y => f l (N - 1 - x)%nat z (ns - 1 - y)%nat.
(** flip_dim = -1 on lines of N * ns points, as metric3d.py 410-430 stores them *)
Definition flip_lines {A} (f : slab A) : slab A := fun l x z y => let o := (N * ns - 1 - (x * ns + y))%nat in f l (o / ns)%nat z (o mod ns)%nat.
(** rhs_dfr.py 142-145 and metric3d.py 402-409: the slabs sent. i: layer, row, element 1 .. N, point of its two sides; j: layer, column, element, point *)
Definition sent_slab (i j : nat -> nat -> face) (d : side) : slab R := fun l x z y =>
  match d with
  | South => j l x 1 (z * ns + y) | North => j l x N (m + (z * ns + y))
  | West => i l x 1 (z * ns + y) | East => i l x N (m + (z * ns + y)) end%nat.
Definition received_slab {A} (zero : A) (o : option (slab A)) : slab A := match o with Some f => f | None => fun _ _ _ _ => zero end.
(** process_topology.py 322-386 for slabs: conversion of the first two components with the coordinate of each entry, the third as it is *)
Definition convert_slab (f : conversion) (bd : nat -> nat -> nat -> R) (u1 u2 u3 : slab R) : slab (R * R * R) :=
  fun l x z y => let c := f (u1 l x z y) (u2 l x z y) (bd x z y) in (fst c, snd c, u3 l x z y).
(** cubed_sphere_3d.py 563-568: boundary_sn_new, boundary_we_new *)
Definition boundary_new (r : Z) (d : side) (x z y : nat) : R :=
  line k N ns pts (match d with South | North => my_col k r | West | East => my_row k r end) (x * ns + y).
(** halo added to an array; [fill] is what the outer sides hold *)
Definition fill_halo (fill : R) (lo hi : slab R) (inside : nat -> nat -> face) (l x : nat) : face := fun e p =>
  if ((1 <=? e) && (e <=? N))%nat then inside l x e p
  else if (e =? 0)%nat then (if (m <=? p)%nat then lo l x ((p - m) / ns)%nat ((p - m) mod ns)%nat else fill)
  else (if (p <? m)%nat then hi l x (p / ns)%nat (p mod ns)%nat else fill).

(** ** Metric at the interfaces *)
(** cubed_sphere_3d.py 795-895: an array with a value per boundary 0 .. n, as the two elements beside each boundary see it; the outer sides of the halo hold zero *)
Definition to_new_itf (n : nat) (f : nat -> nat -> R) : face := fun e p =>
  if ((e =? 0) && (p <? m) || (e =? n + 1) && (m <=? p))%nat then 0 else if (p <? m)%nat then f (e - 1)%nat p else f e (p - m)%nat.
(** [dR_i], [dR_j], [dR_k]: dRdeta extrapolated to the sides of the elements (metric3d.py 268-281): rank, layer, row (column), element, point; for k rank, row, column, element, point *)
Variables (dR_i dR_j dR_k : Z -> nat -> nat -> face).
(** 302-304, 405-430: the third component of what is exchanged, which the conversion does not touch *)
Definition halo_dR (r : Z) (d : side) : slab R := received_slab 0 (exchange_scalars (size k) flip_lines (fun r => sent_slab (dR_i r) (dR_j r)) r d).
Definition full_dR_i (r : Z) : nat -> nat -> face := fill_halo 0 (halo_dR r West) (halo_dR r East) (dR_i r).
Definition full_dR_j (r : Z) : nat -> nat -> face := fill_halo 0 (halo_dR r South) (halo_dR r North) (dR_j r).
(** 475-501 *)
Definition dRdeta_itf_i (r : Z) (l row b p : nat) : R := 1 / 2 * full_dR_i r l row b (m + p)%nat + 1 / 2 * full_dR_i r l row (S b) p.
Definition dRdeta_itf_j (r : Z) (l col b p : nat) : R := 1 / 2 * full_dR_j r l col b (m + p)%nat + 1 / 2 * full_dR_j r l col (S b) p.
(** 503-513; element e of the model is e - 1 of the code *)
Definition dRdeta_itf_k (r : Z) (row col b p : nat) : R :=
  if (b =? 0)%nat then dR_k r row col 1%nat p else if (b =? NZ)%nat then dR_k r row col NZ (m + p)%nat
  else 1 / 2 * (dR_k r row col (S b) p + dR_k r row col b (m + p)%nat).
(** 519-644, 648-656: compute_metric. radius0: the radius in a deep atmosphere, that of the earth in a shallow one *)
Definition radius0 (z : R) : R := if deep then z + earth_radius else earth_radius.
(** cubed_sphere_3d.py 246-259, 584-587 *)
Definition X_i (r : Z) (b p : nat) : R := itf k N (my_col k r) b.
Definition Y_i (r : Z) (row p : nat) : R := line k N ns pts (my_row k r) (row * ns + p mod ns).
Definition X_j (r : Z) (col p : nat) : R := line k N ns pts (my_col k r) (col * ns + p mod ns).
Definition Y_j (r : Z) (b p : nat) : R := itf k N (my_row k r) b.
Definition X_k (r : Z) (col p : nat) : R := line k N ns pts (my_col k r) (col * ns + p mod ns).
Definition Y_k (r : Z) (row p : nat) : R := line k N ns pts (my_row k r) (row * ns + p / ns).
Definition sqrtG_i (r : Z) (l row : nat) : face := to_new_itf N (fun b p => metric3_rootG dx dx deta (radius0 (z_i geo r l row b p)) (X_i r b p) (Y_i r row p) (dRdeta_itf_i r l row b p)).
Definition sqrtG_j (r : Z) (l col : nat) : face := to_new_itf N (fun b p => metric3_rootG dx dx deta (radius0 (z_j geo r l col b p)) (X_j r col p) (Y_j r b p) (dRdeta_itf_j r l col b p)).
Definition sqrtG_k (r : Z) (row col : nat) : face := to_new_itf NZ (fun b p => metric3_rootG dx dx deta (radius0 (z_k geo r row col b p)) (X_k r col p) (Y_k r row p) (dRdeta_itf_k r row col b p)).
Definition h_i (r : Z) (l row a c : nat) : face := to_new_itf N (fun b p => entry (metric3_contra dx dx deta (radius0 (z_i geo r l row b p)) (X_i r b p) (Y_i r row p) (s1_i geo r l row b p) (s2_i geo r l row b p) (dRdeta_itf_i r l row b p)) a c).
Definition h_j (r : Z) (l col a c : nat) : face := to_new_itf N (fun b p => entry (metric3_contra dx dx deta (radius0 (z_j geo r l col b p)) (X_j r col p) (Y_j r b p) (s1_j geo r l col b p) (s2_j geo r l col b p) (dRdeta_itf_j r l col b p)) a c).
Definition h_k (r : Z) (row col a c : nat) : face := to_new_itf NZ (fun b p => entry (metric3_contra dx dx deta (radius0 (z_k geo r row col b p)) (X_k r col p) (Y_k r row p) (s1_k geo r row col b p) (s2_k geo r row col b p) (dRdeta_itf_k r row col b p)) a c).

(** ** States and fluxes at the faces *)
(** [ext_i], [ext_j], [ext_k]: values extrapolated to the sides (rhs_dfr.py 50-71): rank, variable (rho, rho_u1, rho_u2, rho_w, rho_theta), then as dR_i, dR_j, dR_k *)
Variables (advection_only : bool) (ext_i ext_j ext_k : Z -> nat -> nat -> nat -> face).
(** 148-172 *)
Definition halo_scalar (v : nat) (r : Z) (d : side) : slab R := received_slab 0 (exchange_scalars (size k) flip_slab (fun r => sent_slab (ext_i r v) (ext_j r v)) r d).
Definition halo_vector (r : Z) (d : side) : slab (R * R * R) := received_slab (0, 0, 0) (neighbor_alltoall (dest_of (size k))
  (fun r s => flip_if (t_flip (build_topology (size k) r) s) flip_slab (convert_slab (t_contra (build_topology (size k) r) s) (boundary_new r s)
     (sent_slab (ext_i r 1%nat) (ext_j r 1%nat) s) (sent_slab (ext_i r 2%nat) (ext_j r 2%nat) s) (sent_slab (ext_i r 3%nat) (ext_j r 3%nat) s))) r d).
(** 184-201 *)
Definition halo_q (r : Z) (v : nat) (d : side) : slab R :=
  match v with
  | 1%nat => fun l x z y => fst (fst (halo_vector r d l x z y))
  | 2%nat => fun l x z y => snd (fst (halo_vector r d l x z y))
  | 3%nat => fun l x z y => snd (halo_vector r d l x z y)
  | _ => halo_scalar v r d
  end.
(** 238-268 *)
Definition full_i (r : Z) (v : nat) : nat -> nat -> face := fill_halo 1 (halo_q r v West) (halo_q r v East) (ext_i r v).
Definition full_j (r : Z) (v : nat) : nat -> nat -> face := fill_halo 1 (halo_q r v South) (halo_q r v North) (ext_j r v).
Definition full_k (r : Z) (row col : nat) : nat -> face := column_states (NZ + 2) m (fun v => ext_k r v row col) (fun _ _ _ => 1).
(** pde_euler_cubesphere.py 158-160 *)
Definition pressure_itf (x : R) : R := p0 * exp (cpd / cvd * ln (x * (Rd / p0))).
(** 144-200: fluxes, and the two parts of the flux of rho_w *)
Definition itf_i (r : Z) (l row : nat) : (nat -> face) * face * face :=
  rusanov_3d_new (N + 2) m 0 advection_only (fun e p => full_i r 1 l row e p / full_i r 0 l row e p) (fun v => full_i r v l row)
    (fun e p => pressure_itf (full_i r 4 l row e p)) (sqrtG_i r l row) (h_i r l row) (fun _ => zeros) zeros zeros.
Definition itf_j (r : Z) (l col : nat) : (nat -> face) * face * face :=
  rusanov_3d_new (N + 2) m 1 advection_only (fun e p => full_j r 2 l col e p / full_j r 0 l col e p) (fun v => full_j r v l col)
    (fun e p => pressure_itf (full_j r 4 l col e p)) (sqrtG_j r l col) (h_j r l col) (fun _ => zeros) zeros zeros.
Definition itf_k (r : Z) (row col : nat) : (nat -> face) * face * face :=
  rusanov_3d_new (NZ + 2) m 2 advection_only (column_velocity (NZ + 2) m (full_k r row col)) (full_k r row col)
    (fun e p => pressure_itf (full_k r row col 4%nat e p)) (sqrtG_k r row col) (h_k r row col) (fun _ => zeros) zeros zeros.

(** ** At the points *)
(** cubed_sphere_3d.py 218-229, 540-556 *)
Definition X_pt3 (r : Z) (col p : nat) : R := line k N ns pts (my_col k r) (col * ns + p mod ns).
Definition Y_pt3 (r : Z) (row p : nat) : R := line k N ns pts (my_row k r) (row * ns + (p / ns) mod ns).
(** metric3d.py 646, 1108-1157 *)
Definition sqrtG_pt3 (r : Z) (l row col p : nat) : R := metric3_rootG dx dx deta (radius0 (z_pt geo r l row col p)) (X_pt3 r col p) (Y_pt3 r row p) (dRdeta_pt geo r l row col p).
Definition h_pt3 (r : Z) (l row col p a c : nat) : R := entry (metric3_contra dx dx deta (radius0 (z_pt geo r l row col p)) (X_pt3 r col p) (Y_pt3 r row p) (s1_pt geo r l row col p) (s2_pt geo r l row col p) (dRdeta_pt geo r l row col p)) a c.
Definition inv_dzdeta (r : Z) (l row col p : nat) : R := 1 / dRdeta_pt geo r l row col p * 2 / deta.
End Sphere.
