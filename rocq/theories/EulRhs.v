(** The right-hand side of the Euler equations on all the tiles of the cubed sphere: rhs/rhs.py, rhs/rhs_dfr.py and pde/pde_euler_cubesphere.py with the fluxes of EulModel and the operators of OpModel. *)
From Coq Require Import Reals ZArith.
From Verif Require Import TopologyModel GeoModel SwModel EulModel.
From mathcomp Require Import all_ssreflect all_algebra.
From Verif Require Import RField OpModel FluxModel RhsModel SwRhs.
Set Implicit Arguments.
Unset Strict Implicit.
Unset Printing Implicit Defensive.
Import GRing.Theory.
Local Open Scope ring_scope.

Section Sphere.
Variables (k N NZ ns : nat) (pts : seq R) (earth_radius deta : R) (deep advection_only : bool) (geo : layers).
(** christoffel symbols: rank, layer, row, column, point, then the two indices of metric.christoffel; what dcmip_schar_damping adds to the forcing (pde_euler_cubesphere.py 284-288), by rank, variable, layer, row, column, point: any numbers, zero in the other cases *)
Variables (christoffel : Z -> nat -> nat -> nat -> nat -> nat -> nat -> R) (damping : Z -> nat -> nat -> nat -> nat -> nat -> R).
(** q: rank, variable (rho, rho_u1, rho_u2, rho_w, rho_theta), layer, row, column, point *)
Variable q : Z -> nat -> nat -> nat -> nat -> nat -> R.
Notation ex := (extrap_x_3d ns (neg pts) (pos pts)).
Notation ey := (extrap_y_3d ns (neg pts) (pos pts)).
Notation ez := (extrap_z_3d ns (neg pts) (pos pts)).
(** rhs_dfr.py 50-71: densities by their logarithms *)
Definition by_log (v : nat) : bool := (v == 0%N) || (v == 4%N).
Definition extrapolated (M : nat -> nat -> R) (v : nat) (f : nat -> R) (p : nat) : R :=
  if by_log v then exp (apply_op (ns ^ 3) (fun i => ln (f i)) M p) else apply_op (ns ^ 3) f M p.
Definition q_itf_i (r : Z) (v l row : nat) : face := fun e => extrapolated ex v (q r v l row e.-1).
Definition q_itf_j (r : Z) (v l col : nat) : face := fun e => extrapolated ey v (q r v l e.-1 col).
Definition q_itf_k (r : Z) (v row col : nat) : face := fun e => extrapolated ez v (q r v e.-1 row col).
(** metric3d.py 268-281; operators.py: extrapolate_i, extrapolate_j and extrapolate_k are these operators on another layout *)
Definition eta_itf_i (r : Z) (l row : nat) : face := fun e => apply_op (ns ^ 3) (dRdeta_pt geo r l row e.-1) ex.
Definition eta_itf_j (r : Z) (l col : nat) : face := fun e => apply_op (ns ^ 3) (dRdeta_pt geo r l e.-1 col) ey.
Definition eta_itf_k (r : Z) (row col : nat) : face := fun e => apply_op (ns ^ 3) (dRdeta_pt geo r e.-1 row col) ez.
Definition fluxes_i := itf_i k N ns (point pts) earth_radius deta deep geo eta_itf_i eta_itf_j advection_only q_itf_i q_itf_j.
Definition fluxes_j := itf_j k N ns (point pts) earth_radius deta deep geo eta_itf_i eta_itf_j advection_only q_itf_i q_itf_j.
Definition fluxes_k := itf_k k N NZ ns (point pts) earth_radius deta deep geo eta_itf_k advection_only q_itf_k.
Definition sG := sqrtG_pt3 k N ns (point pts) earth_radius deta deep geo.
Definition hc := h_pt3 k N ns (point pts) earth_radius deta deep geo.
(** state at one point *)
Definition state (r : Z) (l row col p : nat) : nat -> R := fun v => q r v l row col p.
(** pde_euler_cubesphere.py 72-124 *)
Definition points_flux (d : nat) (r : Z) (v l row col p : nat) : R := pointwise_3d d (sG r l row col p) (hc r l row col p) (state r l row col p) v.
Definition pressure (r : Z) (l row col p : nat) : R := pressure_3d (state r l row col p).
Definition log_p (r : Z) (l row col p : nat) : R := ln (pressure r l row col p).
(** rhs_dfr.py 92, 109-111 *)
Definition df1 (r : Z) (v : nat) := sphere_df1 ns pts (points_flux 0 r v) (fun l row => (fluxes_i r l row).1.1 v).
Definition df2 (r : Z) (v : nat) := sphere_df2 ns pts (points_flux 1 r v) (fun l col => (fluxes_j r l col).1.1 v).
Definition df3 (r : Z) (v : nat) := sphere_df3 ns pts (points_flux 2 r v) (fun row col => (fluxes_k r row col).1.1 v).
(** 94-104, 113-136: the flux of rho_w, in three parts; the pressure at the faces is that of the states there (pde_euler_cubesphere.py 158-160, rhs_dfr.py 293-295) *)
Definition w_adv (d : nat) (r : Z) (l row col p : nat) : R := wflux_adv_3d d (sG r l row col p) (state r l row col p).
Definition w_pres (d : nat) (r : Z) (l row col p : nat) : R := wflux_pres_3d d (sG r l row col p) (hc r l row col p).
Definition full_q_i := full_i k N ns (point pts) q_itf_i q_itf_j.
Definition full_q_j := full_j k N ns (point pts) q_itf_i q_itf_j.
Definition full_q_k := full_k NZ ns q_itf_k.
Definition log_p_i (r : Z) (l row : nat) : face := fun e p => ln (pressure_itf (full_q_i r 4%N l row e p)).
Definition log_p_j (r : Z) (l col : nat) : face := fun e p => ln (pressure_itf (full_q_j r 4%N l col e p)).
Definition log_p_k (r : Z) (row col : nat) : face := fun e p => ln (pressure_itf (full_q_k r row col 4%N e p)).
Definition w_df1 (r : Z) (l row col p : nat) : R :=
  sphere_df1 ns pts (w_adv 0 r) (fun l row => (fluxes_i r l row).1.2) l row col p
  + sphere_df1 ns pts (w_pres 0 r) (fun l row => (fluxes_i r l row).2) l row col p * pressure r l row col p
  + sphere_df1 ns pts (log_p r) (log_p_i r) l row col p * (pressure r l row col p * w_pres 0 r l row col p).
Definition w_df2 (r : Z) (l row col p : nat) : R :=
  sphere_df2 ns pts (w_adv 1 r) (fun l col => (fluxes_j r l col).1.2) l row col p
  + sphere_df2 ns pts (w_pres 1 r) (fun l col => (fluxes_j r l col).2) l row col p * pressure r l row col p
  + sphere_df2 ns pts (log_p r) (log_p_j r) l row col p * (pressure r l row col p * w_pres 1 r l row col p).
Definition w_df3 (r : Z) (l row col p : nat) : R :=
  sphere_df3 ns pts (w_adv 2 r) (fun row col => (fluxes_k r row col).1.2) l row col p
  + sphere_df3 ns pts (w_pres 2 r) (fun row col => (fluxes_k r row col).2) l row col p * pressure r l row col p
  + sphere_df3 ns pts (log_p r) (log_p_k r) l row col p * (pressure r l row col p * w_pres 2 r l row col p).
(** pde_euler_cubesphere.py 203-290; rhs.py: forcing is allocated with zeros, and only the entries of the momentum are written *)
Definition gravity_w (r : Z) (l row col p : nat) : R :=
  inv_dzdeta deta geo r l row col p * gravity * (1 / sG r l row col p) * apply_op (ns ^ 3) (fun i => sG r l row col i * q r 0%N l row col i) (highfilter_k ns (entries (highfilter (pts : seq R_fieldType)))) p.
Definition euler_forcing (r : Z) (v l row col p : nat) : R :=
  match v with
  | 1%N => forcing_py (state r l row col p) (pressure r l row col p) (hc r l row col p) (christoffel r l row col p) 0 + damping r 1%N l row col p
  | 2%N => forcing_py (state r l row col p) (pressure r l row col p) (hc r l row col p) (christoffel r l row col p) 1 + damping r 2%N l row col p
  | 3%N => forcing_py (state r l row col p) (pressure r l row col p) (hc r l row col p) (christoffel r l row col p) 2 + gravity_w r l row col p + damping r 3%N l row col p
  | _ => 0
  end.
(** rhs_dfr.py 138-139, 304-313 *)
Definition euler_rhs (r : Z) (v l row col p : nat) : R :=
  if advection_only then 0
  else - (1 / sG r l row col p) * (if v == 3%N then w_df1 r l row col p + w_df2 r l row col p + w_df3 r l row col p else df1 r v l row col p + df2 r v l row col p + df3 r v l row col p)
       - euler_forcing r v l row col p.
End Sphere.
