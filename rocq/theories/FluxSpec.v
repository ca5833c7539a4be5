(** What the fluxes at interfaces should be, independent of the code. *)
From Coq Require Import Reals Arith List.
Import ListNotations.
Open Scope R_scope.

(** a line of n elements with m points per side: both elements of an interface hold the same value *)
Definition single_valued (n m : nat) (f : nat -> nat -> R) : Prop := forall e p, (S e < n)%nat -> (p < m)%nat -> f e (m + p)%nat = f (S e) p.

(** pressure of dry air from rho theta: p = p0 (rho theta Rd / p0)^(cp/cv) *)
Definition dry_pressure (p0 Rd cp cv rho_theta : R) : R := p0 * Rpower (rho_theta * Rd / p0) (cp / cv).

(** ** Physical fluxes through a face across axis d (0 or 1) *)
(** shallow water in curvilinear coordinates: sqrtG (h u^d, h u^1 u^d + g H^1d h^2 / 2, h u^2 u^d + g H^2d h^2 / 2) *)
Definition shallow_water_flux (g sqrtG : R) (H : nat -> nat -> R) (d : nat) (h : R) (hu : nat -> R) (v : nat) : R :=
  let u := hu d / h in
  match v with O => sqrtG * hu d | S c => sqrtG * (hu c * u + 1 / 2 * g * H c d * h ^ 2) end.
(** Euler on a vertical plane: (rho v, rho u v + p n_1, rho w v + p n_2, rho theta v) *)
Definition euler_plane_flux (p : R) (d : nat) (q : nat -> R) (v : nat) : R :=
  let u := q (S d) / q 0%nat in q v * u + (if Nat.eqb v (S d) then p else 0).
(** Euler on the cubed sphere: sqrtG (q u^d + H^d. p) *)
Definition euler_sphere_flux (p sqrtG : R) (H : nat -> nat -> R) (d : nat) (q : nat -> R) (v : nat) : R :=
  let u := q (S d) / q 0%nat in sqrtG * (q v * u + match v with 1%nat => H d 0%nat * p | 2%nat => H d 1%nat * p | 3%nat => H d 2%nat * p | _ => 0 end).
(** metric, Coriolis and pressure terms: 2 rho Gamma^a_0j u^j + sum_ij Gamma^a_ij (rho u^i u^j + H^ij p) *)
Fixpoint sum_to (n : nat) (f : nat -> R) : R := match n with O => 0 | S k => sum_to k f + f k end.
Definition christoffel_forcing (rho p : R) (u : nat -> R) (H : nat -> nat -> R) (G0 : nat -> R) (G : nat -> nat -> R) : R :=
  2 * rho * sum_to 3 (fun j => G0 j * u j) + sum_to 3 (fun i => sum_to 3 (fun j => G i j * (rho * u i * u j + H i j * p))).

(** a plane of n2 rows of n1 elements, with ns points per side: both elements of an interface across x1 (across x2) hold the same value *)
Definition single_valued_x1 (n1 n2 ns : nat) (f : nat -> nat -> R) : Prop :=
  forall i j k, (i < n2)%nat -> (j + 1 < n1)%nat -> (k < ns)%nat -> f (i * n1 + j)%nat (ns + k)%nat = f (i * n1 + (j + 1))%nat k.
Definition single_valued_x2 (n1 n2 ns : nat) (f : nat -> nat -> R) : Prop :=
  forall i j k, (i + 1 < n2)%nat -> (j < n1)%nat -> (k < ns)%nat -> f (i * n1 + j)%nat (ns + k)%nat = f ((i + 1) * n1 + j)%nat k.
(** the values at the four walls *)
Definition at_walls_x1 (n1 n2 ns : nat) (P : nat -> nat -> Prop) : Prop := forall i k, (i < n2)%nat -> (0 < n1)%nat -> (k < ns)%nat -> P (i * n1)%nat k /\ P (i * n1 + (n1 - 1))%nat (ns + k)%nat.
Definition at_walls_x2 (n1 n2 ns : nat) (P : nat -> nat -> Prop) : Prop := forall j k, (0 < n2)%nat -> (j < n1)%nat -> (k < ns)%nat -> P j k /\ P ((n2 - 1) * n1 + j)%nat (ns + k)%nat.
