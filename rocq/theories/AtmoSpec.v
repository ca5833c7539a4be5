(** What is expected of an initial atmosphere. Nothing here refers to the model of the initial states *)
From Coq Require Import Reals.
From Coquelicot Require Import Coquelicot.
Local Open Scope R_scope.

(** The weight of the air is carried by the pressure: dP/dz = - rho g at z *)
Definition hydrostatic (g : R) (rho P : R -> R) (z : R) : Prop := is_derive P z (- rho z * g).
(** A zonal wind u at the latitude p keeps its balance: the pressure gradient to the north balances the Coriolis and the metric force. P is the pressure along the meridian *)
Definition gradient_wind (R0 Omega rho u : R) (P : R -> R) (p : R) : Prop :=
  exists d, is_derive P p d /\ - d / (R0 * rho) - 2 * Omega * sin p * u - u ^ 2 * tan p / R0 = 0.
(** The flow with the density rho (a function of the height) neither gathers nor loses mass at (l, p, z): zonal wind u, meridional wind v, vertical wind w on the sphere of radius R0 (shallow atmosphere) *)
Definition mass_conserving (R0 : R) (rho : R -> R) (u v w : R -> R -> R -> R) (l p z : R) : Prop :=
  exists d1 d2 d3, is_derive (fun x : R => rho z * u x p z) l d1 /\ is_derive (fun y : R => rho z * v l y z * cos y) p d2 /\ is_derive (fun t : R => rho t * w l p t) z d3 /\
    d1 / (R0 * cos p) + d2 / (R0 * cos p) + d3 = 0.
(** The parts of an initial state (density, density times potential temperature, winds) *)
Definition rho_of {W} (q : option (R * R * W)) : R := match q with Some (r, _, _) => r | None => 0 end.
Definition rho_theta_of {W} (q : option (R * R * W)) : R := match q with Some (_, t, _) => t | None => 0 end.
Definition zonal_of (q : option (R * R * (R * R * R))) : R := match q with Some (_, _, (u, _, _)) => u | None => 0 end.
Definition others_zero (q : option (R * R * (R * R * R))) : Prop := match q with Some (_, _, (_, v, w)) => v = 0 /\ w = 0 | None => False end.
