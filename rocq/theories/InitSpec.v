(** What is expected of an initial state. Nothing here refers to the model of the initial states *)
From Coq Require Import Reals.
From Coquelicot Require Import Coquelicot.
Local Open Scope R_scope.

(** The rate of change of a quantity with the fluxes F1 and F2 per unit of the coordinates, the volume J and the source S (on the left hand side) at (x, y): - (dF1/dx + dF2/dy) / J - S *)
Definition rate (F1 F2 : R -> R -> R) (J S x y r : R) : Prop :=
  exists d1 d2, is_derive (fun s => F1 s y) x d1 /\ is_derive (fun s => F2 x s) y d2 /\ r = - (d1 + d2) / J - S.

(** The parts of an initial state: 0 the depth, 1 and 2 the momenta, 3 the height of the ground *)
Definition part (q : option (R * R * R * R)) (v : nat) : R :=
  match q with Some (h, hu1, hu2, hs) => match v with 0%nat => h | 1%nat => hu1 | 2%nat => hu2 | _ => hs end | None => 0 end.

(** On the sphere of radius R0, at longitude l and latitude p: fx and fy are the derivatives of f by the longitude and the latitude wherever cos p is not 0 *)
Definition derivatives (f fx fy : R -> R -> R) : Prop := forall l p, cos p <> 0 -> is_derive (fun x : R => f x p) l (fx l p) /\ is_derive (fun y : R => f l y) p (fy l p).
(** The divergence of the field (a, b) at (l, p), times R0 cos p *)
Definition divergence (a b : R -> R -> R) (l p d : R) : Prop := exists d1 d2, is_derive (fun x : R => a x p) l d1 /\ is_derive (fun y : R => b l y * cos y) p d2 /\ d = d1 + d2.
(** The wind (u, v) has no divergence, and its rate of change under the height h (the momentum equations in vector invariant form, on a sphere that rotates with the speed Omega) has none either *)
Definition balanced_wind (R0 Omega g : R) (u v h : R -> R -> R) : Prop :=
  exists ux uy vx vy ex ey : R -> R -> R,
    derivatives u ux uy /\ derivatives v vx vy /\ derivatives (fun l p => g * h l p + (u l p ^ 2 + v l p ^ 2) / 2) ex ey /\
    let vorticity l p := (vx l p - (uy l p * cos p - u l p * sin p)) / (R0 * cos p) in
    let ut l p := (vorticity l p + 2 * Omega * sin p) * v l p - ex l p / (R0 * cos p) in
    let vt l p := - (vorticity l p + 2 * Omega * sin p) * u l p - ey l p / R0 in
    forall l p, cos p <> 0 -> divergence u v l p 0 /\ divergence ut vt l p 0.
