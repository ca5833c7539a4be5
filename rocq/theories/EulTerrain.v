(** The heights of the layers over a terrain: geometry/cubed_sphere_3d.py 212-297 (eta), 441-509 (apply_topography), on all the tiles of the cubed sphere. *)
From Coq Require Import Reals ZArith.
From Verif Require Import SwModel EulModel.
From mathcomp Require Import all_ssreflect.
From Verif Require Import RField FluxModel RhsModel SwRhs EulSlopes.
Delimit Scope R_scope with re.

(** 443-475: zbot at the points of a tile (rank, row, column, point of the ns x ns), zbot_itf_i (rank, row, boundary, point), zbot_itf_j (rank, column, boundary, point). The second layout of the same values (zbot_new and the others) is not modelled: 614-619 and dcmip.py 604-617 refuse to go on where it differs *)
Record terrain := { zb_pt : Z -> nat -> nat -> nat -> R; zb_i : Z -> nat -> nat -> nat -> R; zb_j : Z -> nat -> nat -> nat -> R }.

Section Layers.
Variables (NZ ns : nat) (pts : seq R) (ztop : R) (T : terrain).
(** 140: domain_eta is (0, 1) *)
Definition delta_eta : R := ((1 - 0) / INR NZ)%re.
(** 223: eta_boundaries; 238-241: eta at level z of layer l *)
Definition eta_boundary (b : nat) : R := (INR b * (1 / INR NZ))%re.
Definition eta_level (l z : nat) : R := (eta_boundary l + delta_eta / 2 * (1 + point pts z))%re.
(** 481-488: zbot + (ztop - zbot) * eta *)
Definition over (zb eta : R) : R := (zb + (ztop - zb) * eta)%re.
(** 256-273: at the interfaces across x1 and x2 eta is that of the points, between the layers that of the boundary. Point p of an element is at level p / ns^2, above point p mod ns^2 of the floor; point p of an interface across x1 (x2) is at level p / ns, above point p mod ns of the boundary *)
Definition heights_of : heights := {|
  hz_pt := fun r l row col p => over (zb_pt T r row col (p %% (ns * ns))) (eta_level l (p %/ (ns * ns)));
  hz_i := fun r l row b p => over (zb_i T r row b (p %% ns)) (eta_level l (p %/ ns));
  hz_j := fun r l col b p => over (zb_j T r col b (p %% ns)) (eta_level l (p %/ ns));
  hz_k := fun r row col b p => over (zb_pt T r row col p) (eta_boundary b) |}.
End Layers.
