(** An atmosphere at rest under one pressure. *)
From Coq Require Import Reals ZArith Arith.
From Verif Require Import EulModel EulCutSpec.
Local Open Scope R_scope.

Section Rest.
(** k x k tiles per panel, N x N columns of NZ elements per tile, ns x ns x ns points per element *)
Variables (k N NZ ns : nat).
(** every point of every tile: rank, layer, row, column, point *)
Definition everywhere (P : Z -> nat -> nat -> nat -> nat -> Prop) : Prop :=
  forall r l row col p, is_rank k r -> (l < NZ)%nat -> (row < N)%nat -> (col < N)%nat -> (p < ns ^ 3)%nat -> P r l row col p.
(** some density, no momentum, rho theta the same everywhere (so is the pressure) *)
Definition at_rest (T : R) (q : Z -> nat -> nat -> nat -> nat -> nat -> R) : Prop := everywhere (fun r l row col p =>
  0 < q r 0%nat l row col p /\ q r 1%nat l row col p = 0 /\ q r 2%nat l row col p = 0 /\ q r 3%nat l row col p = 0 /\ q r 4%nat l row col p = T).
Definition one_density (rho : R) (q : Z -> nat -> nat -> nat -> nat -> nat -> R) : Prop := everywhere (fun r l row col p => q r 0%nat l row col p = rho).
(** the layers are not at the centre of the earth, and the height depends on eta *)
Definition regular_layers (earth_radius : R) (deep : bool) (geo : layers) : Prop := everywhere (fun r l row col p =>
  radius0 earth_radius deep (z_pt geo r l row col p) <> 0 /\ dRdeta_pt geo r l row col p <> 0).
End Rest.
