(** What the tracer flux through a face is compared with. *)
From Coq Require Import Reals.
Local Open Scope R_scope.
(** the tracer comes from the side the wind comes from. G: the metric factor, u: the wind across the face, hL, hR: the tracer on its two sides *)
Definition upwind (G u hL hR : R) : R := if Rle_dec 0 u then G * hL * u else G * hR * u.
