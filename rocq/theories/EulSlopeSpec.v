(** Heights of the layers of the whole atmosphere, as the tiles of several processes hold them. *)
From Coq Require Import Reals ZArith Arith.
From Verif Require Import EulModel EulCutSpec EulSlopes.

Definition same_heights (k N NZ ns : nat) (A B : heights) : Prop :=
  same_points k N NZ ns (hz_pt A) (hz_pt B) /\ same_i k N NZ ns (hz_i A) (hz_i B) /\ same_j k N NZ ns (hz_j A) (hz_j B) /\ same_k k N NZ ns (hz_k A) (hz_k B).
