(** The names of the time integrators. *)
From Coq Require Import String Decimal DecimalString.
From Verif Require Import SelModel.
Local Open Scope string_scope.

(** n in decimal digits, without leading zeros *)
Definition decimal (n : nat) : string := NilEmpty.string_of_uint (Nat.to_uint n).
(** a text of decimal digits that stands for n: leading zeros are allowed *)
Definition stands_for (s : string) (n : nat) : Prop := exists d, d <> Nil /\ s = NilEmpty.string_of_uint d /\ Nat.of_uint d = n.
(** the methods that use one right-hand side r *)
Inductive whole (r : rhs) : string -> integrator -> Prop :=
| W_epi s n : stands_for s n -> 2 <= n <= 6 -> whole r ("epi" ++ s) (Epi n r)
| W_epi_stiff s n : stands_for s n -> 2 <= n -> whole r ("epi_stiff" ++ s) (EpiStiff n r)
| W_srerk s n : stands_for s n -> 3 <= n -> whole r ("srerk" ++ s) (Srerk n r)
| W_euler1 : whole r "euler1" (Euler1 r) | W_tvdrk3 : whole r "tvdrk3" (Tvdrk3 r) | W_ros2 : whole r "ros2" (Ros2 r) | W_rosexp2 : whole r "rosexp2" (RosExp2 r r)
| W_backward_euler : whole r "backward_euler" (BackwardEuler r) | W_bdf2 : whole r "bdf2" (Bdf2 r) | W_crank_nicolson : whole r "crank_nicolson" (CrankNicolson r).
(** the methods that treat an implicit and an explicit part, or all and an implicit part, differently *)
Inductive partitioned (all imp exp : rhs) : string -> integrator -> Prop :=
| P_partrosexp2 : partitioned all imp exp "partrosexp2" (PartRosExp2 all imp) | P_imex2 : partitioned all imp exp "imex2" (Imex2 exp imp)
| P_strang_epi : partitioned all imp exp "strang_epi2_ros2" (StrangSplitting (Epi 2 exp) (Ros2 imp)) | P_strang_ros : partitioned all imp exp "strang_ros2_epi2" (StrangSplitting (Ros2 imp) (Epi 2 exp)).
(** the combinations of equations and grid *)
Inductive supported : string -> string -> string -> rhs -> Prop :=
| S_sphere d : d = "dg" \/ d = "dfr" \/ d = "fv" -> supported "euler" "cubed_sphere" d DirectFluxReconstructionMpi
| S_water d : d = "dg" \/ d = "dfr" \/ d = "fv" -> supported "shallow_water" "cubed_sphere" d ShallowWater
| S_plane d : d = "dg" \/ d = "dfr" -> supported "euler" "cartesian2d" d DirectFluxReconstruction
| S_volumes : supported "euler" "cartesian2d" "fv" FiniteVolume.
(** a name of the second table *)
Definition split_listed (name : string) : Prop := exists all imp exp m, partitioned all imp exp name m.
