(** C91: the name of the time integrator decides the method, its order and its right-hand sides; what can run. *)
From Coq Require Import String.
From Verif Require Import SelModel SelSpec SelProofs SelFinal.
Local Open Scope string_scope.

(** a simulation is created exactly for a supported combination of equations and grid, without preconditioner, and a name of the tables; the integrator is the one of the tables, of the order that follows the name, with the right-hand side of the combination *)
Theorem C91_create : forall c m, create c = Ok m <-> preconditioner c = "none" /\ exists r, supported (equations c) (grid_type c) (discretization c) r /\
  (whole r (time_integrator c) m \/ grid_type c = "cartesian2d" /\ partitioned r NotPorted NotPorted (time_integrator c) m).
Proof. exact created. Qed.
Print Assumptions C91_create.
Example C91_create_case : create (Config "euler" "cartesian2d" "dg" "none" "epi4") = Ok (Epi 4 DirectFluxReconstruction).
Proof. apply C91_create. split; [reflexivity|]. exists DirectFluxReconstruction. split; [constructor; auto|left]. apply (W_epi _ "4" 4); [exact (decimal_stands 4)|]. split; repeat constructor. Qed.

(** every number written in decimal digits is read back: epi5, epi_stiff12, ... *)
Theorem C91_order : forall n q g d r, supported q g d r ->
  create (Config q g d "none" ("epi" ++ decimal n)) = (if (Nat.leb 2 n && Nat.leb n 6)%bool then Ok (Epi n r) else Raise ValueError) /\
  create (Config q g d "none" ("epi_stiff" ++ decimal n)) = (if Nat.leb 2 n then Ok (EpiStiff n r) else Raise ValueError) /\
  create (Config q g d "none" ("srerk" ++ decimal n)) = (if Nat.leb 3 n then Ok (Srerk n r) else Raise ValueError).
Proof. exact orders. Qed.
Print Assumptions C91_order.
Example C91_order_case : create (Config "shallow_water" "cubed_sphere" "dg" "none" "epi_stiff12") = Ok (EpiStiff 12 ShallowWater).
Proof. refine (proj1 (proj2 (C91_order 12 "shallow_water" "cubed_sphere" "dg" ShallowWater _))). constructor. auto. Qed.

(** what is refused is refused when the simulation is created: with ValueError, or with AttributeError for the partitioned methods on the cubed sphere *)
Theorem C91_refused : forall c e, create c = Raise e -> e = ValueError \/ (e = AttributeError /\ grid_type c = "cubed_sphere" /\ split_listed (time_integrator c)).
Proof. exact refused. Qed.
Print Assumptions C91_refused.
Example C91_refused_case : create (Config "euler" "cubed_sphere" "dg" "none" "imex2") = Raise AttributeError /\ create (Config "euler" "cubed_sphere" "dg" "none" "epi") = Raise ValueError.
Proof. split; reflexivity. Qed.

(** the first step of a simulation is taken exactly for the methods with one right-hand side, and not for finite volumes on the plane *)
Theorem C91_runs : forall c, (exists m, create c = Ok m /\ first_step m = Ok tt) <->
  preconditioner c = "none" /\ exists r m, supported (equations c) (grid_type c) (discretization c) r /\ r <> FiniteVolume /\ whole r (time_integrator c) m.
Proof. exact runs. Qed.
Print Assumptions C91_runs.
Example C91_runs_case : exists m, create (Config "euler" "cubed_sphere" "dg" "none" "rosexp2") = Ok m /\ first_step m = Ok tt.
Proof. apply C91_runs. split; [reflexivity|]. exists DirectFluxReconstructionMpi, (RosExp2 DirectFluxReconstructionMpi DirectFluxReconstructionMpi). split; [constructor; auto|]. split; [discriminate|constructor]. Qed.

(** it is not true that every name that the code lists can be run with some configuration: the partitioned methods never take a step *)
Theorem C91_partitioned_refuted : ~ (forall name, (exists r m, whole r name m) \/ split_listed name -> exists c m, time_integrator c = name /\ create c = Ok m /\ first_step m = Ok tt).
Proof. exact partitioned_refuted. Qed.
Print Assumptions C91_partitioned_refuted.
(** no partitioned method, whatever the configuration *)
Theorem C91_partitioned : forall c, split_listed (time_integrator c) -> ~ exists m, create c = Ok m /\ first_step m = Ok tt.
Proof. exact never_partitioned. Qed.
Print Assumptions C91_partitioned.
Example C91_partitioned_case : exists m, create (Config "euler" "cartesian2d" "dg" "none" "strang_ros2_epi2") = Ok m /\ first_step m = Raise ValueError.
Proof. eexists. split; reflexivity. Qed.

(** it is not true that the discretization decides the right-hand side: on the cubed sphere fv runs direct flux reconstruction *)
Theorem C91_discretization_refuted : ~ (forall q g p t m m', create (Config q g "fv" p t) = Ok m -> create (Config q g "dg" p t) = Ok m' -> m <> m').
Proof. exact discretization_refuted. Qed.
Print Assumptions C91_discretization_refuted.
Theorem C91_discretization : forall q p t, create (Config q "cubed_sphere" "fv" p t) = create (Config q "cubed_sphere" "dg" p t).
Proof. exact discretization_ignored. Qed.
Print Assumptions C91_discretization.
Example C91_discretization_case : create (Config "euler" "cubed_sphere" "fv" "none" "epi2") = Ok (Epi 2 DirectFluxReconstructionMpi).
Proof. rewrite C91_discretization. reflexivity. Qed.
