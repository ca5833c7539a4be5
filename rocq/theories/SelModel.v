(** Choice of the grid, of the right-hand sides and of the time integrator: simulation/simulation.py, rhs/rhs_selector.py, init/init_state_vars.py. Texts are sequences of ASCII characters (a file may hold other digits for which isdigit holds and int fails; not modelled). *)
From Coq Require Import String Ascii Arith Bool.
Local Open Scope string_scope.

Inductive exn := ValueError | AttributeError.
Inductive res (A : Type) := Ok (a : A) | Raise (e : exn).
Arguments Ok {A} a. Arguments Raise {A} e.
Definition bind {A B} (x : res A) (f : A -> res B) : res B := match x with Ok a => f a | Raise e => Raise e end.

(** s[:n], s[n:] *)
Fixpoint take (n : nat) (s : string) : string := match n, s with S n', String c s' => String c (take n' s') | _, _ => "" end.
Fixpoint drop (n : nat) (s : string) : string := match n, s with S n', String _ s' => drop n' s' | O, _ => s | S _, EmptyString => "" end.
(** str.isdigit *)
Definition digit (c : ascii) : bool := ((48 <=? nat_of_ascii c) && (nat_of_ascii c <=? 57))%nat.
Fixpoint all_digits (s : string) : bool := match s with EmptyString => true | String c s' => digit c && all_digits s' end.
Definition isdigit (s : string) : bool := negb (s =? "") && all_digits s.
(** int(s) of a text of digits *)
Fixpoint int_acc (s : string) (acc : nat) : nat := match s with EmptyString => acc | String c s' => int_acc s' (10 * acc + (nat_of_ascii c - 48)) end.
Definition int (s : string) : nat := int_acc s 0.

(** the values of the configuration that decide *)
Record config := Config { equations : string; grid_type : string; discretization : string; preconditioner : string; time_integrator : string }.
Inductive geometry := CubedSphere2D | CubedSphere3D | Cartesian2D.
(** simulation.py 232-270; the process topology exists exactly for the cubed sphere (97-99) *)
Definition create_geometry (c : config) : res geometry :=
  if grid_type c =? "cubed_sphere" then (if equations c =? "shallow_water" then Ok CubedSphere2D else Ok CubedSphere3D)
  else if grid_type c =? "cartesian2d" then Ok Cartesian2D else Raise ValueError.
(** init_state_vars.py 18-31: only the choice; the states are those of C77 *)
Definition init_state_vars (g : geometry) (c : config) : res unit :=
  match g with
  | CubedSphere3D => if equations c =? "euler" then Ok tt else Raise ValueError
  | Cartesian2D => if equations c =? "euler" then Ok tt else Raise ValueError
  | CubedSphere2D => if equations c =? "shallow_water" then Ok tt else Raise ValueError
  end.
(** simulation.py 272-285: 274-275 refuse all but none *)
Definition create_preconditioner (c : config) : res unit := if negb (preconditioner c =? "none") then Raise ValueError else Ok tt.

(** the right-hand sides: rhs_selector.py 39-84. NotPorted: not_implemented, 36-37 *)
Inductive rhs := DirectFluxReconstruction | DirectFluxReconstructionMpi | FiniteVolume | ShallowWater | NotPorted.
Record bundle := Bundle { full : res rhs; implicit : res rhs; explicit : res rhs }.
Definition rhs_bundle (g : geometry) (c : config) : res bundle :=
  bind (if (discretization c =? "dfr") || (discretization c =? "dg") then Ok DirectFluxReconstruction else if discretization c =? "fv" then Ok FiniteVolume else Raise ValueError) (fun rhs_class =>
  let is g' := match g, g' with CubedSphere2D, CubedSphere2D | CubedSphere3D, CubedSphere3D | Cartesian2D, Cartesian2D => true | _, _ => false end in
  if (equations c =? "euler") && is CubedSphere3D then Ok (Bundle (Ok DirectFluxReconstructionMpi) (Raise AttributeError) (Raise AttributeError))
  else if (equations c =? "shallow_water") && is CubedSphere2D then Ok (Bundle (Ok ShallowWater) (Raise AttributeError) (Raise AttributeError))
  else if (equations c =? "euler") && is Cartesian2D then Ok (Bundle (Ok rhs_class) (Ok NotPorted) (Ok NotPorted))
  else Raise ValueError).

(** the integrators, with their order and right-hand sides *)
Inductive integrator :=
| Epi (order : nat) (r : rhs) | EpiStiff (order : nat) (r : rhs) | Srerk (order : nat) (r : rhs)
| Euler1 (r : rhs) | Tvdrk3 (r : rhs) | Ros2 (r : rhs) | RosExp2 (full imp : rhs) | PartRosExp2 (full imp : rhs) | Imex2 (exp imp : rhs)
| BackwardEuler (r : rhs) | Bdf2 (r : rhs) | CrankNicolson (r : rhs) | StrangSplitting (s1 s2 : integrator).
(** epi.py 46-63 *)
Definition new_epi (order : nat) (r : rhs) : res integrator := if ((2 <=? order) && (order <=? 6))%nat then Ok (Epi order r) else Raise ValueError.
(** epi_stiff.py 25-26; too large numbers in the table of 27 are not modelled *)
Definition new_epi_stiff (order : nat) (r : rhs) : res integrator := if (order <? 2)%nat then Raise ValueError else Ok (EpiStiff order r).
(** srerk.py 30-31, 65-68 *)
Definition new_srerk (order : nat) (r : rhs) : res integrator := if (order <? 3)%nat then Raise ValueError else Ok (Srerk order r).
(** simulation.py 332-397; the attributes of the bundle are read before the constructor is called *)
Definition create_time_integrator (b : bundle) (name : string) : res integrator :=
  if (take 9 name =? "epi_stiff") && isdigit (drop 9 name) then bind (full b) (new_epi_stiff (int (drop 9 name)))
  else if (take 3 name =? "epi") && isdigit (drop 3 name) then bind (full b) (new_epi (int (drop 3 name)))
  else if (take 5 name =? "srerk") && isdigit (drop 5 name) then bind (full b) (new_srerk (int (drop 5 name)))
  else if name =? "euler1" then bind (full b) (fun r => Ok (Euler1 r))
  else if name =? "tvdrk3" then bind (full b) (fun r => Ok (Tvdrk3 r))
  else if name =? "ros2" then bind (full b) (fun r => Ok (Ros2 r))
  else if name =? "rosexp2" then bind (full b) (fun r => bind (full b) (fun r' => Ok (RosExp2 r r')))
  else if name =? "partrosexp2" then bind (full b) (fun r => bind (implicit b) (fun r' => Ok (PartRosExp2 r r')))
  else if name =? "imex2" then bind (explicit b) (fun r => bind (implicit b) (fun r' => Ok (Imex2 r r')))
  else if name =? "backward_euler" then bind (full b) (fun r => Ok (BackwardEuler r))
  else if name =? "bdf2" then bind (full b) (fun r => Ok (Bdf2 r))
  else if name =? "crank_nicolson" then bind (full b) (fun r => Ok (CrankNicolson r))
  else if name =? "strang_epi2_ros2" then bind (explicit b) (fun r => bind (new_epi 2 r) (fun s1 => bind (implicit b) (fun r' => Ok (StrangSplitting s1 (Ros2 r')))))
  else if name =? "strang_ros2_epi2" then bind (implicit b) (fun r => bind (explicit b) (fun r' => bind (new_epi 2 r') (fun s2 => Ok (StrangSplitting (Ros2 r) s2))))
  else Raise ValueError.
(** simulation.py 100-122: the construction of a simulation, as far as it depends on these values *)
Definition create (c : config) : res integrator :=
  bind (create_geometry c) (fun g => bind (init_state_vars g c) (fun _ => bind (create_preconditioner c) (fun _ => bind (rhs_bundle g c) (fun b => create_time_integrator b (time_integrator c))))).
(** one evaluation: rhs_selector.py 36-37; rhs_fv.py 14-16 reads self.q, which no constructor sets (rhs.py 12-66) *)
Definition evaluate (r : rhs) : res unit := match r with NotPorted => Raise ValueError | FiniteVolume => Raise AttributeError | _ => Ok tt end.
(** the first step evaluates each right-hand side of the integrator, in this order: the __step__ of each class (euler1 11, tvdrk3 13, epi, epi_stiff, srerk, ros2, rosexp2 22-23, partrosexp2 24-25, imex2 19-22, bdf2, ...; splitting.py 23-26) *)
Fixpoint first_step (m : integrator) : res unit :=
  match m with
  | Epi _ r | EpiStiff _ r | Srerk _ r | Euler1 r | Tvdrk3 r | Ros2 r | BackwardEuler r | Bdf2 r | CrankNicolson r => evaluate r
  | RosExp2 r r' | PartRosExp2 r r' | Imex2 r r' => bind (evaluate r) (fun _ => evaluate r')
  | StrangSplitting s1 s2 => bind (first_step s1) (fun _ => first_step s2)
  end.
