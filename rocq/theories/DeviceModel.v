(** The device on which each rank runs.
    Models wx_factory/device/wx_cupy.py, the choice made by CudaDevice.__init__ (wx_factory/device/device.py) and Simulation._make_device (wx_factory/simulation/simulation.py). *)
From Coq Require Import List ZArith.
Import ListNotations.

Inductive result (A : Type) : Type := Ok (a : A) | ValueError | OtherError.
Arguments Ok {A} a. Arguments ValueError {A}. Arguments OtherError {A}.

(** wx_cupy.load_cupy, wx_cupy.py lines 10-54. [count] is what the runtime reports: None when cupy is missing or raises (lines 30-48), so that num_devices keeps its value 0 *)
Definition num_devices (count : option Z) : Z := match count with Some n => if Z.leb n 0 then 0%Z else n | None => 0%Z end.
Definition cuda_avail (count : option Z) : bool := Z.ltb 0 (num_devices count).

(** device.py lines 160-165: the list of devices that are used. device_list is None when not given *)
Definition usable (count : option Z) (device_list : option (list Z)) : list Z :=
  let l := match device_list with None => [] | Some l => l end in
  match filter (fun x => Z.ltb x (num_devices count)) l with
  | [] => map Z.of_nat (seq 0 (Z.to_nat (num_devices count)))
  | l => l
  end.

(** CudaDevice.__init__, device.py lines 131-133 and 160-168. [library] tells whether the compiled kernels could be loaded (lines 139-152; its exceptions are not ValueError).
    The device id passed to cupy.cuda.Device is returned; cupy's own check of this id (use, line 168) is not part of the model *)
Definition cuda_device (count : option Z) (library : bool) (rank : nat) (device_list : option (list Z)) : result Z :=
  if negb (cuda_avail count) then ValueError
  else if negb library then OtherError
  else let l := usable count device_list in Ok (nth (rank mod length l) l 0%Z).

Inductive device := Cpu | Cuda (id : Z).
(** Simulation._make_device, simulation.py lines 194-207; [cuda] tells whether desired_device is "cuda" *)
Definition make_device (cuda : bool) (count : option Z) (library : bool) (rank : nat) (device_list : list Z) : result device :=
  if cuda then match cuda_device count library rank (Some device_list) with Ok id => Ok (Cuda id) | ValueError => Ok Cpu | OtherError => OtherError end
  else Ok Cpu.
