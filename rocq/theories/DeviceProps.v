(** C51: the device of each rank *)
From Coq Require Import List ZArith Lia.
From Verif Require Import DeviceModel DeviceSpec DeviceProofs.
Import ListNotations.

(** The ids are only compared with the number of devices: with 2 devices and the list [-1], rank 0 is given the device -1, which does not exist *)
Theorem C51_refuted : exists d rank l id, (0 < d)%Z /\ cuda_device (Some d) true rank (Some l) = Ok id /\ ~ exists_on d id.
Proof. exists 2%Z, 0%nat, [(-1)%Z], (-1)%Z. split; [lia|split; [reflexivity|unfold exists_on; lia]]. Qed.
Print Assumptions C51_refuted.
(** For lists without negative ids (duplicates allowed) every rank gets an existing device, and one of those requested as soon as one of them exists *)
Theorem C51_assignment_partial : forall d lib rank l, (0 < d)%Z -> (forall x, In x l -> (0 <= x)%Z) -> lib = true ->
  exists id, cuda_device (Some d) lib rank (Some l) = Ok id /\ exists_on d id /\ ((exists x, In x l /\ exists_on d x) -> In id l).
Proof. exact assignment. Qed.
Print Assumptions C51_assignment_partial.
(** Any two devices that may be used (existing, and requested when one of the requested ones exists) get numbers of ranks that differ by at most one *)
Theorem C51_loads : forall d n l assigned a b, (0 < d)%Z -> NoDup l -> (forall x, In x l -> (0 <= x)%Z) ->
  (forall r, (r < n)%nat -> cuda_device (Some d) true r (Some l) = Ok (assigned r)) ->
  exists_on d a -> exists_on d b -> ((exists x, In x l /\ exists_on d x) -> In a l /\ In b l) ->
  differ_by_at_most_one (load assigned n a) (load assigned n b).
Proof. exact loads. Qed.
Print Assumptions C51_loads.
(** Without devices (or without cupy) the constructor raises ValueError, and the simulation then runs on the CPU *)
Theorem C51_no_device : forall count lib rank l dl, (forall d, count = Some d -> (d <= 0)%Z) -> cuda_device count lib rank l = ValueError /\ make_device true count lib rank dl = Ok Cpu.
Proof. exact no_device. Qed.
Print Assumptions C51_no_device.
(** The simulation runs on a GPU only when asked to, and then on the one that the constructor chose; otherwise on the CPU *)
Theorem C51_requested : forall cuda count lib rank dl, (cuda = false -> make_device cuda count lib rank dl = Ok Cpu) /\
  (forall id, make_device cuda count lib rank dl = Ok (Cuda id) <-> cuda = true /\ cuda_device count lib rank (Some dl) = Ok id).
Proof. exact requested. Qed.
Print Assumptions C51_requested.
(** 3 devices, the list [5; 2; 0], 5 ranks: devices 2 0 2 0 2 *)
Example C51_ex : map (fun r => cuda_device (Some 3%Z) true r (Some [5; 2; 0]%Z)) (seq 0 5) = [Ok 2%Z; Ok 0%Z; Ok 2%Z; Ok 0%Z; Ok 2%Z] /\
  cuda_device None true 0 None = ValueError /\ load (fun r => nth (r mod 2) [2; 0]%Z 0%Z) 5 2 = 3%nat /\ load (fun r => nth (r mod 2) [2; 0]%Z 0%Z) 5 0 = 2%nat.
Proof. repeat split. Qed.
