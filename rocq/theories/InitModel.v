(** The initial states of the shallow water test cases: wx_factory/init/shallow_water_test.py, init/initialize.py (initialize_sw). Every array formula is modelled at one point of the array, numbers are exact reals. *)
From Coq Require Import Reals.
From Verif Require Import GeoModel FluxModel.
Local Open Scope R_scope.

(** common/definitions.py 3 *)
Definition day_in_secs : R := 86400.
(** shallow_water_test.py 30-33, 158, 407, 460 *)
Definition u0_case (radius : R) (case : nat) : R := if Nat.eqb case 5 then 20 else 2 * PI * radius / (12 * day_in_secs).
(** 29-39 and 413-414: the zonal and the meridional wind of the cases 1, 2, 5 and 10 *)
Definition solid_body_rotation (radius : R) (case : nat) (lat : R) : R * R := (u0_case radius case * cos lat, 0).
(** 156-161 *)
Definition height_case2 (radius Omega lat : R) : R := (29400 - (radius * Omega * u0_case radius 2 + 1 / 2 * u0_case radius 2 ^ 2) * sin lat ^ 2) / gravity.
(** 183-191, 205: the mountain *)
Definition hsurf_case5 (lon lat : R) : R :=
  let rr := PI / 9 in 2000 * (1 - sqrt (Rmin (rr ^ 2) ((lon - 3 * PI / 2) ^ 2 + (lat - PI / 6) ^ 2)) / rr).
(** 173-180, 218 *)
Definition height_case5 (radius Omega lon lat : R) : R := (gravity * 5960 - (radius * Omega * 20 + 1 / 2 * 20 ^ 2) * sin lat ^ 2) / gravity - hsurf_case5 lon lat.
(** 419-420 *)
Definition hsurf_case10 (radius Omega lat : R) : R := (1 / 2 * (radius * Omega * sin lat) ^ 2 + 10) / gravity.
(** 458-482. Line 440 unpacks two numbers from a shape of three, so that the case cannot be started (C77) *)
Definition height_case10 (radius Omega lat : R) : R :=
  let u0 := u0_case radius 10 in
  let h := - (1 / 2) * (u0 * sin lat + radius * Omega * sin lat) ^ 2 + 1 / 2 * (radius * Omega * sin lat) ^ 2 + 133681 in
  (h - (1 / 2 * (radius * Omega * sin lat) ^ 2 + 10)) / gravity.
(** 119-139; [time] is step * param.dt. (dist <= radius) is 1 or 0 *)
Definition height_case1 (time lon lat : R) : R :=
  let c := 3 * PI / 2 + 2 * PI / (12 * day_in_secs) * time in
  let lon_center := if Rlt_dec (2 * PI) c then c - 2 * PI else c in
  let dist := acos (sin 0 * sin lat + cos 0 * cos lat * cos (lon - lon_center)) in
  1 / 2 * 1000 * (1 + cos (PI * dist / (1 / 3))) * (if Rle_dec dist (1 / 3) then 1 else 0).
(** 232-267, Rossby-Haurwitz wave. x ** (-2) is / x ^ 2 *)
Definition omega6 : R := 7848 / 1000000000.
Definition height_case6 (radius Omega lon lat : R) : R :=
  let K := omega6 in let c := cos lat in
  let A := omega6 / 2 * (2 * Omega + omega6) * c ^ 2 + K ^ 2 / 4 * c ^ (2 * 4) * ((4 + 1) * c ^ 2 + (2 * 4 ^ 2 - 4 - 2) - 2 * 4 ^ 2 * / c ^ 2) in
  let B := 2 * (Omega + omega6) * K / ((4 + 1) * (4 + 2)) * c ^ 4 * ((4 ^ 2 + 2 * 4 + 2) - (4 + 1) ^ 2 * c ^ 2) in
  let C := K ^ 2 / 4 * c ^ (2 * 4) * ((4 + 1) * c ^ 2 - (4 + 2)) in
  8000 + (radius ^ 2 * A + radius ^ 2 * B * cos (4 * lon) + radius ^ 2 * C * cos (2 * 4 * lon)) / gravity.
Definition wind_case6 (radius lon lat : R) : R * R :=
  let K := omega6 in
  (radius * omega6 * cos lat + radius * K * cos lat ^ (4 - 1) * (4 * sin lat ^ 2 - cos lat ^ 2) * cos (4 * lon), - radius * K * 4 * cos lat ^ (4 - 1) * sin lat * sin (4 * lon)).

(** init/initialize.py 132-202 (initialize_sw): depth, momenta (winds in the cases 0 and 1) and height of the ground at a point with the gnomonic coordinates X, Y; dx: the size of an element.
    None: other cases (0, 8 and 9 are not modelled) *)
Definition initial_sw (o : rotation) (radius Omega dx : R) (case : nat) (X Y : R) : option (R * R * R * R) :=
  let '(x, y, z) := to_cartesian o radius X Y in
  let '(lon, lat, _) := cart2sph x y z in
  let contra (w : R * R) := wind2contra_2d o radius (cos lat) dx dx X Y (fst w) (snd w) in
  let state h w hs := let (u1, u2) := contra w in Some (h, h * u1, h * u2, hs) in
  match case with
  | 1%nat => let (u1, u2) := contra (solid_body_rotation radius 1 lat) in Some (height_case1 0 lon lat, u1, u2, 0)
  | 2%nat => state (height_case2 radius Omega lat) (solid_body_rotation radius 2 lat) 0
  | 5%nat => state (height_case5 radius Omega lon lat) (solid_body_rotation radius 5 lat) (hsurf_case5 lon lat)
  | 6%nat => state (height_case6 radius Omega lon lat) (wind_case6 radius lon lat) 0
  | 10%nat => state (height_case10 radius Omega lat) (solid_body_rotation radius 10 lat) (hsurf_case10 radius Omega lat)
  | _ => None
  end.

(** rhs_sw.py 213-235 at a point: the forcing of the equation [v], with the slopes dz1, dz2 of the ground; it is that of SwModel *)
Definition forcing_at (o : rotation) (radius Omega dx X Y h hu1 hu2 dz1 dz2 : R) (v : nat) : R :=
  let H := H_contra radius dx dx X Y in let u1 := hu1 / h in let u2 := hu2 / h in
  let G1 := christoffel_1 dx dx X Y in let G2 := christoffel_2 dx dx X Y in
  match v with
  | 0%nat => 0
  | 1%nat => 2 * (christoffel_1_01 o Omega X Y * hu1 + christoffel_1_02 o Omega X Y * hu2) + s11 G1 * hu1 * u1 + 2 * s12 G1 * hu1 * u2 + gravity * h * (s11 H * dz1 + s12 H * dz2)
  | _ => 2 * (christoffel_2_01 o Omega X Y * hu1 + christoffel_2_02 o Omega X Y * hu2) + 2 * s12 G2 * hu1 * u2 + s22 G2 * hu2 * u2 + gravity * h * (s12 H * dz1 + s22 H * dz2)
  end.
