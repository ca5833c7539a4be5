(** The initial states of the Euler test cases: wx_factory/init/dcmip.py, init/initialize.py (initialize_euler, initialize_cartesian2d). Every array formula is modelled at one point, numbers are exact reals,
    x ** y for real y is Rpower (x > 0), x ** 0.5 is sqrt. The winds are the zonal, the meridional and the vertical one, before their conversion to contravariant components (GeoModel, GeoModel3). *)
From Coq Require Import Reals.
From Verif Require Import FluxModel.
Local Open Scope R_scope.

(** dcmip.py 208, 215; 307, 314; 532, 546; 665, 671; 959, 965 and initialize.py 114-118: density, and density times potential temperature, of a pressure and a temperature *)
Definition thermo (p T : R) : R * R := let rho := p / (Rd * T) in (rho, rho * (T * Rpower (p0 / p) (Rd / cpd))).

(** ** Pure advection, 11 and 12: dcmip.py 42-93 (winds_11), 112-160 (winds_12), 47, 49, 116, 120 (the scale height, the pressure) *)
Definition scale_height : R := Rd * 300 / gravity.
Definition p_isothermal (z : R) : R := p0 * exp (- z / scale_height).
Definition winds_11 (radius time lon lat z : R) : R * R * R :=
  let tau := 12 * 86400 in let u0 := 2 * PI * radius / tau in let k0 := 10 * radius / tau in let omega0 := 23000 * PI / tau in
  let p := p_isothermal z in let ptop := p0 * exp (- 12000 / scale_height) in
  let lonp := lon - 2 * PI * time / tau in let bs := 2 / 10 in
  let s := 1 + exp ((ptop - p0) / (bs * ptop)) - exp ((p - p0) / (bs * ptop)) - exp ((ptop - p) / (bs * ptop)) in
  let ud := omega0 * radius / (bs * ptop) * cos lonp * cos lat ^ 2 * cos (2 * PI * time / tau) * (- exp ((p - p0) / (bs * ptop)) + exp ((ptop - p) / (bs * ptop))) in
  (k0 * sin lonp * sin lonp * sin (2 * lat) * cos (PI * time / tau) + u0 * cos lat + ud,
   k0 * sin (2 * lonp) * cos lat * cos (PI * time / tau),
   - (Rd * 300 / (gravity * p)) * omega0 * sin lonp * cos lat * cos (2 * PI * time / tau) * s).
Definition winds_12 (radius ztop time lon lat z : R) : R * R * R :=
  let tau := 86400 in let u0 := 40 in let w0 := 15 / 100 in let K := 5 in
  let rho := p_isothermal z / (Rd * 300) in let rho0 := p0 / (Rd * 300) in
  (u0 * cos lat,
   - (rho0 / rho) * (radius * w0 * PI) / (K * ztop) * cos lat * sin (K * lat) * cos (PI * z / ztop) * cos (PI * time / tau),
   rho0 / rho * (w0 / K) * (- 2 * sin (K * lat) * sin lat + K * cos lat * cos (K * lat)) * sin (PI * z / ztop) * cos (PI * time / tau)).

(** ** 20, atmosphere at rest with a constant lapse rate: dcmip.py 448-449, 461, 500, 510-518, 526. The exception of line 482 is in C77 *)
Definition lapse : R := 65 / 10000.
Definition p_lapse (z : R) : R := p0 * Rpower (1 - lapse / 300 * z) (gravity / (Rd * lapse)).
Definition T_lapse (z : R) : R := 300 - lapse * z.

(** ** 21 and 22, mountain waves: dcmip.py 557-569, 632-656. The mountain (576-622) only moves the heights *)
Definition wind_shear (shear : bool) : R := if shear then 25 / 100000 else 0.
Definition schar_T (shear : bool) (lat : R) : R := 300 * (1 - wind_shear shear * 20 ^ 2 / gravity * sin lat ^ 2).
Definition schar_p (shear : bool) (lat z : R) : R := 100000 * exp (- (20 ^ 2) / (2 * Rd * 300) * sin lat ^ 2 - gravity * z / (Rd * schar_T shear lat)).
Definition schar_u (shear : bool) (lat z : R) : R := 20 * cos lat * sqrt (2 * 300 / schar_T shear lat * wind_shear shear * z + schar_T shear lat / 300).
(** dcmip.py 709-755, the damping: [u], [uref] a component of the wind and of the reference wind; what is added to the forcing. The reference wind (735-749) is schar_u, 0, 0 *)
Definition schar_damping (rho ztop z u uref : R) : R :=
  let w := rho / 25 * sin (PI / 2 * (z - 20000) / (ztop - 20000)) ^ 2 in
  (if Rle_dec z 20000 then 0 else w) * (u - uref).

(** ** 31, gravity wave: dcmip.py 775-804, 823-879 *)
Definition bigG : R := gravity ^ 2 / ((1 / 100) * (1 / 100) * cpd).
Definition gw_TS (radius Omega lat : R) : R := bigG + (300 - bigG) * exp (- (20 * ((1 / 100) * (1 / 100)) / (4 * gravity ^ 2)) * (20 + 2 * Omega * radius) * (cos (2 * lat) - 1)).
Definition gw_ps (radius Omega lat : R) : R := 100000 * exp (20 / (4 * bigG * Rd) * (20 + 2 * Omega * radius) * (cos (2 * lat) - 1)) * Rpower (gw_TS radius Omega lat / 300) (cpd / Rd).
Definition gw_p (radius Omega lat z : R) : R :=
  let TS := gw_TS radius Omega lat in
  gw_ps radius Omega lat * Rpower (bigG / TS * exp (- ((1 / 100) * (1 / 100)) * z / gravity) + 1 - bigG / TS) (cpd / Rd).
Definition gw_T (radius Omega lat z : R) : R :=
  bigG * (1 - exp ((1 / 100) * (1 / 100) * z / gravity)) + gw_TS radius Omega lat * exp ((1 / 100) * (1 / 100) * z / gravity).
Definition gw_pert (radius lon lat z : R) : R :=
  let r := radius * acos (sin lat * sin 0 + cos lat * cos 0 * cos (lon - 2 * PI / 3)) in
  1 * (5000 ^ 2 / (5000 ^ 2 + r ^ 2)) * sin (2 * PI * z / 20000).
Definition gw_u (lat : R) : R := 20 * cos lat.

(** ** 77, acoustic wave: dcmip.py 893-898, 938-949 (the vertical profile 946 takes the horizontal distance, as the code does) *)
Definition acoustic_pert (lon lat : R) : R :=
  let re := 6371000 in let r := re * acos (cos lat * cos lon) in
  (if Rlt_dec (re / 3) r then 0 else 100 / 2 * (1 + cos (PI * r / (re / 3)))) * sin (1 * PI * r / 10000).

(** ** initialize_euler, initialize.py 93-120: rho, rho theta, and the three winds. None: other cases *)
Definition initial_euler (radius Omega ztop : R) (case : nat) (lon lat z : R) : option (R * R * (R * R * R)) :=
  match case with
  | 11%nat => Some (thermo (p_isothermal z) 300, winds_11 radius 0 lon lat z)
  | 12%nat => Some (thermo (p_isothermal z) 300, winds_12 radius ztop 0 lon lat z)
  | 20%nat => Some (thermo (p_lapse z) (T_lapse z), (0, 0, 0))
  | 21%nat => Some (thermo (schar_p false lat z) (schar_T false lat), (schar_u false lat z, 0, 0))
  | 22%nat => Some (thermo (schar_p true lat z) (schar_T true lat), (schar_u true lat z, 0, 0))
  | 31%nat => let (rho, rt) := thermo (gw_p radius Omega lat z) (gw_T radius Omega lat z) in Some ((rho, rt + rho * gw_pert radius lon lat z), (gw_u lat, 0, 0))
  | 77%nat => Some (thermo (p_isothermal z + acoustic_pert lon lat) 300, (0, 0, 0))
  | _ => None
  end.

(** ** The tracers of 11 and 12: dcmip.py 178-184, 229-270 (11), 280-282, 322-328 (12), initialize.py 122-127 (times the density) *)
Definition bell_distance (lon0 lon lat z : R) : R :=
  let r := acos (sin lat * sin 0 + cos lat * cos 0 * cos (lon - lon0)) in Rmin 1 ((r / (1 / 2)) ^ 2 + ((z - 5000) / 1000) ^ 2).
Definition tracers_11 (lon lat z : R) : R * R * R * R :=
  let d1 := bell_distance (5 * PI / 6) lon lat z in let d2 := bell_distance (7 * PI / 6) lon lat z in
  let q1 := 1 / 2 * (1 + cos (PI * d1)) + 1 / 2 * (1 + cos (PI * d2)) in
  let q2 := 9 / 10 - 8 / 10 * q1 ^ 2 in
  let q3 := if Rlt_dec 5000 z then (if Rlt_dec (Rabs lat) (125 / 1000) then 1 / 10 else if Rle_dec d1 (1 / 2) then 1 else if Rle_dec d2 (1 / 2) then 1 else 1 / 10)
            else if Rle_dec d1 (1 / 2) then 1 else if Rle_dec d2 (1 / 2) then 1 else 1 / 10 in
  (q1, q2, q3, 1 - 3 / 10 * (q1 + q2 + q3)).
Definition tracer_12 (z : R) : R :=
  let z1 := 2000 in let z2 := 5000 in let z0 := 1 / 2 * (z1 + z2) in
  if Rlt_dec z z2 then if Rlt_dec z1 z then 1 / 2 * (1 + cos (2 * PI * (z - z0) / (z2 - z1))) else 0 else 0.

(** ** initialize_cartesian2d, initialize.py 213-220, 243-253, 315-335, cases 0 (without the mountain) and 2: potential temperature, Exner pressure; rho, rho theta, and the two winds. [th0]: bubble_theta.
    The cases 1, 3 and 4 raise an exception (C77) *)
Definition bubble_theta (th0 x z : R) : R :=
  let r := sqrt ((x - 500) ^ 2 + (z - 260) ^ 2) in
  if Rle_dec r 50 then th0 + 1 / 2 else th0 + 1 / 2 * exp (- ((r - 50) / 100) ^ 2).
Definition mountain_exner (z : R) : R :=
  let a00 := (1 / 100) ^ 2 / gravity in let capc1 := gravity ^ 2 / ((1 / 100) ^ 2 * cpd * 288) in
  1 - capc1 * (1 - exp (- a00 * z)).
Definition mountain_theta (z : R) : R := 288 * exp ((1 / 100) ^ 2 / gravity * z).
Definition isentropic_exner (th z : R) : R := 1 - gravity / (cpd * th) * z.
Definition cartesian_state (exner th uu : R) : R * R * (R * R) :=
  let rho := p0 / (Rd * th) * Rpower exner (cvd / Rd) in (rho, rho * th, (rho * uu, rho * 0)).
Definition initial_cartesian (th0 : R) (case : nat) (x z : R) : option (R * R * (R * R)) :=
  match case with
  | 0%nat => Some (cartesian_state (mountain_exner z) (mountain_theta z) 10)
  | 2%nat => let th := bubble_theta th0 x z in Some (cartesian_state (isentropic_exner th z) th 0)
  | _ => None
  end.
