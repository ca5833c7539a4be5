(** Geometry of the cubed sphere: wx_factory/geometry/{sphere, cubed_sphere_2d, metric2d, metric3d, winds}.py.
    Every array formula is modelled at one point of the array. Doubles are exact reals. *)
From Coq Require Import Reals.
Local Open Scope R_scope.

(** math.atan2 and numpy.arctan2 for exact arguments (Python and C: atan2(0, 0) = 0; the sign of a zero is not modelled) *)
Definition atan2 (y x : R) : R :=
  if Rlt_dec 0 x then atan (y / x)
  else if Rlt_dec x 0 then (if Rle_dec 0 y then atan (y / x) + PI else atan (y / x) - PI)
  else if Rlt_dec 0 y then PI / 2 else if Rlt_dec y 0 then - (PI / 2) else 0.

(** sphere.py 24-46 (cart2sph): azimuth in [0, 2 pi[, elevation, radius *)
Definition cart2sph (x y z : R) : R * R * R :=
  let hypotxy := sqrt (x ^ 2 + y ^ 2) in
  let r := sqrt (hypotxy ^ 2 + z ^ 2) in
  let elev := atan2 z hypotxy in
  let az := atan2 y x in
  ((if Rlt_dec az 0 then az + 2 * PI else az), elev, r).
(** sphere.py 5-21 (sph2cart) *)
Definition sph2cart (az elev radius : R) : R * R * R :=
  let rcoselev := radius * cos elev in (rcoselev * cos az, rcoselev * sin az, radius * sin elev).

(** cubed_sphere_2d.py 217-268: lon_p, lat_p, angle_p of a panel. [None]: ValueError. *)
Record rotation := { lon_p : R; lat_p : R; angle_p : R }.
Definition panel_rotation (panel : nat) (lambda0 phi0 alpha0 : R) : option rotation :=
  let c1 := cos lambda0 in let c2 := cos phi0 in let c3 := cos alpha0 in
  let s1 := sin lambda0 in let s2 := sin phi0 in let s3 := sin alpha0 in
  let tiny x := if Rlt_dec (Rabs x) (/ 10 ^ 13) then true else false in
  match panel with
  | 0 => Some {| lon_p := lambda0; lat_p := phi0; angle_p := alpha0 |}
  | 1 => Some {| lon_p := atan2 (s1 * s2 * s3 + c1 * c3) (c1 * s2 * s3 - s1 * c3); lat_p := - asin (c2 * s3); angle_p := atan2 s2 (c2 * c3) |}
  | 2 => Some {| lon_p := atan2 (- s1) (- c1); lat_p := - phi0; angle_p := - atan2 s3 c3 |}
  | 3 => Some {| lon_p := atan2 (- s1 * s2 * s3 - c1 * c3) (- c1 * s2 * s3 + s1 * c3); lat_p := asin (c2 * s3); angle_p := - atan2 s2 (c2 * c3) |}
  | 4 => if (tiny phi0 && tiny alpha0)%bool then Some {| lon_p := 0; lat_p := PI / 2; angle_p := - lambda0 |}
         else Some {| lon_p := atan2 (- s1 * s2 * c3 + c1 * s3) (- c1 * s2 * c3 - s1 * s3); lat_p := asin (c2 * c3); angle_p := atan2 (c2 * s3) (- s2) |}
  | 5 => if (tiny phi0 && tiny alpha0)%bool then Some {| lon_p := 0; lat_p := - (PI / 2); angle_p := lambda0 |}
         else Some {| lon_p := atan2 (s1 * s2 * c3 - c1 * s3) (c1 * s2 * c3 + s1 * s3); lat_p := - asin (c2 * c3); angle_p := atan2 (c2 * s3) s2 |}
  | _ => None
  end%nat.

(** cubed_sphere_2d.py 379-424 (to_cartesian): [X], [Y] gnomonic coordinates, [r] the radius (earth_radius plus the height, line 389) *)
Definition to_cartesian (o : rotation) (r X Y : R) : R * R * R :=
  let delt := sqrt (1 + X ^ 2 + Y ^ 2) in
  let lon := lon_p o in let lat := lat_p o in let angle := angle_p o in
  (r / delt * (cos lon * cos lat + X * (cos lon * sin lat * sin angle - sin lon * cos angle) - Y * (cos lon * sin lat * cos angle + sin lon * sin angle)),
   r / delt * (sin lon * cos lat + X * (sin lon * sin lat * sin angle + cos lon * cos angle) - Y * (sin lon * sin lat * cos angle - cos lon * sin angle)),
   r / delt * (sin lat - X * cos lat * sin angle + Y * cos lat * cos angle)).

(** ** The tiles: cubed_sphere_2d.py 91-121, 177-192 *)
(** 91-106: the bounds of tile number [i] of [k] along one direction *)
Definition tile_start (k i : nat) : R := - PI / 4 + INR i * ((PI / 4 - - PI / 4) / INR k).
Definition tile_end (k i : nat) : R := tile_start k i + (PI / 4 - - PI / 4) / INR k.
(** 118-119: size of an element when the tile has [n] of them *)
Definition delta_x (k i n : nat) : R := (tile_end k i - tile_start k i) / INR n.
(** 177-183: angular coordinate of the solution point [s] (in ]-1, 1[) of element [e]; minComp = -1 and maxComp = 1 by geometry.py 31 *)
Definition x_solpt (k i n e : nat) (s : R) : R := tile_start k i + delta_x k i n * INR e + delta_x k i n / (1 - - 1) * (- - 1 + s).
(** 186-192: numpy.linspace(start, end, n + 1), entry [e] *)
Definition x_itf (k i n e : nat) : R := tile_start k i + INR e * ((tile_end k i - tile_start k i) / INR n).

(** ** metric2d.py *)
(** 341-342 of cubed_sphere_2d.py *)
Definition delta2 (X Y : R) : R := 1 + X ^ 2 + Y ^ 2.
Definition delta (X Y : R) : R := sqrt (delta2 X Y).

(** A value of a 2 x 2 symmetric tensor *)
Record sym2 := { s11 : R; s12 : R; s22 : R }.
(** metric2d.py 17-29, 130-132: sqrtG, at solution points and at both kinds of interface points (the same formula) *)
Definition sqrtG (R0 dx1 dx2 X Y : R) : R := R0 ^ 2 * (1 + X ^ 2) * (1 + Y ^ 2) / (delta2 X Y * delta X Y) * (dx1 * dx2 / 8).
(** metric2d.py 40-69, 141-157: H_contra, likewise *)
Definition H_contra (R0 dx1 dx2 X Y : R) : sym2 :=
  {| s11 := delta2 X Y / (R0 ^ 2 * (1 + X ^ 2)) * (4 / dx1 ^ 2);
     s12 := delta2 X Y * X * Y / (R0 ^ 2 * (1 + X ^ 2) * (1 + Y ^ 2)) * (4 / (dx1 * dx2));
     s22 := delta2 X Y / (R0 ^ 2 * (1 + Y ^ 2)) * (4 / dx2 ^ 2) |}.
(** metric2d.py 73-78, 136-139: H_cov *)
Definition H_cov (R0 dx1 dx2 X Y : R) : sym2 :=
  let fact := R0 ^ 2 / delta X Y ^ 4 in
  {| s11 := fact * (1 + X ^ 2) ^ 2 * (1 + Y ^ 2) * (dx1 ^ 2 / 4);
     s12 := - fact * X * Y * (1 + X ^ 2) * (1 + Y ^ 2) * (dx1 * dx2 / 4);
     s22 := fact * (1 + X ^ 2) * (1 + Y ^ 2) ^ 2 * (dx2 ^ 2 / 4) |}.
(** metric2d.py 100-112, 159-167: the symbols with upper index 1 and with upper index 2 *)
Definition christoffel_1 (dx1 dx2 X Y : R) : sym2 :=
  {| s11 := 2 * X * Y ^ 2 / delta2 X Y * (1 / 2 * dx1); s12 := - (Y + Y ^ 3) / delta2 X Y * (1 / 2 * dx1); s22 := 0 * (1 / 2 * dx1) |}.
Definition christoffel_2 (dx1 dx2 X Y : R) : sym2 :=
  {| s11 := 0 * (1 / 2 * dx2); s12 := - X * (1 + X ^ 2) / delta2 X Y * (1 / 2 * dx2); s22 := 2 * X ^ 2 * Y / delta2 X Y * (1 / 2 * dx2) |}.
(** metric2d.py 82-86 *)
Definition gridrot (o : rotation) (X Y : R) : R := sin (lat_p o) - X * cos (lat_p o) * sin (angle_p o) + Y * cos (lat_p o) * cos (angle_p o).
(** metric2d.py 88-98: christoffel_1_01, christoffel_1_02, christoffel_2_01, christoffel_2_02 *)
Definition christoffel_1_01 (o : rotation) (Omega X Y : R) : R := Omega * X * Y / delta2 X Y * gridrot o X Y.
Definition christoffel_1_02 (o : rotation) (Omega X Y : R) : R := - Omega * (1 + Y ^ 2) / delta2 X Y * gridrot o X Y.
Definition christoffel_2_01 (o : rotation) (Omega X Y : R) : R := Omega * (1 + X ^ 2) / delta2 X Y * gridrot o X Y.
Definition christoffel_2_02 (o : rotation) (Omega X Y : R) : R := - Omega * X * Y / delta2 X Y * gridrot o X Y.
(** metric2d.py 115-124 and metric3d.py 1097-1106 *)
Definition coriolis_f (o : rotation) (Omega X Y : R) : R := 2 * Omega / delta X Y * gridrot o X Y.

(** ** winds.py. [radius]: earth_radius, plus the height for a deep atmosphere in three dimensions (31-40, 204-217) *)
Definition wind_denom (o : rotation) (X Y : R) : R :=
  (cos (lat_p o) + X * sin (lat_p o) * sin (angle_p o) - Y * sin (lat_p o) * cos (angle_p o)) ^ 2 + (X * cos (angle_p o) + Y * sin (angle_p o)) ^ 2.
(** winds.py 11-83 *)
Definition wind2contra_2d (o : rotation) (radius coslat dx1 dx2 X Y u v : R) : R * R :=
  let cl := cos (lat_p o) in let sl := sin (lat_p o) in let ca := cos (angle_p o) in let sa := sin (angle_p o) in
  let lambda_dot := u / (radius * coslat) in
  let phi_dot := v / radius in
  let denom := sqrt (wind_denom o X Y) in
  let dx1dlon := cl * ca + (X * Y * cl * sa - Y * sl) / (1 + X ^ 2) in
  let dx2dlon := (X * Y * cl * ca + X * sl) / (1 + Y ^ 2) + cl * sa in
  let dx1dlat := - delta2 X Y * ((cl * sa + X * sl) / (1 + X ^ 2)) / denom in
  let dx2dlat := delta2 X Y * ((cl * ca - Y * sl) / (1 + Y ^ 2)) / denom in
  ((dx1dlon * lambda_dot + dx1dlat * phi_dot) * 2 / dx1, (dx2dlon * lambda_dot + dx2dlat * phi_dot) * 2 / dx2).
(** winds.py 136-219 *)
Definition contra2wind_2d (o : rotation) (radius coslat dx1 dx2 X Y u1 u2 : R) : R * R :=
  let cl := cos (lat_p o) in let sl := sin (lat_p o) in let ca := cos (angle_p o) in let sa := sin (angle_p o) in
  let u1_contra := u1 * dx1 / 2 in
  let u2_contra := u2 * dx2 / 2 in
  let denom := wind_denom o X Y in
  let dlondx1 := (cl * ca - Y * sl) * (1 + X ^ 2) / denom in
  let dlondx2 := (cl * sa + X * sl) * (1 + Y ^ 2) / denom in
  let denom2 := sqrt (wind_denom o X Y) in
  let dlatdx1 := - ((X * Y * cl * ca + X * sl + (1 + Y ^ 2) * cl * sa) * (1 + X ^ 2)) / (delta2 X Y * denom2) in
  let dlatdx2 := (((1 + X ^ 2) * cl * ca + X * Y * cl * sa - Y * sl) * (1 + Y ^ 2)) / (delta2 X Y * denom2) in
  ((dlondx1 * u1_contra + dlondx2 * u2_contra) * coslat * radius, (dlatdx1 * u1_contra + dlatdx2 * u2_contra) * radius).

(** ** metric3d.py *)
(** A value of a 3 x 3 symmetric tensor *)
Record sym3 := { t11 : R; t12 : R; t13 : R; t22 : R; t23 : R; t33 : R }.
(** 519-644 (compute_metric). [R0]: R in the deep branch (527-584), the radius of the planet A in the shallow branch (585-642); the two
    branches are otherwise the same text. R1, R2, R3: dRdx1, dRdx2, dRdeta. *)
Definition metric3_cov (dx dy deta R0 X Y R1 R2 R3 : R) : sym3 :=
  let delsq := 1 + X ^ 2 + Y ^ 2 in let del4 := delsq ^ 2 in
  {| t11 := dx ^ 2 / 4 * (R0 ^ 2 / del4 * (1 + X ^ 2) ^ 2 * (1 + Y ^ 2) + R1 ^ 2);
     t12 := dx * dy / 4 * (- R0 ^ 2 / del4 * X * Y * (1 + X ^ 2) * (1 + Y ^ 2) + R1 * R2);
     t13 := deta * dx / 4 * R1 * R3;
     t22 := dy ^ 2 / 4 * (R0 ^ 2 / del4 * (1 + X ^ 2) * (1 + Y ^ 2) ^ 2 + R2 ^ 2);
     t23 := deta * dy / 4 * R2 * R3;
     t33 := deta ^ 2 / 4 * R3 ^ 2 |}.
Definition metric3_contra (dx dy deta R0 X Y R1 R2 R3 : R) : sym3 :=
  let delsq := 1 + X ^ 2 + Y ^ 2 in
  {| t11 := 4 / dx ^ 2 * (delsq / (R0 ^ 2 * (1 + X ^ 2)));
     t12 := 4 / dx / dy * (X * Y * delsq / (R0 ^ 2 * (1 + X ^ 2) * (1 + Y ^ 2)));
     t13 := 4 / dx / deta * (- (R1 * delsq / (R0 ^ 2 * (1 + X ^ 2)) + R2 * delsq * X * Y / (R0 ^ 2 * (1 + X ^ 2) * (1 + Y ^ 2))) / R3);
     t22 := 4 / dy ^ 2 * (delsq / (R0 ^ 2 * (1 + Y ^ 2)));
     t23 := 4 / dy / deta * (- (R1 * X * Y * delsq / (R0 ^ 2 * (1 + X ^ 2) * (1 + Y ^ 2)) + R2 * delsq / (R0 ^ 2 * (1 + Y ^ 2))) / R3);
     t33 := 4 / deta ^ 2 * (1 + R1 ^ 2 * delsq / (R0 ^ 2 * (1 + X ^ 2)) + 2 * R1 * R2 * X * Y * delsq / (R0 ^ 2 * (1 + X ^ 2) * (1 + Y ^ 2))
                            + R2 ^ 2 * delsq / (R0 ^ 2 * (1 + Y ^ 2))) / R3 ^ 2 |}.
(** delsq ** (1.5) is delsq * sqrt(delsq) *)
Definition metric3_rootG (dx dy deta R0 X Y R3 : R) : R :=
  let delsq := 1 + X ^ 2 + Y ^ 2 in
  dx / 2 * (dy / 2) * (deta / 2) * R0 ^ 2 * (1 + X ^ 2) * (1 + Y ^ 2) * Rabs R3 / (delsq * sqrt delsq).

(** metric3d.py 669-671 *)
Definition rot1 (o : rotation) (X Y : R) : R := sin (lat_p o) - X * cos (lat_p o) * sin (angle_p o) + Y * cos (lat_p o) * cos (angle_p o).
Definition rot2 (o : rotation) (X Y : R) : R := (1 + X ^ 2) * cos (lat_p o) * cos (angle_p o) - Y * sin (lat_p o) + X * Y * cos (lat_p o) * sin (angle_p o).
Definition rot3 (o : rotation) (X Y : R) : R := (1 + Y ^ 2) * cos (lat_p o) * sin (angle_p o) + X * sin (lat_p o) + X * Y * cos (lat_p o) * cos (angle_p o).
(** metric3d.py 676-733, 762-776 (deep; 795-808 with A instead of R in the shallow branch): the symbols with one lower index 0,
    with respect to (x1, x2, eta), before the scaling to the reference element (835-884).  [R0]: R in the deep branch, A in the shallow one. *)
Definition christoffel3_1_01 (o : rotation) (Omega R0 X Y R1 : R) : R := Omega * X * Y / (1 + X ^ 2 + Y ^ 2) * rot1 o X Y + R1 * Omega / (R0 * (1 + X ^ 2)) * rot2 o X Y.
Definition christoffel3_1_02 (o : rotation) (Omega R0 X Y R2 : R) : R := - Omega * (- (1 + Y ^ 2) / (1 + X ^ 2 + Y ^ 2)) * rot1 o X Y + R2 * Omega / (R0 * (1 + X ^ 2)) * rot2 o X Y.
Definition christoffel3_1_03 (o : rotation) (Omega R0 X Y R3 : R) : R := R3 * Omega / (R0 * (1 + X ^ 2)) * rot2 o X Y.
Definition christoffel3_2_01 (o : rotation) (Omega R0 X Y R1 : R) : R := Omega * (1 + X ^ 2) / (1 + X ^ 2 + Y ^ 2) * rot1 o X Y + R1 * Omega / (R0 * (1 + Y ^ 2)) * rot3 o X Y.
Definition christoffel3_2_02 (o : rotation) (Omega R0 X Y R2 : R) : R := - Omega * X * Y / (1 + X ^ 2 + Y ^ 2) * rot2 o X Y + R2 * Omega / (R0 * (1 + Y ^ 2)) * rot3 o X Y.
Definition christoffel3_2_03 (o : rotation) (Omega R0 X Y R3 : R) : R := R3 * Omega / (R0 * (1 + Y ^ 2)) * rot3 o X Y.
Definition christoffel3_3_01 (o : rotation) (Omega R0 X Y R1 R2 R3 : R) : R :=
  - / R3 * (R1 * christoffel3_1_01 o Omega R0 X Y R1 + R2 * christoffel3_2_01 o Omega R0 X Y R1
            + R0 / (1 + X ^ 2 + Y ^ 2) * Omega * (1 + X ^ 2) * (cos (lat_p o) * cos (angle_p o) - Y * sin (lat_p o))).
Definition christoffel3_3_02 (o : rotation) (Omega R0 X Y R1 R2 R3 : R) : R :=
  - / R3 * (R1 * christoffel3_1_02 o Omega R0 X Y R2 + R2 * christoffel3_2_02 o Omega R0 X Y R2
            + R0 / (1 + X ^ 2 + Y ^ 2) * Omega * (1 + Y ^ 2) * (cos (lat_p o) * sin (angle_p o) + X * sin (lat_p o))).
Definition christoffel3_3_03 (o : rotation) (Omega R0 X Y R1 R2 : R) : R :=
  - R1 * Omega / (R0 * (1 + X ^ 2)) * rot2 o X Y - R2 * Omega / (R0 * (1 + Y ^ 2)) * rot3 o X Y.
(** metric3d.py 835-884: the same, scaled to the reference element of the size (dx, dy, deta): the symbol with the upper index a and the lower indices 0, b;
    a, b = 1, 2, 3 *)
Definition christoffel3_0 (o : rotation) (Omega dx dy deta R0 X Y R1 R2 R3 : R) (a b : nat) : R :=
  let d k := match k with 1 => dx | 2 => dy | _ => deta end%nat in
  match a, b with
  | 1, 1 => christoffel3_1_01 o Omega R0 X Y R1
  | 1, 2 => christoffel3_1_02 o Omega R0 X Y R2
  | 1, _ => christoffel3_1_03 o Omega R0 X Y R3
  | 2, 1 => christoffel3_2_01 o Omega R0 X Y R1
  | 2, 2 => christoffel3_2_02 o Omega R0 X Y R2
  | 2, _ => christoffel3_2_03 o Omega R0 X Y R3
  | _, 1 => christoffel3_3_01 o Omega R0 X Y R1 R2 R3
  | _, 2 => christoffel3_3_02 o Omega R0 X Y R1 R2 R3
  | _, _ => christoffel3_3_03 o Omega R0 X Y R1 R2
  end%nat * (2 / d a * 1 * (d b / 2)).
(** metric3d.py 216-225: the temporary two-dimensional metric at interfaces *)
Definition itf_contra (X Y : R) : sym2 :=
  let d2 := 1 + X ^ 2 + Y ^ 2 in {| s11 := d2 / (1 + X ^ 2); s12 := d2 * X * Y / ((1 + X ^ 2) + (1 + Y ^ 2)); s22 := d2 / (1 + Y ^ 2) |}.
Definition itf_cov (X Y : R) : sym2 :=
  let d2 := 1 + X ^ 2 + Y ^ 2 in
  {| s11 := (1 + X ^ 2) ^ 2 * (1 + Y ^ 2) / d2 ^ 2; s12 := - X * Y * (1 + X ^ 2) * (1 + Y ^ 2) / d2 ^ 2; s22 := (1 + X ^ 2) * (1 + Y ^ 2) ^ 2 / d2 ^ 2 |}.
(** metric3d.py 329-367, 475-501: the value at an interface of the derivatives (dRdx1, dRdx2), given the extrapolations (a1, a2), (b1, b2) from the
    two sides of an interface inside a tile: converted to contravariant components, averaged, converted back *)
Definition itf_average (X Y a1 a2 b1 b2 : R) : R * R :=
  let h := itf_contra X Y in let g := itf_cov X Y in
  let e1 := 1 / 2 * (s11 h * a1 + s12 h * a2) + 1 / 2 * (s11 h * b1 + s12 h * b2) in
  let e2 := 1 / 2 * (s12 h * a1 + s22 h * a2) + 1 / 2 * (s12 h * b1 + s22 h * b2) in
  (s11 g * e1 + s12 g * e2, s12 g * e1 + s22 g * e2).
(** metric3d.py 1108 *)
Definition inv_dzdeta (deta R3 : R) : R := 1 / R3 * 2 / deta.

(** winds.py 86-133: [h] is H_contra, [iz] is inv_dzdeta *)
Definition wind2contra_3d (o : rotation) (radius coslat dx1 dx2 : R) (h : sym3) (iz X Y u v w : R) : R * R * R :=
  let (u1, u2) := wind2contra_2d o radius coslat dx1 dx2 X Y u v in
  let u3_cov := w / iz in
  (u1 + t13 h * u3_cov, u2 + t23 h * u3_cov, t33 h * u3_cov).
(** winds.py 222-277: [g] is H_cov *)
Definition contra2wind_3d (o : rotation) (radius coslat dx1 dx2 : R) (g : sym3) (iz X Y u1 u2 u3 : R) : R * R * R :=
  let (u, v) := contra2wind_2d o radius coslat dx1 dx2 X Y u1 u2 in
  let u3_cov := u1 * t13 g + u2 * t23 g + u3 * t33 g in
  (u, v, u3_cov * iz).

(** ** The spatial Christoffel symbols: metric3d.py 915-985 with numer_christoffel = True (922) *)
Definition sum3 (f : nat -> R) : R := f 0%nat + f 1%nat + f 2%nat.
(** 942-951: the entry of c_lhs in the row (a, b, c) and the column (d, e, f) after the loops; s is sqrtG, h is H_contra *)
Definition c_lhs (s : R) (h : nat -> nat -> R) (a b c d e f : nat) : R :=
  let at_ (d' e' f' : nat) (v : R) := if (Nat.eqb d d' && Nat.eqb e e' && Nat.eqb f f')%bool then v else 0 in
  sum3 (fun k => at_ k c k (s * h a b) - at_ a k c (s * h k b) - at_ b c k (s * h a k)).
(** 956-969: space_christoffel solves the system; numpy.linalg.solve is modelled as exact: its result G satisfies all 27 equations *)
Definition solves_system (s : R) (h : nat -> nat -> R) (rhs G : nat -> nat -> nat -> R) : Prop :=
  forall a b c, (a < 3)%nat -> (b < 3)%nat -> (c < 3)%nat -> sum3 (fun d => sum3 (fun e => sum3 (fun f => c_lhs s h a b c d e f * G d e f))) = rhs a b c.
