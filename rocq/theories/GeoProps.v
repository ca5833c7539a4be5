(** C37: metric tensors; C38: Christoffel symbols; C39: winds; C40: tiles and panels; C55-C57: three dimensions. *)
From Coq Require Import Reals ZArith Lra Lia.
From Coquelicot Require Import Coquelicot.
From Verif Require Import TopologySpec GeoModel GeoSpec GeoProofs GeoArea GeoAngles GeoTiles GeoWinds GeoPanels GeoMetric3 GeoChristoffel GeoFinal.
Local Open Scope R_scope.

(** ** C37 *)
(** The covariant metric of an element is the one of the place on the sphere as a function of the reference coordinates ... *)
Theorem C37_pullback : forall o R0 a1 a2 dx1 dx2 xi1 xi2 d1 d2, regular (a1 + dx1 / 2 * xi1) -> regular (a2 + dx2 / 2 * xi2) ->
  tangents o R0 a1 a2 dx1 dx2 xi1 xi2 d1 d2 -> let g := H_cov R0 dx1 dx2 (tan (a1 + dx1 / 2 * xi1)) (tan (a2 + dx2 / 2 * xi2)) in
  s11 g = dot d1 d1 /\ s12 g = dot d1 d2 /\ s22 g = dot d2 d2.
Proof. exact metric_is_pullback. Qed.
Print Assumptions C37_pullback.
(** ... it is positive definite and the contravariant metric is its inverse ... *)
Theorem C37_inverse : forall R0 dx1 dx2 X Y, R0 <> 0 -> dx1 <> 0 -> dx2 <> 0 ->
  inverse2 (H_cov R0 dx1 dx2 X Y) (H_contra R0 dx1 dx2 X Y) /\ positive2 (H_cov R0 dx1 dx2 X Y).
Proof. exact (fun R0 d e X Y H1 H2 H3 => conj (cov_contra R0 d e X Y H1 H2 H3) (cov_positive R0 d e X Y H1 H2 H3)). Qed.
Print Assumptions C37_inverse.
(** ... but the area element is half the square root of its determinant: *)
Theorem C37_area_partial : forall R0 dx1 dx2 X Y, 0 < dx1 -> 0 < dx2 -> sqrtG R0 dx1 dx2 X Y = sqrt (det2 (H_cov R0 dx1 dx2 X Y)) / 2.
Proof. exact sqrtG_half. Qed.
Print Assumptions C37_area_partial.
Theorem C37_area_refuted : forall R0 dx1 dx2 X Y, R0 <> 0 -> 0 < dx1 -> 0 < dx2 -> sqrtG R0 dx1 dx2 X Y <> sqrt (det2 (H_cov R0 dx1 dx2 X Y)).
Proof. exact sqrtG_wrong. Qed.
Print Assumptions C37_area_refuted.
(** the integrals of the area element over the elements of a panel add up to pi R^2 / 3: the six panels have the area 2 pi R^2, half of the sphere *)
Theorem C37_panel_area : forall k n R0 (part : nat -> nat -> nat -> nat -> R), (0 < k)%nat -> (0 < n)%nat ->
  (forall i1 e1 i2 e2, (i1 < k)%nat -> (e1 < n)%nat -> (i2 < k)%nat -> (e2 < n)%nat ->
     integral2 (fun s t => sqrtG R0 (delta_x k i1 n) (delta_x k i2 n) (tan (x_solpt k i1 n e1 s)) (tan (x_solpt k i2 n e2 t))) (part i1 e1 i2 e2)) ->
  sum_below k (fun i1 => sum_below n (fun e1 => sum_below k (fun i2 => sum_below n (fun e2 => part i1 e1 i2 e2)))) = PI * R0 ^ 2 / 3.
Proof. exact panel_area_code. Qed.
Print Assumptions C37_panel_area.
Example C37_ex : exists d1 d2, regular (0 + PI / 2 / 2 * (1 / 2)) /\ tangents {| lon_p := 1; lat_p := 1; angle_p := 1 |} 6371220 0 0 (PI / 2) (PI / 2) (1 / 2) (1 / 2) d1 d2.
Proof. exact ex_tangents. Qed.
Example C37_ex_area : exists part : nat -> nat -> nat -> nat -> R, forall i1 e1 i2 e2, (i1 < 2)%nat -> (e1 < 3)%nat -> (i2 < 2)%nat -> (e2 < 3)%nat ->
  integral2 (fun s t => sqrtG 1 (delta_x 2 i1 3) (delta_x 2 i2 3) (tan (x_solpt 2 i1 3 e1 s)) (tan (x_solpt 2 i2 3 e2 t))) (part i1 e1 i2 e2).
Proof. exact ex_area. Qed.

(** ** C38 *)
Theorem C38_levi_civita : forall R0 a1 a2 dx xi1 xi2 D1 D2, R0 <> 0 -> dx <> 0 -> regular (a1 + dx / 2 * xi1) -> regular (a2 + dx / 2 * xi2) ->
  let X := fun s => tan (a1 + dx / 2 * s) in let Y := fun s => tan (a2 + dx / 2 * s) in
  is_derive_sym2 (fun s => H_cov R0 dx dx (X s) (Y xi2)) xi1 D1 -> is_derive_sym2 (fun s => H_cov R0 dx dx (X xi1) (Y s)) xi2 D2 ->
  levi_civita (H_contra R0 dx dx (X xi1) (Y xi2)) D1 D2 (christoffel_1 dx dx (X xi1) (Y xi2)) (christoffel_2 dx dx (X xi1) (Y xi2)).
Proof. exact christoffel_levi_civita. Qed.
Print Assumptions C38_levi_civita.
(** the two element sizes of a tile are equal *)
Theorem C38_equal_sizes : forall k i1 i2 n, (0 < k)%nat -> (0 < n)%nat -> delta_x k i1 n = delta_x k i2 n.
Proof. exact equal_sizes. Qed.
Print Assumptions C38_equal_sizes.
(** the terms with a lower index 0 are those of the rotation of the planet, restricted to the tangent plane: Omega axis x v *)
Theorem C38_rotation : forall o Omega R0 a1 a2 dx xi1 xi2 d1 d2 u1 u2, regular (a1 + dx / 2 * xi1) -> regular (a2 + dx / 2 * xi2) ->
  tangents o R0 a1 a2 dx dx xi1 xi2 d1 d2 ->
  let X := tan (a1 + dx / 2 * xi1) in let Y := tan (a2 + dx / 2 * xi2) in
  let spin := cross (vscal Omega axis) (vadd (vscal u1 d1) (vscal u2 d2)) in
  let terms := vadd (vscal (christoffel_1_01 o Omega X Y * u1 + christoffel_1_02 o Omega X Y * u2) d1) (vscal (christoffel_2_01 o Omega X Y * u1 + christoffel_2_02 o Omega X Y * u2) d2) in
  dot spin d1 = dot terms d1 /\ dot spin d2 = dot terms d2.
Proof. exact coriolis_terms. Qed.
Print Assumptions C38_rotation.
(** the Coriolis parameter is 2 Omega sin(latitude) *)
Theorem C38_coriolis : forall o r X Y lon lat rr, 0 < r -> cart2sph (vx (to_cartesian o r X Y)) (vy (to_cartesian o r X Y)) (vz (to_cartesian o r X Y)) = (lon, lat, rr) ->
  forall Omega, coriolis_f o Omega X Y = 2 * Omega * sin lat.
Proof. exact coriolis_sin. Qed.
Print Assumptions C38_coriolis.
Example C38_ex : exists D1 D2, is_derive_sym2 (fun s => H_cov 6371220 (PI / 2) (PI / 2) (tan (0 + PI / 2 / 2 * s)) (tan (0 + PI / 2 / 2 * (1 / 2)))) (1 / 2) D1 /\
  is_derive_sym2 (fun s => H_cov 6371220 (PI / 2) (PI / 2) (tan (0 + PI / 2 / 2 * (1 / 2))) (tan (0 + PI / 2 / 2 * s))) (1 / 2) D2.
Proof. exact ex_derivable. Qed.

(** ** C39 *)
(** Converting to contravariant components keeps the tangent vector; d1 and d2 are the tangent vectors of the coordinate lines of the element *)
Theorem C39_same_vector : forall o r a1 a2 dx1 dx2 xi1 xi2 d1 d2 lon lat rr u v, regular (a1 + dx1 / 2 * xi1) -> regular (a2 + dx2 / 2 * xi2) ->
  tangents o r a1 a2 dx1 dx2 xi1 xi2 d1 d2 -> let X := tan (a1 + dx1 / 2 * xi1) in let Y := tan (a2 + dx2 / 2 * xi2) in let p := place o r a1 a2 dx1 dx2 xi1 xi2 in
  0 < r -> dx1 <> 0 -> dx2 <> 0 -> cart2sph (vx p) (vy p) (vz p) = (lon, lat, rr) -> cos lat <> 0 ->
  let (u1, u2) := wind2contra_2d o r (cos lat) dx1 dx2 X Y u v in vadd (vscal u1 d1) (vscal u2 d2) = vadd (vscal u (east lon lat)) (vscal v (north lon lat)).
Proof. exact wind_same_vector. Qed.
Print Assumptions C39_same_vector.
Theorem C39_round_trip : forall o r X Y lon lat rr, 0 < r -> cart2sph (vx (to_cartesian o r X Y)) (vy (to_cartesian o r X Y)) (vz (to_cartesian o r X Y)) = (lon, lat, rr) ->
  cos lat <> 0 -> forall dx1 dx2 u v, dx1 <> 0 -> dx2 <> 0 -> let (u1, u2) := wind2contra_2d o r (cos lat) dx1 dx2 X Y u v in contra2wind_2d o r (cos lat) dx1 dx2 X Y u1 u2 = (u, v).
Proof. exact round_wind. Qed.
Print Assumptions C39_round_trip.
Theorem C39_round_trip_back : forall o r X Y lon lat rr, 0 < r -> cart2sph (vx (to_cartesian o r X Y)) (vy (to_cartesian o r X Y)) (vz (to_cartesian o r X Y)) = (lon, lat, rr) ->
  cos lat <> 0 -> forall dx1 dx2 u1 u2, dx1 <> 0 -> dx2 <> 0 -> let (u, v) := contra2wind_2d o r (cos lat) dx1 dx2 X Y u1 u2 in wind2contra_2d o r (cos lat) dx1 dx2 X Y u v = (u1, u2).
Proof. exact round_contra. Qed.
Print Assumptions C39_round_trip_back.
(** Three dimensions, deep atmosphere: H is the distance to the centre, n the upward direction. From contravariant components the wind is right, with any topography ... *)
Theorem C39_contra2wind_3d : forall o H x1 x2 eta h1 h2 h3 dx dy deta e1 e2 e3 lon lat rr u1 u2 u3, regular x1 -> regular x2 -> partials3 H x1 x2 eta h1 h2 h3 -> tangents3 o H x1 x2 eta e1 e2 e3 ->
  let r := H x1 x2 eta in let p := place3 o H x1 x2 eta in let V := vadd (vscal u1 (vscal (dx / 2) e1)) (vadd (vscal u2 (vscal (dy / 2) e2)) (vscal u3 (vscal (deta / 2) e3))) in
  0 < r -> deta <> 0 -> h3 <> 0 -> cart2sph (vx p) (vy p) (vz p) = (lon, lat, rr) -> cos lat <> 0 ->
  contra2wind_3d o r (cos lat) dx dy (metric3_cov dx dy deta r (tan x1) (tan x2) h1 h2 h3) (inv_dzdeta deta h3) (tan x1) (tan x2) u1 u2 u3
  = (dot V (east lon lat), dot V (north lon lat), dot V (vscal (/ r) p)).
Proof. exact wind3_of_contra. Qed.
Print Assumptions C39_contra2wind_3d.
(** ... and without topography converting to contravariant components and back is the identity ... *)
Theorem C39_round_trip_3d_partial : forall o r X Y lon lat rr dx dy deta h3, 0 < r -> cart2sph (vx (to_cartesian o r X Y)) (vy (to_cartesian o r X Y)) (vz (to_cartesian o r X Y)) = (lon, lat, rr) ->
  cos lat <> 0 -> dx <> 0 -> dy <> 0 -> deta <> 0 -> h3 <> 0 -> forall u v w,
  let '(u1, u2, u3) := wind2contra_3d o r (cos lat) dx dy (metric3_contra dx dy deta r X Y 0 0 h3) (inv_dzdeta deta h3) X Y u v w in
  contra2wind_3d o r (cos lat) dx dy (metric3_cov dx dy deta r X Y 0 0 h3) (inv_dzdeta deta h3) X Y u1 u2 u3 = (u, v, w).
Proof. exact round_wind3_flat. Qed.
Print Assumptions C39_round_trip_3d_partial.
(** ... but over any slope it is not: a purely vertical wind comes back with a horizontal part *)
Theorem C39_round_trip_3d_refuted : forall o r X Y lon lat rr dx dy deta h1 h2 h3, 0 < r -> cart2sph (vx (to_cartesian o r X Y)) (vy (to_cartesian o r X Y)) (vz (to_cartesian o r X Y)) = (lon, lat, rr) ->
  cos lat <> 0 -> dx <> 0 -> dy <> 0 -> deta <> 0 -> h3 <> 0 -> h1 <> 0 \/ h2 <> 0 -> forall w, w <> 0 ->
  let '(u1, u2, u3) := wind2contra_3d o r (cos lat) dx dy (metric3_contra dx dy deta r X Y h1 h2 h3) (inv_dzdeta deta h3) X Y 0 0 w in
  let '(u', v', w') := contra2wind_3d o r (cos lat) dx dy (metric3_cov dx dy deta r X Y h1 h2 h3) (inv_dzdeta deta h3) X Y u1 u2 u3 in u' <> 0 \/ v' <> 0.
Proof. exact round_wind3_wrong. Qed.
Print Assumptions C39_round_trip_3d_refuted.
Example C39_ex : let o := {| lon_p := 0; lat_p := 0; angle_p := 0 |} in let p := to_cartesian o 2 0 0 in cart2sph (vx p) (vy p) (vz p) = (0, 0, 2) /\ cos 0 <> 0.
Proof. exact ex_place. Qed.

(** ** C40 *)
(** Each angle of a panel belongs to exactly one element of exactly one tile *)
Theorem C40_cover_once : forall k n x, (0 < k)%nat -> (0 < n)%nat -> - PI / 4 <= x < PI / 4 ->
  exists i e, ((i < k)%nat /\ (e < n)%nat /\ x_itf k i n e <= x < x_itf k i n (S e)) /\
    forall i' e', (i' < k)%nat -> (e' < n)%nat -> x_itf k i' n e' <= x < x_itf k i' n (S e') -> i' = i /\ e' = e.
Proof. exact cover_once. Qed.
Print Assumptions C40_cover_once.
(** The points do not depend on the number of tiles; consecutive tiles meet, and the first and the last one end at the edges of the panel *)
Theorem C40_decomposition : forall k i n e s, (0 < k)%nat -> (0 < n)%nat ->
  x_solpt k i n e s = x_solpt 1 0 (k * n) (i * n + e) s /\ x_itf k i n e = x_itf 1 0 (k * n) (i * n + e) /\
  x_itf k i n n = x_itf k (S i) n 0 /\ x_itf k 0 n 0 = - PI / 4 /\ x_itf k (k - 1) n n = PI / 4.
Proof. exact decomposition. Qed.
Print Assumptions C40_decomposition.
(** The points of an element lie between its interfaces *)
Theorem C40_between : forall k i n e s, (0 < k)%nat -> (0 < n)%nat -> - 1 < s < 1 -> x_itf k i n e < x_solpt k i n e s < x_itf k i n (S e).
Proof. exact x_solpt_between. Qed.
Print Assumptions C40_between.
(** The points lie on the sphere of the given radius, and their longitude and latitude give them back *)
Theorem C40_on_sphere : forall o r X Y lon lat rr, 0 < r -> let p := to_cartesian o r X Y in
  dot p p = r ^ 2 /\ (cart2sph (vx p) (vy p) (vz p) = (lon, lat, rr) -> rr = r /\ sph2cart lon lat rr = p /\ 0 <= lon < 2 * PI /\ - (PI / 2) <= lat <= PI / 2).
Proof. exact on_sphere. Qed.
Print Assumptions C40_on_sphere.
(** The panels are the central projection of the six faces of one cube, turned so that the centre of panel 0 is at (lambda0, phi0). [off_poles] leaves out the exact reals at which
    a turned panel has its centre at a pole, and angles below 1e-13 that are not 0: those are off by at most 2e-12 r in each component *)
Theorem C40_one_cube : forall lambda0 phi0 alpha0, exists a b c, right_handed a b c /\ a = (cos lambda0 * cos phi0, sin lambda0 * cos phi0, sin phi0) /\
  forall p o r X Y, (p < 6)%nat -> panel_rotation p lambda0 phi0 alpha0 = Some o ->
    let v := vscal (r / sqrt (1 + X ^ 2 + Y ^ 2)) (turn a b c (cube_point 1 (Z.of_nat p) X Y)) in let w := to_cartesian o r X Y in
    (off_poles p phi0 alpha0 -> w = v) /\
    (Rabs phi0 < / 10 ^ 13 -> Rabs alpha0 < / 10 ^ 13 -> 0 < r -> - 1 <= X <= 1 -> - 1 <= Y <= 1 ->
     Rabs (vx w - vx v) <= 2 / 10 ^ 12 * r /\ Rabs (vy w - vy v) <= 2 / 10 ^ 12 * r /\ Rabs (vz w - vz v) <= 2 / 10 ^ 12 * r).
Proof. exact one_cube. Qed.
Print Assumptions C40_one_cube.
(** Hence two panels have the same point exactly where their faces of the cube meet ... *)
Theorem C40_edges : forall lambda0 phi0 alpha0 p q op oq r X Y X' Y', (p < 6)%nat -> (q < 6)%nat -> off_poles p phi0 alpha0 -> off_poles q phi0 alpha0 ->
  panel_rotation p lambda0 phi0 alpha0 = Some op -> panel_rotation q lambda0 phi0 alpha0 = Some oq -> 0 < r ->
  - 1 <= X <= 1 -> - 1 <= Y <= 1 -> - 1 <= X' <= 1 -> - 1 <= Y' <= 1 ->
  (to_cartesian op r X Y = to_cartesian oq r X' Y' <-> cube_point 1 (Z.of_nat p) X Y = cube_point 1 (Z.of_nat q) X' Y').
Proof. exact edges_iff. Qed.
Print Assumptions C40_edges.
(** ... and every point of the sphere is in a panel *)
Theorem C40_covered : forall lambda0 phi0 alpha0 r v, 0 < r -> dot v v = r ^ 2 -> (forall p, (p < 6)%nat -> off_poles p phi0 alpha0) ->
  exists p o X Y, (p < 6)%nat /\ panel_rotation p lambda0 phi0 alpha0 = Some o /\ - 1 <= X <= 1 /\ - 1 <= Y <= 1 /\ to_cartesian o r X Y = v.
Proof. exact sphere_covered. Qed.
Print Assumptions C40_covered.
Example C40_ex_untilted : forall p, off_poles p 0 0.
Proof. exact ex_untilted. Qed.
Example C40_ex_tilted : forall p, off_poles p 1 1.
Proof. exact ex_tilted. Qed.

(** ** C55: the three-dimensional metric (deep atmosphere, any topography) *)
Theorem C55_pullback : forall o H x1 x2 eta h1 h2 h3 dx dy deta e1 e2 e3, regular x1 -> regular x2 -> partials3 H x1 x2 eta h1 h2 h3 -> tangents3 o H x1 x2 eta e1 e2 e3 ->
  metric3_cov dx dy deta (H x1 x2 eta) (tan x1) (tan x2) h1 h2 h3 = gram3 dx dy deta e1 e2 e3.
Proof. exact metric3_gram. Qed.
Print Assumptions C55_pullback.
Theorem C55_inverse : forall dx dy deta r X Y r1 r2 r3, dx <> 0 -> dy <> 0 -> deta <> 0 -> r <> 0 -> r3 <> 0 -> inverse3 (metric3_cov dx dy deta r X Y r1 r2 r3) (metric3_contra dx dy deta r X Y r1 r2 r3).
Proof. exact metric3_inverse. Qed.
Print Assumptions C55_inverse.
(** here the volume element is right *)
Theorem C55_volume : forall dx dy deta r X Y r1 r2 r3, 0 < dx -> 0 < dy -> 0 < deta -> metric3_rootG dx dy deta r X Y r3 = sqrt (det3 (metric3_cov dx dy deta r X Y r1 r2 r3)).
Proof. exact metric3_volume. Qed.
Print Assumptions C55_volume.
Example C55_ex : exists e1 e2 e3, partials3 (fun x y z => 6371220 + z * (100 + x * y)) (1 / 2) (1 / 4) (1 / 8) (1 / 8 * (1 / 4)) (1 / 8 * (1 / 2)) (100 + 1 / 2 * (1 / 4)) /\
  tangents3 {| lon_p := 1; lat_p := 1; angle_p := 1 |} (fun x y z => 6371220 + z * (100 + x * y)) (1 / 2) (1 / 4) (1 / 8) e1 e2 e3.
Proof. exact ex_partials. Qed.
(** The slopes at an interface are averaged through contravariant components; for equal values on both sides this should give the same value, and does where X Y = 0 ... *)
Theorem C55_interface_partial : forall X Y a1 a2, X * Y = 0 -> itf_average X Y a1 a2 a1 a2 = (a1, a2).
Proof. exact itf_average_diag. Qed.
Print Assumptions C55_interface_partial.
(** ... but nowhere else inside a panel *)
Theorem C55_interface_refuted : forall X Y a1 a2, - 1 < X < 1 -> - 1 < Y < 1 -> X * Y <> 0 -> (a1, a2) <> (0, 0) -> itf_average X Y a1 a2 a1 a2 <> (a1, a2).
Proof. exact itf_average_wrong_inside. Qed.
Print Assumptions C55_interface_refuted.

(** ** C56: the rotation terms in three dimensions *)
(** The columns of e1 and e3 are right: Omega axis x f_b is the sum of Gamma^a_0b f_a, where f_a is the tangent vector scaled to the reference element *)
Theorem C56_rotation_partial : forall o Omega H x1 x2 eta h1 h2 h3 dx dy deta e1 e2 e3, regular x1 -> regular x2 -> partials3 H x1 x2 eta h1 h2 h3 -> tangents3 o H x1 x2 eta e1 e2 e3 ->
  H x1 x2 eta <> 0 -> h3 <> 0 -> dx <> 0 -> dy <> 0 -> deta <> 0 ->
  let f1 := vscal (dx / 2) e1 in let f2 := vscal (dy / 2) e2 in let f3 := vscal (deta / 2) e3 in
  let G := christoffel3_0 o Omega dx dy deta (H x1 x2 eta) (tan x1) (tan x2) h1 h2 h3 in
  cross (vscal Omega axis) f1 = vadd (vscal (G 1 1)%nat f1) (vadd (vscal (G 2 1)%nat f2) (vscal (G 3 1)%nat f3)) /\
  cross (vscal Omega axis) f3 = vadd (vscal (G 1 3)%nat f1) (vadd (vscal (G 2 3)%nat f2) (vscal (G 3 3)%nat f3)).
Proof. exact rotation3. Qed.
Print Assumptions C56_rotation_partial.
(** The column of e2 is wrong everywhere off the equator of a rotating planet *)
Theorem C56_rotation_refuted : forall o Omega H x1 x2 eta h1 h2 h3 dx dy deta e1 e2 e3, regular x1 -> regular x2 -> partials3 H x1 x2 eta h1 h2 h3 -> tangents3 o H x1 x2 eta e1 e2 e3 ->
  H x1 x2 eta <> 0 -> h3 <> 0 -> dx <> 0 -> dy <> 0 -> deta <> 0 -> Omega <> 0 -> vz (place3 o H x1 x2 eta) <> 0 ->
  let f1 := vscal (dx / 2) e1 in let f2 := vscal (dy / 2) e2 in let f3 := vscal (deta / 2) e3 in
  let G := christoffel3_0 o Omega dx dy deta (H x1 x2 eta) (tan x1) (tan x2) h1 h2 h3 in
  cross (vscal Omega axis) f2 <> vadd (vscal (G 1 2)%nat f1) (vadd (vscal (G 2 2)%nat f2) (vscal (G 3 2)%nat f3)).
Proof. exact rotation3_wrong. Qed.
Print Assumptions C56_rotation_refuted.

(** ** C57: the linear system of the spatial Christoffel symbols *)
(** The system has at most one solution; it is symmetric in the lower indices; and the divergence of sqrtG h^ac is balanced exactly by the symbols, so that a fluid at rest with
    a constant pressure stays at rest -- whatever the (numerical, symmetric) derivatives rhs *)
Theorem C57_system : forall s g h rhs G, s <> 0 -> symmetric3 g -> symmetric3 h -> inverse3n g h -> (forall a b c, (a < 3)%nat -> (b < 3)%nat -> (c < 3)%nat -> rhs a b c = rhs b a c) ->
  solves_system s h rhs G ->
  (forall G', solves_system s h rhs G' -> forall a b c, (a < 3)%nat -> (b < 3)%nat -> (c < 3)%nat -> G' a b c = G a b c) /\
  (forall a b c, (a < 3)%nat -> (b < 3)%nat -> (c < 3)%nat -> G a b c = G a c b) /\
  (forall a, (a < 3)%nat -> sum_below 3 (fun c => rhs a c c) + s * sum_below 3 (fun c => sum_below 3 (fun d => G a c d * h c d)) = 0).
Proof. exact system_facts. Qed.
Print Assumptions C57_system.
(** With exact derivatives the solution is the Levi-Civita connection *)
Theorem C57_exact : forall (g h : vec -> nat -> nat -> R) (s : vec -> R) x dg rhs G,
  (forall y, symmetric3 (g y) /\ symmetric3 (h y) /\ inverse3n (g y) (h y) /\ 0 < s y /\ s y ^ 2 = det3n (g y)) ->
  (forall a b c, (a < 3)%nat -> (b < 3)%nat -> (c < 3)%nat -> is_derive (fun t => g (shift x c t) a b) 0 (dg a b c)) ->
  (forall a b c, (a < 3)%nat -> (b < 3)%nat -> (c < 3)%nat -> is_derive (fun t => s (shift x c t) * h (shift x c t) a b) 0 (rhs a b c)) ->
  solves_system (s x) (h x) rhs G <-> levi_civita3 (h x) dg G.
Proof. exact system_exact. Qed.
Print Assumptions C57_exact.
Example C57_ex : forall x,
  (forall y, symmetric3 (ex_g y) /\ symmetric3 (ex_h y) /\ inverse3n (ex_g y) (ex_h y) /\ 0 < ex_s y /\ ex_s y ^ 2 = det3n (ex_g y)) /\
  (forall a b c, (a < 3)%nat -> (b < 3)%nat -> (c < 3)%nat -> is_derive (fun t => ex_g (shift x c t) a b) 0 (ex_dg x a b c)) /\
  (forall a b c, (a < 3)%nat -> (b < 3)%nat -> (c < 3)%nat -> is_derive (fun t => ex_s (shift x c t) * ex_h (shift x c t) a b) 0 (ex_rhs x a b c)).
Proof. exact ex_system. Qed.
