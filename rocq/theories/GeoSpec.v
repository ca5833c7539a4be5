(** What the geometry has to satisfy: vectors of the three-dimensional space, derivatives, the sphere and the cube. *)
From Coq Require Import Reals.
From Coquelicot Require Import Coquelicot.
From Verif Require Import GeoModel.
Local Open Scope R_scope.

Definition vec := (R * R * R)%type.
Definition vx (a : vec) : R := fst (fst a).
Definition vy (a : vec) : R := snd (fst a).
Definition vz (a : vec) : R := snd a.
Definition vadd (a b : vec) : vec := (vx a + vx b, vy a + vy b, vz a + vz b).
Definition vscal (k : R) (a : vec) : vec := (k * vx a, k * vy a, k * vz a).
Definition vopp (a : vec) : vec := (- vx a, - vy a, - vz a).
Definition dot (a b : vec) : R := vx a * vx b + vy a * vy b + vz a * vz b.
Definition cross (a b : vec) : vec := (vy a * vz b - vz a * vy b, vz a * vx b - vx a * vz b, vx a * vy b - vy a * vx b).
(** The derivative of a curve *)
Definition is_derive3 (f : R -> vec) (t : R) (d : vec) : Prop :=
  is_derive (fun s => vx (f s)) t (vx d) /\ is_derive (fun s => vy (f s)) t (vy d) /\ is_derive (fun s => vz (f s)) t (vz d).

(** The place on the sphere of the reference coordinates (xi1, xi2) of an element with the centre (a1, a2) and the size (dx1, dx2), in radians *)
Definition place (o : rotation) (r a1 a2 dx1 dx2 xi1 xi2 : R) : vec := to_cartesian o r (tan (a1 + dx1 / 2 * xi1)) (tan (a2 + dx2 / 2 * xi2)).
(** No coordinate line through a point at infinity of the gnomonic plane; inside a panel the angles are at most pi/4 *)
Definition regular (x : R) : Prop := cos x <> 0.

(** d1 and d2 are the tangent vectors of the coordinate lines of [place] *)
Definition tangents (o : rotation) (r a1 a2 dx1 dx2 xi1 xi2 : R) (d1 d2 : vec) : Prop :=
  is_derive3 (fun s => place o r a1 a2 dx1 dx2 s xi2) xi1 d1 /\ is_derive3 (fun s => place o r a1 a2 dx1 dx2 xi1 s) xi2 d2.

Definition det2 (g : sym2) : R := s11 g * s22 g - s12 g ^ 2.
Definition inverse2 (g h : sym2) : Prop :=
  s11 g * s11 h + s12 g * s12 h = 1 /\ s11 g * s12 h + s12 g * s22 h = 0 /\ s12 g * s11 h + s22 g * s12 h = 0 /\ s12 g * s12 h + s22 g * s22 h = 1.
Definition positive2 (g : sym2) : Prop := forall a b, a <> 0 \/ b <> 0 -> 0 < s11 g * a ^ 2 + 2 * s12 g * a * b + s22 g * b ^ 2.

(** Christoffel symbols of a metric with the inverse h whose derivatives are: D1 along the first and D2 along the second coordinate *)
Definition levi_civita (h D1 D2 G1 G2 : sym2) : Prop :=
  let lower1_11 := s11 D1 / 2 in let lower1_12 := s11 D2 / 2 in let lower1_22 := s12 D2 - s22 D1 / 2 in
  let lower2_11 := s12 D1 - s11 D2 / 2 in let lower2_12 := s22 D1 / 2 in let lower2_22 := s22 D2 / 2 in
  s11 G1 = s11 h * lower1_11 + s12 h * lower2_11 /\ s12 G1 = s11 h * lower1_12 + s12 h * lower2_12 /\ s22 G1 = s11 h * lower1_22 + s12 h * lower2_22 /\
  s11 G2 = s12 h * lower1_11 + s22 h * lower2_11 /\ s12 G2 = s12 h * lower1_12 + s22 h * lower2_12 /\ s22 G2 = s12 h * lower1_22 + s22 h * lower2_22.
Definition is_derive_sym2 (f : R -> sym2) (t : R) (d : sym2) : Prop :=
  is_derive (fun s => s11 (f s)) t (s11 d) /\ is_derive (fun s => s12 (f s)) t (s12 d) /\ is_derive (fun s => s22 (f s)) t (s22 d).

(** The axis of rotation of the planet *)
Definition axis : vec := (0, 0, 1).
(** The eastward and the northward unit vector at a longitude and a latitude *)
Definition east (lon lat : R) : vec := (- sin lon, cos lon, 0).
Definition north (lon lat : R) : vec := (- sin lat * cos lon, - sin lat * sin lon, cos lat).

Definition inverse3 (g h : sym3) : Prop :=
  t11 g * t11 h + t12 g * t12 h + t13 g * t13 h = 1 /\ t11 g * t12 h + t12 g * t22 h + t13 g * t23 h = 0 /\ t11 g * t13 h + t12 g * t23 h + t13 g * t33 h = 0 /\
  t12 g * t11 h + t22 g * t12 h + t23 g * t13 h = 0 /\ t12 g * t12 h + t22 g * t22 h + t23 g * t23 h = 1 /\ t12 g * t13 h + t22 g * t23 h + t23 g * t33 h = 0 /\
  t13 g * t11 h + t23 g * t12 h + t33 g * t13 h = 0 /\ t13 g * t12 h + t23 g * t22 h + t33 g * t23 h = 0 /\ t13 g * t13 h + t23 g * t23 h + t33 g * t33 h = 1.
Definition det3 (g : sym3) : R :=
  t11 g * (t22 g * t33 g - t23 g ^ 2) - t12 g * (t12 g * t33 g - t23 g * t13 g) + t13 g * (t12 g * t23 g - t22 g * t13 g).

(** f has the integral [total] over [-1, 1] x [-1, 1] *)
Definition integral2 (f : R -> R -> R) (total : R) : Prop :=
  exists inner, (forall s, - 1 <= s <= 1 -> is_RInt (fun t => f s t) (- 1) 1 (inner s)) /\ is_RInt inner (- 1) 1 total.
(** f 0 + ... + f (n - 1) *)
Fixpoint sum_below (n : nat) (f : nat -> R) : R := match n with O => 0 | S m => sum_below m f + f m end.

(** ** The cube. [cube_point 1 p X Y] (TopologySpec) is the point of the cube in the panel p; the planet's cube is turned: its frame is a, b, c *)
Definition right_handed (a b c : vec) : Prop :=
  dot a a = 1 /\ dot b b = 1 /\ dot c c = 1 /\ dot a b = 0 /\ dot a c = 0 /\ dot b c = 0 /\ cross a b = c.
Definition turn (a b c q : vec) : vec := vadd (vscal (vx q) a) (vadd (vscal (vy q) b) (vscal (vz q) c)).
(** The centre of the panel p is not at a pole, or the grid is not turned off the poles at all (phi0 = alpha0 = 0) *)
Definition off_poles (p : nat) (phi0 alpha0 : R) : Prop :=
  match p with
  | 1%nat | 3%nat => (cos phi0 * sin alpha0) ^ 2 <> 1
  | 4%nat | 5%nat => (phi0 = 0 /\ alpha0 = 0) \/ ((cos phi0 * cos alpha0) ^ 2 <> 1 /\ (/ 10 ^ 13 <= Rabs phi0 \/ / 10 ^ 13 <= Rabs alpha0))
  | _ => True
  end.

(** ** Three dimensions (deep atmosphere): the place at the panel angles (x1, x2) and the vertical coordinate eta, where [H x1 x2 eta] is the distance to the centre *)
Definition place3 (o : rotation) (H : R -> R -> R -> R) (x1 x2 eta : R) : vec := to_cartesian o (H x1 x2 eta) (tan x1) (tan x2).
(** the partial derivatives of H *)
Definition partials3 (H : R -> R -> R -> R) (x1 x2 eta H1 H2 H3 : R) : Prop :=
  is_derive (fun s => H s x2 eta) x1 H1 /\ is_derive (fun s => H x1 s eta) x2 H2 /\ is_derive (fun s => H x1 x2 s) eta H3.
(** the tangent vectors of the coordinate lines *)
Definition tangents3 (o : rotation) (H : R -> R -> R -> R) (x1 x2 eta : R) (e1 e2 e3 : vec) : Prop :=
  is_derive3 (fun s => place3 o H s x2 eta) x1 e1 /\ is_derive3 (fun s => place3 o H x1 s eta) x2 e2 /\ is_derive3 (fun s => place3 o H x1 x2 s) eta e3.
(** the metric of these vectors, in the coordinates of an element of the size (dx, dy, deta) whose reference coordinates go from -1 to 1 *)
Definition gram3 (dx dy deta : R) (e1 e2 e3 : vec) : sym3 :=
  let f1 := vscal (dx / 2) e1 in let f2 := vscal (dy / 2) e2 in let f3 := vscal (deta / 2) e3 in
  {| t11 := dot f1 f1; t12 := dot f1 f2; t13 := dot f1 f3; t22 := dot f2 f2; t23 := dot f2 f3; t33 := dot f3 f3 |}.

(** ** Christoffel symbols in three dimensions; indices are 0, 1, 2 *)
Definition below3 (P : nat -> Prop) : Prop := P 0%nat /\ P 1%nat /\ P 2%nat.
Definition kron (a b : nat) : R := if Nat.eqb a b then 1 else 0.
Definition symmetric3 (g : nat -> nat -> R) : Prop := below3 (fun a => below3 (fun b => g a b = g b a)).
Definition inverse3n (g h : nat -> nat -> R) : Prop := below3 (fun a => below3 (fun b => g a 0%nat * h 0%nat b + g a 1%nat * h 1%nat b + g a 2%nat * h 2%nat b = kron a b)).
Definition det3n (g : nat -> nat -> R) : R :=
  g 0%nat 0%nat * (g 1%nat 1%nat * g 2%nat 2%nat - g 1%nat 2%nat * g 2%nat 1%nat) - g 0%nat 1%nat * (g 1%nat 0%nat * g 2%nat 2%nat - g 1%nat 2%nat * g 2%nat 0%nat)
  + g 0%nat 2%nat * (g 1%nat 0%nat * g 2%nat 1%nat - g 1%nat 1%nat * g 2%nat 0%nat).
(** dg a b c: derivative of g a b along the coordinate c *)
Definition levi_civita3 (h : nat -> nat -> R) (dg G : nat -> nat -> nat -> R) : Prop := below3 (fun a => below3 (fun b => below3 (fun c =>
  G a b c = 1 / 2 * (h a 0%nat * (dg 0%nat b c + dg 0%nat c b - dg b c 0%nat) + h a 1%nat * (dg 1%nat b c + dg 1%nat c b - dg b c 1%nat) + h a 2%nat * (dg 2%nat b c + dg 2%nat c b - dg b c 2%nat))))).
(** the point x moved by t along the coordinate c *)
Definition shift (x : vec) (c : nat) (t : R) : vec :=
  match c with 0%nat => (vx x + t, vy x, vz x) | 1%nat => (vx x, vy x + t, vz x) | _ => (vx x, vy x, vz x + t) end.
