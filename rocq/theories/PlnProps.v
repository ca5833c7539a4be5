(** C90: the older right-hand sides of the Euler equations on a vertical plane. *)
From Coq Require Import Reals Lra.
From Verif Require Import FluxModel.
From mathcomp Require Import all_ssreflect all_algebra.
From Verif Require Import RField RNum OpModel OpSpec QuadModel SwSplitModel PlnModel PlnSpec PlnFinal PlnExact PlnVolumes PlnMean PlnCases.
Import GRing.Theory.
Delimit Scope R_scope with re.
Local Open Scope ring_scope.

(** rhs_bubble_implicit: mass is kept, and momentum changes only by the pressure on the walls and by weight, for every state *)
Theorem C90_implicit : forall roots nx nz ns pts ws dx1 dx3 Q,
  (0 < nx)%N -> (0 < nz)%N -> (0 < ns <= 5)%N -> gauss_legendre roots ns = Some (pts, ws) -> dx1 <> 0%re -> dx3 <> 0%re ->
  let rhs := rhs_bubble_implicit nx nz ns pts dx1 dx3 Q in let total := region_integral 0 nx nz ws dx1 dx3 in
  total (rhs 0%N) = 0%re /\
  total (rhs 1%N) = line_integral 0 nz ws dx3 (fun z => eos (face_var ns pts (line_x1 Q z) 3 0 0) - eos (face_var ns pts (line_x1 Q z) 3 nx.-1 1))%re /\
  total (rhs 2%N) = (line_integral 0 nx ws dx1 (fun x => eos (face_var ns pts (line_x3 Q x) 3 0 0) - eos (face_var ns pts (line_x3 Q x) 3 nz.-1 1)) - gravity * total (Q 0%N))%re.
Proof. exact implicit_balance. Qed.
Print Assumptions C90_implicit.
(** 5 by 4 elements of 3 by 3 points, any state *)
Example C90_implicit_case : forall Q, exists pts ws, gauss_legendre (fun _ => ([::], [::])) 3 = Some (pts, ws) /\ region_integral 0 5 4 ws 2%re 1%re (rhs_bubble_implicit 5 4 3 pts 2%re 1%re Q 0) = 0%re.
Proof. intro Q. eexists _, _. split; [reflexivity|]. refine (proj1 (@C90_implicit (fun _ => ([::], [::])) 5 4 3 _ _ _ _ Q _ _ _ _ _ _)); try reflexivity; lra. Qed.

(** rhs_bubble_implicit: the potential temperature rho_theta / rho of a point does not change: an explicit step of any length leaves it exactly as it is *)
Theorem C90_theta : forall nx nz ns pts dx1 dx3 Q z x (dt : R), let rhs := rhs_bubble_implicit nx nz ns pts dx1 dx3 Q in
  Q 0%N z x <> 0%re -> (Q 0%N z x + dt * rhs 0%N z x)%re <> 0%re -> ((Q 3%N z x + dt * rhs 3%N z x) / (Q 0%N z x + dt * rhs 0%N z x) = Q 3%N z x / Q 0%N z x)%re.
Proof. exact implicit_theta. Qed.
Print Assumptions C90_theta.

(** rhs_bubble_implicit: in an element away from the walls, where the states on the two sides of each face are equal, the tendency is minus the divergence of the acoustic flux (mass flux and pressure): the derivatives of the polynomials through the fluxes at the points and at the faces, and weight *)
Theorem C90_acoustic : forall nx nz pts dx1 dx3 Q row col j i v (p1 p3 : {poly R_numFieldType}),
  let ns := seq.size pts in let z := (row * ns + j)%N in let x := (col * ns + i)%N in
  let s1 e s w := face_var ns pts (line_x1 Q z) w e s in let s3 e s w := face_var ns pts (line_x3 Q x) w e s in
  uniq (extension (pts : seq R_numFieldType)) -> (j < ns)%N -> (i < ns)%N -> (0 < row)%N /\ (row.+1 < nz)%N -> (0 < col)%N /\ (col.+1 < nx)%N ->
  (seq.size p1 <= ns.+2)%N -> (seq.size p3 <= ns.+2)%N ->
  (forall w, (w < 4)%N -> s1 col.-1 1%N w = s1 col 0%N w /\ s1 col 1%N w = s1 col.+1 0%N w) -> (forall w, (w < 4)%N -> s3 row.-1 1%N w = s3 row 0%N w /\ s3 row 1%N w = s3 row.+1 0%N w) ->
  (v < 3)%N -> (forall w s, (w == 0%N) || (w == 3%N) -> (s < 2)%N -> (0 < s1 col s w /\ 0 < s3 row s w)%re) ->
  (forall l, (l < ns)%N -> p1.[pts`_l] = acoustic_flux 1 (fun w => Q w z (col * ns + l)%N) v) -> p1.[-1] = acoustic_flux 1 (s1 col 0%N) v -> p1.[1] = acoustic_flux 1 (s1 col 1%N) v ->
  (forall l, (l < ns)%N -> p3.[pts`_l] = acoustic_flux 2 (fun w => Q w (row * ns + l)%N x) v) -> p3.[-1] = acoustic_flux 2 (s3 row 0%N) v -> p3.[1] = acoustic_flux 2 (s3 row 1%N) v ->
  rhs_bubble_implicit nx nz ns pts dx1 dx3 Q v z x = (- (p1^`().[pts`_i] * 2 / dx1 + p3^`().[pts`_j] * 2 / dx3) - (if v == 2%N then gravity * Q 0%N z x else 0))%re.
Proof. exact implicit_exact. Qed.
Print Assumptions C90_acoustic.
(** a flow that spreads out, rho_u = x: the density decreases at the rate of the divergence, at every point of the middle element *)
Example C90_acoustic_case : forall roots pts ws dx1 dx3 z x, gauss_legendre roots 2 = Some (pts, ws) -> (2 <= z < 4)%N -> (2 <= x < 4)%N ->
  rhs_bubble_implicit 3 3 2 pts dx1 dx3 (spreading pts) 0 z x = (- (2 / dx1))%re.
Proof. intros roots pts ws dx1 dx3 z x E. exact (@spreading_implicit roots pts ws E dx1 dx3 z x). Qed.
(** a step that halves the density of that flow *)
Example C90_theta_case : forall roots pts ws z x, gauss_legendre roots 2 = Some (pts, ws) -> (2 <= z < 4)%N -> (2 <= x < 4)%N ->
  let rhs := rhs_bubble_implicit 3 3 2 pts 4%re 1%re (spreading pts) in (1 + 1 * rhs 0%N z x = 1 / 2)%re /\ ((1 + 1 * rhs 3%N z x) / (1 / 2) = 1)%re.
Proof.
  intros roots pts ws z x E Hz Hx rhs. assert (D : (1 + 1 * rhs 0%N z x = 1 / 2)%re) by (unfold rhs; rewrite (C90_acoustic_case _ _ _ _ _ _ _ E Hz Hx); lra).
  split; [exact D|]. rewrite -D. transitivity (1 / 1)%re; [|lra]. apply (@C90_theta 3 3 2 pts 4%re 1%re (spreading pts) z x 1%re); [unfold spreading; simpl; lra|]. change (1 + 1 * rhs 0%N z x <> 0)%re. rewrite D. lra.
Qed.

(** rhs_bubble_convective on a domain with walls: mass and potential temperature are kept, and momentum changes only by the pressure on the walls and by weight. Whatever numpy.empty returns *)
Theorem C90_convective : forall roots nx nz ns pts ws dx1 dx3 Q old1 old3 v,
  (0 < nx)%N -> (0 < nz)%N -> (0 < ns <= 5)%N -> gauss_legendre roots ns = Some (pts, ws) -> dx1 <> 0%re -> dx3 <> 0%re ->
  let total := region_integral 0 nx nz ws dx1 dx3 in
  total (rhs_bubble_convective nx nz ns pts dx1 dx3 Q false old1 old3 v)
  = ((if v == 1%N then line_integral 0 nz ws dx3 (fun z => eos (face_var ns pts (line_x1 Q z) 3 0 0) - eos (face_var ns pts (line_x1 Q z) 3 nx.-1 1)) else 0)
     + (if v == 2%N then line_integral 0 nx ws dx1 (fun x => eos (face_var ns pts (line_x3 Q x) 3 0 0) - eos (face_var ns pts (line_x3 Q x) 3 nz.-1 1)) - gravity * total (Q 0%N) else 0))%re.
Proof. exact convective_balance. Qed.
Print Assumptions C90_convective.
Example C90_convective_case : forall Q old1 old3, exists pts ws, gauss_legendre (fun _ => ([::], [::])) 3 = Some (pts, ws) /\ region_integral 0 5 4 ws 2%re 1%re (rhs_bubble_convective 5 4 3 pts 2%re 1%re Q false old1 old3 3) = 0%re.
Proof. intros Q old1 old3. eexists _, _. split; [reflexivity|]. rewrite (@C90_convective (fun _ => ([::], [::]))) //; try lra. simpl. ring. Qed.

(** rhs_bubble_convective, walls: away from them, where the states on the two sides of each face are equal, the tendency is minus the divergence of the flux of the Euler equations, and weight *)
Theorem C90_euler : forall nx nz pts dx1 dx3 Q row col j i v (p1 p3 : {poly R_numFieldType}),
  let ns := seq.size pts in let z := (row * ns + j)%N in let x := (col * ns + i)%N in
  let s1 e s w := face_var ns pts (line_x1 Q z) w e s in let s3 e s w := face_var ns pts (line_x3 Q x) w e s in
  uniq (extension (pts : seq R_numFieldType)) -> (j < ns)%N -> (i < ns)%N -> (0 < row)%N /\ (row.+1 < nz)%N -> (0 < col)%N /\ (col.+1 < nx)%N ->
  (seq.size p1 <= ns.+2)%N -> (seq.size p3 <= ns.+2)%N ->
  (forall w, (w < 4)%N -> s1 col.-1 1%N w = s1 col 0%N w /\ s1 col 1%N w = s1 col.+1 0%N w) -> (forall w, (w < 4)%N -> s3 row.-1 1%N w = s3 row 0%N w /\ s3 row 1%N w = s3 row.+1 0%N w) ->
  forall old1 old3, (v < 4)%N -> (forall l, (l < ns)%N -> Q 0%N z (col * ns + l)%N <> 0%re /\ Q 0%N (row * ns + l)%N x <> 0%re) ->
  (forall l, (l < ns)%N -> p1.[pts`_l] = euler_flux 1 (fun w => Q w z (col * ns + l)%N) v) -> p1.[-1] = euler_flux 1 (s1 col 0%N) v -> p1.[1] = euler_flux 1 (s1 col 1%N) v ->
  (forall l, (l < ns)%N -> p3.[pts`_l] = euler_flux 2 (fun w => Q w (row * ns + l)%N x) v) -> p3.[-1] = euler_flux 2 (s3 row 0%N) v -> p3.[1] = euler_flux 2 (s3 row 1%N) v ->
  rhs_bubble_convective nx nz ns pts dx1 dx3 Q false old1 old3 v z x = (- (p1^`().[pts`_i] * 2 / dx1 + p3^`().[pts`_j] * 2 / dx3) - (if v == 2%N then gravity * Q 0%N z x else 0))%re.
Proof. exact convective_exact. Qed.
Print Assumptions C90_euler.
(** the same flow; rho_theta is carried away like rho *)
Example C90_euler_case : forall roots pts ws dx1 dx3 z x old1 old3, gauss_legendre roots 2 = Some (pts, ws) -> (2 <= z < 4)%N -> (2 <= x < 4)%N ->
  rhs_bubble_convective 3 3 2 pts dx1 dx3 (spreading pts) false old1 old3 3 z x = (- (2 / dx1))%re.
Proof. intros roots pts ws dx1 dx3 z x old1 old3 E. exact (@spreading_convective roots pts ws E dx1 dx3 z x old1 old3). Qed.

(** rhs_bubble_convective between walls, for every state and in every element: the tendency is minus the divergence of the flux, that is the derivatives of the polynomials through the Euler fluxes at the points and, at the faces, the mean of the Euler fluxes of the two sides, pressure only on the walls *)
Theorem C90_mean : forall nx nz pts dx1 dx3 Q row col j i v (p1 p3 : {poly R_numFieldType}) old1 old3, let ns := seq.size pts in let z := (row * ns + j)%N in let x := (col * ns + i)%N in
  let s1 e s w := face_var ns pts (line_x1 Q z) w e s in let s3 e s w := face_var ns pts (line_x3 Q x) w e s in
  uniq (extension (pts : seq R_numFieldType)) -> (j < ns)%N -> (i < ns)%N -> (row < nz)%N -> (col < nx)%N ->
  (seq.size p1 <= ns.+2)%N -> (seq.size p3 <= ns.+2)%N -> (forall l, (l < ns)%N -> Q 0%N z (col * ns + l)%N <> 0%re /\ Q 0%N (row * ns + l)%N x <> 0%re) ->
  (forall l, (l < ns)%N -> p1.[pts`_l] = euler_flux 1 (fun w => Q w z (col * ns + l)%N) v) -> p1.[-1] = central_flux nx 1 s1 col v -> p1.[1] = central_flux nx 1 s1 col.+1 v ->
  (forall l, (l < ns)%N -> p3.[pts`_l] = euler_flux 2 (fun w => Q w (row * ns + l)%N x) v) -> p3.[-1] = central_flux nz 2 s3 row v -> p3.[1] = central_flux nz 2 s3 row.+1 v ->
  rhs_bubble_convective nx nz ns pts dx1 dx3 Q false old1 old3 v z x = (- (p1^`().[pts`_i] * 2 / dx1 + p3^`().[pts`_j] * 2 / dx3) - (if v == 2%N then gravity * Q 0%N z x else 0))%re.
Proof. exact convective_mean. Qed.
Print Assumptions C90_mean.
(** two elements of one point between walls, at rest in the first one: mass leaves it *)
Example C90_mean_case : forall dx1 dx3 old1 old3, rhs_bubble_convective 2 1 1 [:: 0%re] dx1 dx3 wave_state false old1 old3 0 0 0 = (- (1 / 4 * 2 / dx1))%re.
Proof. exact mean_case. Qed.

(** rhs_bubble_convective on a domain periodic along x1: the columns of elements 1, ..., nx - 1 form a ring that keeps its mass, its potential temperature and its momentum along x1; a first column that holds a copy of the last one keeps it *)
Theorem C90_periodic : forall roots nx nz ns pts ws dx1 dx3 Q old1 old3,
  (1 < nx)%N -> (0 < nz)%N -> (0 < ns <= 5)%N -> gauss_legendre roots ns = Some (pts, ws) -> dx1 <> 0%re -> dx3 <> 0%re ->
  let rhs := rhs_bubble_convective nx nz ns pts dx1 dx3 Q true old1 old3 in let total := region_integral 1 nx.-1 nz ws dx1 dx3 in
  (forall v, total (rhs v) = (if v == 2%N then line_integral 1 nx.-1 ws dx1 (fun x => eos (face_var ns pts (line_x3 Q x) 3 0 0) - eos (face_var ns pts (line_x3 Q x) 3 nz.-1 1)) - gravity * total (Q 0%N) else 0)%re) /\
  ((forall v z i, (i < ns)%N -> Q v z i = Q v z (nx.-1 * ns + i)%N) -> forall v z i, (i < ns)%N -> (z < nz * ns)%N -> rhs v z i = rhs v z (nx.-1 * ns + i)%N).
Proof. exact periodic_balance. Qed.
Print Assumptions C90_periodic.
Example C90_periodic_case : forall Q old1 old3, exists pts ws, gauss_legendre (fun _ => ([::], [::])) 3 = Some (pts, ws) /\ region_integral 1 4 4 ws 2%re 1%re (rhs_bubble_convective 5 4 3 pts 2%re 1%re Q true old1 old3 1) = 0%re.
Proof. intros Q old1 old3. eexists _, _. split; [reflexivity|]. refine (proj1 (@C90_periodic (fun _ => ([::], [::])) 5 4 3 _ _ _ _ Q old1 old3 _ _ _ _ _ _) 1%N); try reflexivity; lra. Qed.

(** over the whole domain, the first column included as the grid and the initial states have it, mass is not kept: four elements in a row, density one, and momentum in the second element only *)
Theorem C90_periodic_refuted : ~ (forall roots nx nz ns pts ws dx1 dx3 Q old1 old3,
  (1 < nx)%N -> (0 < nz)%N -> (0 < ns <= 5)%N -> gauss_legendre roots ns = Some (pts, ws) -> (0 < dx1)%re -> (0 < dx3)%re -> (forall z x, (0 < Q 0%N z x /\ 0 < Q 3%N z x)%re) ->
  region_integral 0 nx nz ws dx1 dx3 (rhs_bubble_convective nx nz ns pts dx1 dx3 Q true old1 old3 0) = 0%re).
Proof. exact periodic_loses. Qed.
Print Assumptions C90_periodic_refuted.

(** rhs_bubble_fv with each of the three fluxes: mass and potential temperature are kept, momentum changes only by the pressure on the walls and by weight *)
Theorem C90_volumes : forall c nx nz dx1 dx3 Q v, (0 < nx)%N -> (0 < nz)%N -> dx1 <> 0%re -> dx3 <> 0%re ->
  let cells (f : nat -> nat -> R) : R := \sum_(z < nz) \sum_(x < nx) (dx1 * dx3 * f z x)%re in
  cells (rhs_bubble_fv nx nz dx1 dx3 Q c v)
  = ((if v == 1%N then (\sum_(z < nz) (dx3 * (eos (Q 3%N z 0%N) - eos (Q 3%N z nx.-1)))%re)%R else 0)
     + (if v == 2%N then (\sum_(x < nx) (dx1 * (eos (Q 3%N 0%N x) - eos (Q 3%N nz.-1 x)))%re)%R - gravity * cells (Q 0%N) else 0))%re.
Proof. exact volumes_balance. Qed.
Print Assumptions C90_volumes.
Example C90_volumes_case : forall Q, (\sum_(z < 3) \sum_(x < 7) (2 * 1 * rhs_bubble_fv 7 3 2%re 1%re Q Ausm 3 z x)%re)%R = 0%re.
Proof. intro Q. rewrite (@C90_volumes Ausm 7 3 2%re 1%re Q 3) //; try lra. simpl. ring. Qed.

(** rhs_bubble_fv: a cell away from the walls with the state of its four neighbours changes only by its weight *)
Theorem C90_volumes_uniform : forall c nx nz dx1 dx3 Q v z x, (v < 4)%N -> (0 < x)%N -> (x.+1 < nx)%N -> (0 < z)%N -> (z.+1 < nz)%N -> (0 < Q 0%N z x)%re ->
  (forall w, (w < 4)%N -> Q w z x.-1 = Q w z x /\ Q w z x.+1 = Q w z x /\ Q w z.-1 x = Q w z x /\ Q w z.+1 x = Q w z x) ->
  rhs_bubble_fv nx nz dx1 dx3 Q c v z x = (if v == 2%N then - (gravity * Q 0%N z x) else 0)%re.
Proof. exact volumes_uniform. Qed.
Print Assumptions C90_volumes_uniform.
(** a uniform flow *)
Example C90_volumes_uniform_case : forall c z x, (0 < x < 6)%N -> (0 < z < 2)%N -> rhs_bubble_fv 7 3 2%re 1%re (fun v _ _ => INR v.+1) c 3 z x = 0%re.
Proof. intros c z x Hx Hz. move/andP: Hx => [? ?]. move/andP: Hz => [? ?]. rewrite C90_volumes_uniform //. simpl. lra. Qed.
