(** Numerical fluxes at the interfaces of elements: wx_factory/rhs/rhs_sw.py, rhs/rhs_bubble.py, pde/fluxes.py, pde/interface.cpp, pde/kernels/*.hpp. Numbers are exact reals; the complex variants of the code (for complex-step derivatives) are not modelled. *)
From Coq Require Import Reals Arith List Bool.
Import ListNotations.
Open Scope R_scope.

(** common/definitions.py 5-12, pde/definitions.hpp 33-40 *)
Definition gravity : R := 980616 / 100000.
Definition p0 : R := 100000.
Definition Rd : R := 28705 / 100.
Definition cpd : R := 100546 / 100.
Definition cvd : R := cpd - Rd.
Definition heat_capacity_ratio : R := cpd / cvd.
Definition inp0 : R := 1 / p0.
Definition Rdinp0 : R := Rd * inp0.

(** ** numpy slices start:stop:step, with bounds that are not negative *)
Record slice := Slice { sl_start : nat; sl_stop : nat; sl_step : nat }.
Definition range (a b : nat) : slice := Slice a b 1.
Definition inside (s : slice) (i : nat) : bool := (sl_start s <=? i)%nat && (i <? sl_stop s)%nat && ((i - sl_start s) mod sl_step s =? 0)%nat.
Definition position (s : slice) (i : nat) : nat := ((i - sl_start s) / sl_step s)%nat.
Definition element_of (s : slice) (k : nat) : nat := (sl_start s + sl_step s * k)%nat.
(** values at the faces of elements: element, then point. The points of the low side (west, south, bottom) come first, then those of the high side *)
Definition face := nat -> nat -> R.
Definition get (s : slice * slice) (a : face) : face := fun i j => a (element_of (fst s) i) (element_of (snd s) j).
(** a[s] = v *)
Definition put (s : slice * slice) (v : face) (a : face) : face :=
  fun e p => if inside (fst s) e && inside (snd s) p then v (position (fst s) e) (position (snd s) p) else a e p.

(** ** Shallow water: rhs_sw.py 163-207, for one row (x1) or one column (x2) of n elements, the two of the halo included; m points per side. q: variable (h, hu1, hu2), element, point *)
Section ShallowWater.
Variables n m : nat.
(** 165-168 *)
Definition lo : slice * slice := (range 1 n, range 0 m).
Definition hi : slice * slice := (range 0 (n - 1), range m (2 * m)).
(** 170-188 *)
Definition sw_flux_x1_itf (q : nat -> face) (sqrtG H11 H21 : face) : nat -> face :=
  let a := fun e p => sqrt (gravity * q 0%nat e p * H11 e p) in
  let tmp := fun e p => q 0%nat e p * a e p in
  let mach := fun e p => if Req_EM_T (tmp e p) 0 then 0 else q 1%nat e p / tmp e p in
  let big_M := fun i j => 1 / 4 * ((get hi mach i j + 1) ^ 2 - (get lo mach i j - 1) ^ 2) in
  let zeros := fun (_ : nat) (_ _ : nat) => 0 in
  let advection := fun v => put hi (fun i j => get hi sqrtG i j * (Rmax 0 (big_M i j) * get hi a i j * get hi (q v) i j + Rmin 0 (big_M i j) * get lo a i j * get lo (q v) i j)) (zeros v) in
  let p11 := fun e p => sqrtG e p * (1 / 2 * gravity) * H11 e p * q 0%nat e p ^ 2 in
  let p21 := fun e p => sqrtG e p * (1 / 2 * gravity) * H21 e p * q 0%nat e p ^ 2 in
  let add := fun pr (f : face) => put hi (fun i j => get hi f i j + 1 / 2 * ((1 + get hi mach i j) * get hi pr i j + (1 - get lo mach i j) * get lo pr i j)) f in
  let pressure := fun v => match v with 1%nat => add p11 (advection 1%nat) | 2%nat => add p21 (advection 2%nat) | _ => advection v end in
  fun v => put lo (get hi (pressure v)) (pressure v).
(** 191-207. 193: only 0/0 is replaced by zero; for h = 0 with hu2 <> 0 the code gives infinite values, here zero *)
Definition sw_flux_x2_itf (q : nat -> face) (sqrtG H12 H22 : face) : nat -> face :=
  let a := fun e p => sqrt (gravity * q 0%nat e p * H22 e p) in
  let mach := fun e p => if Req_EM_T (q 0%nat e p * a e p) 0 then 0 else q 2%nat e p / (q 0%nat e p * a e p) in
  let big_M := fun i j => 1 / 4 * ((get hi mach i j + 1) ^ 2 - (get lo mach i j - 1) ^ 2) in
  let zeros := fun (_ : nat) (_ _ : nat) => 0 in
  let advection := fun v => put hi (fun i j => get hi sqrtG i j * (Rmax 0 (big_M i j) * get hi a i j * get hi (q v) i j + Rmin 0 (big_M i j) * get lo a i j * get lo (q v) i j)) (zeros v) in
  let p12 := fun e p => sqrtG e p * (1 / 2 * gravity) * H12 e p * q 0%nat e p ^ 2 in
  let p22 := fun e p => sqrtG e p * (1 / 2 * gravity) * H22 e p * q 0%nat e p ^ 2 in
  let add := fun pr (f : face) => put hi (fun i j => get hi f i j + 1 / 2 * ((1 + get hi mach i j) * get hi pr i j + (1 - get lo mach i j) * get lo pr i j)) f in
  let pressure := fun v => match v with 1%nat => add p12 (advection 1%nat) | 2%nat => add p22 (advection 2%nat) | _ => advection v end in
  fun v => put lo (get hi (pressure v)) (pressure v).
End ShallowWater.
(** 120-131: fluxes at the points of an element *)
Definition sw_flux_x1 (sqrtG H11 H21 h hu1 hu2 : R) (v : nat) : R :=
  let u1 := hu1 / h in
  match v with 0%nat => sqrtG * hu1 | 1%nat => sqrtG * (hu1 * u1 + 1 / 2 * gravity * H11 * h ^ 2) | _ => sqrtG * (hu2 * u1 + 1 / 2 * gravity * H21 * h ^ 2) end.
Definition sw_flux_x2 (sqrtG H12 H22 h hu1 hu2 : R) (v : nat) : R :=
  let u2 := hu2 / h in
  match v with 0%nat => sqrtG * hu2 | 1%nat => sqrtG * (hu1 * u2 + 1 / 2 * gravity * H12 * h ^ 2) | _ => sqrtG * (hu2 * u2 + 1 / 2 * gravity * H22 * h ^ 2) end.

(** ** Euler equations on a vertical plane, Python: rhs_bubble.py. Variables: rho, rho_u, rho_w, rho_theta *)
(** 50: exp and log; 68, 72: power *)
Definition pressure_points (rho_theta : R) : R := p0 * exp (cpd / cvd * ln (Rd / p0 * rho_theta)).
Definition pressure_faces (rho_theta : R) : R := p0 * Rpower (rho_theta * Rd / p0) (cpd / cvd).
(** 47-61 *)
Definition bubble_flux_x1 (rho rho_u rho_w rho_theta : R) (v : nat) : R :=
  let uu := rho_u / rho in let ww := rho_w / rho in
  match v with 0%nat => rho_u | 1%nat => rho_u * uu + pressure_points rho_theta | 2%nat => rho_u * ww | _ => rho_theta * uu end.
Definition bubble_flux_x3 (rho rho_u rho_w rho_theta : R) (v : nat) : R :=
  let uu := rho_u / rho in let ww := rho_w / rho in
  match v with 0%nat => rho_w | 1%nat => rho_w * uu | 2%nat => rho_w * ww + pressure_points rho_theta | _ => rho_theta * ww end.
Section Bubble.
(** elements per row, number of rows, points per side; element (i, j) is i * nx + j *)
Variables nx nz ns : nat.
Definition all_vars (f : nat -> face -> face) (a : nat -> face) : nat -> face := fun v => f v (a v).
Definition one_var (w : nat) (f : face -> face) (a : nat -> face) : nat -> face := fun v => if (v =? w)%nat then f (a v) else a v.
Definition zeros : face := fun _ _ => 0.
(** 72-107. [empty]: the uninitialised array of 77 *)
Definition bubble_common_flux_z (q : nat -> face) (empty : nat -> face) : nat -> face :=
  let N := (nx * nz)%nat in
  let pressure := fun e p => pressure_faces (q 3%nat e p) in
  let sound := fun e p => sqrt (heat_capacity_ratio * pressure e p / q 0%nat e p) in
  let mach := fun e p => q 2%nat e p / (q 0%nat e p * sound e p) in
  let bot := range 0 ns in let top := range ns (ns * 2) in
  let above := (range nx N, bot) in let below := (range 0 (N - nx), top) in
  let M := fun i j => 1 / 4 * ((get below mach i j + 1) ^ 2 - (get above mach i j - 1) ^ 2) in
  let f1 := all_vars (fun v => put above (fun i j => get below (q v) i j * Rmax 0 (M i j) * get below sound i j + get above (q v) i j * Rmin 0 (M i j) * get above sound i j)) empty in
  let f2 := one_var 2 (put above (fun i j => 1 / 2 * ((1 + get below mach i j) * get below pressure i j + (1 - get above mach i j) * get above pressure i j))) f1 in
  let f3 := all_vars (fun v => put below (get above (f2 v))) f2 in
  let ground := (range 0 nx, bot) in let lid := (range (N - nx) N, top) in
  let f4 := all_vars (fun _ => put ground zeros) f3 in
  let f5 := all_vars (fun _ => put lid zeros) f4 in
  let f6 := one_var 2 (put ground (get ground pressure)) f5 in
  one_var 2 (put lid (get lid pressure)) f6.
(** 68-70, 110-137 *)
Definition bubble_common_flux_x (q : nat -> face) (empty : nat -> face) : nat -> face :=
  let N := (nx * nz)%nat in
  let pressure := fun e p => pressure_faces (q 3%nat e p) in
  let sound := fun e p => sqrt (heat_capacity_ratio * pressure e p / q 0%nat e p) in
  let mach := fun e p => q 1%nat e p / (q 0%nat e p * sound e p) in
  let west := range 0 ns in let east := range ns (ns * 2) in
  let right := (range 1 N, west) in let left := (range 0 (N - 1), east) in
  let M := fun i j => 1 / 4 * ((get left mach i j + 1) ^ 2 - (get right mach i j - 1) ^ 2) in
  let f1 := all_vars (fun v => put right (fun i j => get left (q v) i j * Rmax 0 (M i j) * get left sound i j + get right (q v) i j * Rmin 0 (M i j) * get right sound i j)) empty in
  let f2 := one_var 1 (put right (fun i j => 1 / 2 * ((1 + get left mach i j) * get left pressure i j + (1 - get right mach i j) * get right pressure i j))) f1 in
  let f3 := all_vars (fun v => put left (get right (f2 v))) f2 in
  let first := (Slice 0 N nx, west) in let last := (Slice (nx - 1) N nx, east) in
  let f4 := all_vars (fun _ => put first zeros) f3 in
  let f5 := all_vars (fun _ => put last zeros) f4 in
  let f6 := one_var 1 (put first (get first pressure)) f5 in
  one_var 1 (put last (get last pressure)) f6.
End Bubble.

(** ** The same, compiled: pde/interface.cpp, pde/kernels. Memory is flat *)
Definition memory := nat -> R.
Definition store (m : memory) (a : nat) (x : R) : memory := fun b => if (b =? a)%nat then x else m b.
(** interface.hpp 153-156 *)
Definition get_c_index (i j k l : nat) (s1 s2 s3 : nat) : nat := (i * s1 * s2 * s3 + j * s2 * s3 + k * s3 + l)%nat.
(** euler_state_2d, interface.hpp 57-79: variable v of the state at index *)
Definition load (m : memory) (index stride : nat) (v : nat) : R := m (v * stride + index)%nat.
Definition store_state (m : memory) (index stride : nat) (x : nat -> R) : memory :=
  store (store (store (store m index (x 0%nat)) (stride + index) (x 1%nat)) (2 * stride + index) (x 2%nat)) (3 * stride + index) (x 3%nat).
(** kernels/pointwise_flux.hpp *)
Definition pointwise_kernel (q : nat -> R) (dir : bool) (v : nat) : R :=
  let rho := q 0%nat in let rho_u := q 1%nat in let rho_w := q 2%nat in let rho_theta := q 3%nat in
  let inv_rho := 1 / rho in let u := rho_u * inv_rho in let w := rho_w * inv_rho in
  let p := p0 * exp (heat_capacity_ratio * ln (Rdinp0 * rho_theta)) in
  if dir then match v with 0%nat => rho_w | 1%nat => rho_w * u | 2%nat => rho_w * w + p | _ => rho_theta * w end
  else match v with 0%nat => rho_u | 1%nat => rho_u * u + p | 2%nat => rho_u * w | _ => rho_theta * u end.
(** kernels/riemann_flux.hpp: dir false is 0 (horizontal), true is 1 (vertical) *)
Definition riemann_kernel (l r : nat -> R) (dir : bool) (v : nat) : R :=
  let rhol := l 0%nat in let rhor := r 0%nat in let rho_ul := l 1%nat in let rho_ur := r 1%nat in
  let rho_wl := l 2%nat in let rho_wr := r 2%nat in let rho_thetal := l 3%nat in let rho_thetar := r 3%nat in
  let inv_rhol := 1 / rhol in let ul := rho_ul * inv_rhol in let wl := rho_wl * inv_rhol in
  let inv_rhor := 1 / rhor in let ur := rho_ur * inv_rhor in let wr := rho_wr * inv_rhor in
  let pl := p0 * Rpower (rho_thetal * Rd * inp0) heat_capacity_ratio in
  let pr := p0 * Rpower (rho_thetar * Rd * inp0) heat_capacity_ratio in
  let al := sqrt (heat_capacity_ratio * pl * inv_rhol) in
  let ar := sqrt (heat_capacity_ratio * pr * inv_rhor) in
  let vnl := if dir then wl else ul in let vnr := if dir then wr else ur in
  let Ml := vnl / al + 1 in let Mr := vnr / ar - 1 in
  let M := 1 / 4 * (Ml * Ml - Mr * Mr) in
  let Mmax := Rmax 0 M * al in let Mmin := Rmin 0 M * ar in
  match v with
  | 0%nat => rhol * Mmax + rhor * Mmin
  | 1%nat => if dir then rho_ul * Mmax + rho_ur * Mmin else 1 / 2 * (Ml * pl - Mr * pr)
  | 2%nat => if dir then 1 / 2 * (Ml * pl - Mr * pr) else rho_wl * Mmax + rho_wr * Mmin
  | _ => rho_thetal * Mmax + rho_thetar * Mmin
  end.
(** kernels/boundary_flux.hpp *)
Definition boundary_kernel (q : nat -> R) (dir : bool) (v : nat) : R :=
  let p := p0 * Rpower (q 3%nat * Rd * inp0) heat_capacity_ratio in
  match v with 0%nat => 0 | 1%nat => if dir then 0 else p | 2%nat => if dir then p else 0 | _ => 0 end.
(** for (int k = 0; k < n; k++) *)
Fixpoint for_loop {S : Type} (n : nat) (body : nat -> S -> S) (s : S) : S := match n with O => s | Datatypes.S k => body k (for_loop k body s) end.
(** interface.cpp 12-48; the two output arrays *)
Definition pointwise_eulercartesian_2d (q : memory) (n1 n2 np : nat) (f : memory * memory) : memory * memory :=
  let stride := (n1 * n2 * np)%nat in
  for_loop n2 (fun i => for_loop n1 (fun j => for_loop np (fun k f =>
    let ind := get_c_index 0 i j k n2 n1 np in
    (store_state (fst f) ind stride (pointwise_kernel (load q ind stride) false), store_state (snd f) ind stride (pointwise_kernel (load q ind stride) true))))) f.
(** interface.cpp 131-239 *)
Definition riemann_pair (q : memory) (indl indr stride : nat) (dir : bool) (f : memory) : memory :=
  let x := riemann_kernel (load q indl stride) (load q indr stride) dir in store_state (store_state f indl stride x) indr stride x.
Definition riemann_eulercartesian_ausm_2d (q1 q2 : memory) (n1 n2 ns : nat) (f : memory * memory) : memory * memory :=
  let nr := (2 * ns)%nat in
  let stride := (n1 * n2 * nr)%nat in
  let index := fun i j k => get_c_index 0 i j k n2 n1 nr in
  let interior := for_loop n2 (fun i => for_loop n1 (fun j f =>
    let f' := if (j + 1 <? n1)%nat then (for_loop ns (fun k => riemann_pair q1 (index i j (ns + k)%nat) (index i (j + 1)%nat k) stride false) (fst f), snd f) else f in
    if (i + 1 <? n2)%nat then (fst f', for_loop ns (fun k => riemann_pair q2 (index i j (ns + k)%nat) (index (i + 1)%nat j k) stride true) (snd f')) else f')) f in
  let boundary := fun q ind dir (f : memory) => store_state f ind stride (boundary_kernel (load q ind stride) dir) in
  let horizontal := for_loop n2 (fun i => for_loop ns (fun j f =>
    boundary q1 (index i (n1 - 1)%nat (j + ns)%nat) false (boundary q1 (index i 0%nat j) false f))) (fst interior) in
  let vertical := for_loop n1 (fun i => for_loop ns (fun j f =>
    boundary q2 (index (n2 - 1)%nat i (j + ns)%nat) true (boundary q2 (index 0%nat i j) true f))) (snd interior) in
  (horizontal, vertical).

(** ** Finite volumes on a vertical plane: pde/fluxes.py 33-147. One line of n cells across the faces; side 0 is the low face, side 1 the high face. [d]: the variable of the normal momentum: rho_u (1) along x1, rho_w (2) along x3; the code has the two directions one after the other, with the same text *)
Section FiniteVolume.
Variables (n d : nat).
Definition left_of : slice * slice := (range 0 (n - 1), range 1 2).
Definition right_of : slice * slice := (range 1 n, range 0 1).
(** 33-77 *)
Definition ausm_2d_fv (var : nat -> face) (pres : face) (flux : nat -> face) : nat -> face :=
  let a_L := fun i j => sqrt (heat_capacity_ratio * get left_of pres i j / get left_of (var 0%nat) i j) in
  let M_L := fun i j => get left_of (var d) i j / (get left_of (var 0%nat) i j * a_L i j) in
  let a_R := fun i j => sqrt (heat_capacity_ratio * get right_of pres i j / get right_of (var 0%nat) i j) in
  let M_R := fun i j => get right_of (var d) i j / (get right_of (var 0%nat) i j * a_R i j) in
  let M := fun i j => 1 / 4 * ((M_L i j + 1) ^ 2 - (M_R i j - 1) ^ 2) in
  let f1 := all_vars (fun v => put right_of (fun i j => get left_of (var v) i j * Rmax 0 (M i j) * a_L i j + get right_of (var v) i j * Rmin 0 (M i j) * a_R i j)) flux in
  let f2 := one_var d (fun f => put right_of (fun i j => get right_of f i j + 1 / 2 * ((1 + M_L i j) * get left_of pres i j + (1 - M_R i j) * get right_of pres i j)) f) f1 in
  all_vars (fun v => put left_of (get right_of (f2 v))) f2.
(** 82-105 *)
Definition upwind_2d_fv (var : nat -> face) (flux : nat -> face) : nat -> face :=
  let f1 := all_vars (fun v => put right_of (fun i j => if Rlt_dec 0 (get left_of (var d) i j + get right_of (var d) i j) then get left_of (flux v) i j else get right_of (flux v) i j)) flux in
  all_vars (fun v => put left_of (get right_of (f1 v))) f1.
(** 108-147 *)
Definition rusanov_2d_fv (var : nat -> face) (pres : face) (flux : nat -> face) : nat -> face :=
  let eig_L := fun i j => Rabs (get left_of (var d) i j / get left_of (var 0%nat) i j) + sqrt (heat_capacity_ratio * get left_of pres i j / get left_of (var 0%nat) i j) in
  let eig_R := fun i j => Rabs (get right_of (var d) i j / get right_of (var 0%nat) i j) + sqrt (heat_capacity_ratio * get right_of pres i j / get right_of (var 0%nat) i j) in
  let f1 := all_vars (fun v => put right_of (fun i j => 1 / 2 * (get left_of (flux v) i j + get right_of (flux v) i j - Rmax (Rabs (eig_L i j)) (Rabs (eig_R i j)) * (get right_of (var v) i j - get left_of (var v) i j)))) flux in
  all_vars (fun v => put left_of (get right_of (f1 v))) f1.
End FiniteVolume.

(** ** Euler equations on the cubed sphere: rusanov_3d_hori_i_new (326-403), rusanov_3d_hori_j_new (507-582), rusanov_3d_vert_new (150-222) of pde/fluxes.py, for a line of n elements with m = num_solpts^2 points per side. Variables: rho, rho_u1, rho_u2, rho_w, rho_theta, then tracers. The three functions have the same text, with h_contra[d, .] for the direction d; vel: the velocity along d *)
Section Rusanov3D.
Variables (n m : nat) (d : nat) (advection_only : bool).
Variables (vel : face) (q : nat -> face) (pres : face) (sqrtG : face) (h_contra : nat -> nat -> face).
Definition eig_3d (s : slice * slice) : face := fun i j =>
  if advection_only then Rabs (get s vel i j)
  else Rabs (get s vel i j) + sqrt (get s (h_contra d d) i j * heat_capacity_ratio * get s pres i j / get s (q 0%nat) i j).
(** advective part, and the pressure of the three components of the momentum *)
Definition side_adv (s : slice * slice) (v : nat) : face := fun i j => get s sqrtG i j * get s vel i j * get s (q v) i j.
Definition side_pres (s : slice * slice) (c : nat) : face := fun i j => get s sqrtG i j * get s (h_contra d c) i j * get s pres i j.
Definition side_flux (s : slice * slice) (v : nat) : face := fun i j =>
  match v with
  | 1%nat => side_adv s 1 i j + side_pres s 0 i j
  | 2%nat => side_adv s 2 i j + side_pres s 1 i j
  | 3%nat => side_adv s 3 i j + side_pres s 2 i j
  | _ => side_adv s v i j
  end.
Definition rusanov_3d_new (flux : nat -> face) (wflux_adv wflux_pres : face) : (nat -> face) * face * face :=
  let low := hi n m in let high := lo n m in
  let eig := fun i j => Rmax (eig_3d low i j) (eig_3d high i j) in
  let f1 := all_vars (fun v => put low (fun i j => 1 / 2 * (side_flux low v i j + side_flux high v i j - eig i j * get low sqrtG i j * (get high (q v) i j - get low (q v) i j)))) flux in
  let f2 := all_vars (fun v => put high (get low (f1 v))) f1 in
  let a1 := put low (fun i j => 1 / 2 * (side_adv low 3 i j + side_adv high 3 i j - eig i j * get low sqrtG i j * (get high (q 3%nat) i j - get low (q 3%nat) i j))) wflux_adv in
  let a2 := put high (get low a1) a1 in
  let p1 := put low (fun i j => 1 / 2 * (side_pres low 2 i j + side_pres high 2 i j) / get low pres i j) wflux_pres in
  let p2 := put high (fun i j => 1 / 2 * (side_pres low 2 i j + side_pres high 2 i j) / get high pres i j) p1 in
  (f2, a2, p2).
End Rusanov3D.
(** pde_euler_cubesphere.py 72-124: fluxes at the points of an element along d, with the two parts of the flux of rho_w *)
Section Pointwise3D.
Variables (d : nat) (sqrtG : R) (h_contra : nat -> nat -> R) (q : nat -> R).
Definition velocity_3d : R := q (S d) / q 0%nat.
Definition pressure_3d : R := p0 * exp (cpd / cvd * ln (Rd / p0 * q 4%nat)).
Definition pointwise_3d (v : nat) : R :=
  let adv := sqrtG * velocity_3d * q v in
  match v with
  | 1%nat => adv + sqrtG * h_contra d 0%nat * pressure_3d
  | 2%nat => adv + sqrtG * h_contra d 1%nat * pressure_3d
  | 3%nat => adv + sqrtG * h_contra d 2%nat * pressure_3d
  | _ => adv
  end.
Definition wflux_adv_3d : R := sqrtG * velocity_3d * q 3%nat.
Definition wflux_pres_3d : R := sqrtG * h_contra d 2%nat.
End Pointwise3D.
(** pde_euler_cubesphere.py 148-156 and rhs_dfr.py 259-268, vertical direction: n elements of a column, the two beyond the ground and the lid included. q: values at the faces of the inner elements, in place from 1 to n - 2; the others hold ones from the allocation (rhs_dfr.py 240) or values of the previous call: [old] *)
Definition column_states (n m : nat) (q old : nat -> face) : nat -> face :=
  let low := range 0 m in let high := range m (2 * m) in
  let mid := fun v => put (range 1 (n - 1), range 0 (2 * m)) (fun i j => q v (S i) j) (old v) in
  let f1 := fun v => put (range 0 1, high) (get (range 1 2, low) (mid v)) (mid v) in
  let f2 := fun v => put (range 0 1, low) (get (range 0 1, high) (f1 v)) (f1 v) in
  let f3 := fun v => put (range (n - 1) n, low) (get (range (n - 2) (n - 1), high) (f2 v)) (f2 v) in
  fun v => put (range (n - 1) n, high) (get (range (n - 1) n, low) (f3 v)) (f3 v).
Definition column_velocity (n m : nat) (q : nat -> face) : face :=
  let low := range 0 m in let high := range m (2 * m) in
  let w := fun e p => q 3%nat e p / q 0%nat e p in
  let w1 := put (range 0 1, low) zeros w in
  let w2 := put (range 0 1, high) (fun i j => - get (range 1 2, low) w1 i j) w1 in
  let w3 := put (range (n - 1) n, high) zeros w2 in
  put (range (n - 1) n, low) (fun i j => - get (range (n - 2) (n - 1), high) w3 i j) w3.

(** ** Forcing of the Euler equations on the cubed sphere: kernels/forcing.hpp and compute_forcing_1 (pde_euler_cubesphere.py 12-27) *)
Definition compute_single_forcing (r u v w p h11 h12 h13 h22 h23 h33 c01 c02 c03 c11 c12 c13 c22 c23 c33 : R) : R :=
  2 * r * (c01 * u + c02 * v + c03 * w) + c11 * (r * u * u + h11 * p) + 2 * c12 * (r * u * v + h12 * p) + 2 * c13 * (r * u * w + h13 * p)
  + c22 * (r * v * v + h22 * p) + 2 * c23 * (r * v * w + h23 * p) + c33 * (r * w * w + h33 * p).
(** definitions.hpp 83-116 with the arguments of forcing.hpp 26-103: component a of the forcing, from flat arrays. h and christoffel: interface.hpp 34-47, 181-182 *)
Definition forcing_cpp (q pressure h christoffel : memory) (index stride : nat) (a : nat) : R :=
  let load9 := fun k => h (index + k * stride)%nat in
  let load27 := fun k => christoffel (index + k * stride)%nat in
  let rho := load q index stride 0 in
  let u := load q index stride 1 / rho in let v := load q index stride 2 / rho in let w := load q index stride 3 / rho in
  let p := pressure index in
  let '(c01, c02, c03, (c11, c12, c13), (c22, c23, c33)) := match a with
    | 0%nat => (0, 1, 2, (3, 4, 5), (6, 7, 8))%nat
    | 1%nat => (9, 10, 11, (12, 13, 14), (15, 16, 17))%nat
    | _ => (18, 19, 20, (21, 22, 23), (24, 25, 26))%nat end in
  compute_single_forcing rho u v w p (load9 0%nat) (load9 1%nat) (load9 2%nat) (load9 4%nat) (load9 5%nat) (load9 8%nat)
    (load27 c01) (load27 c02) (load27 c03) (load27 c11) (load27 c12) (load27 c13) (load27 c22) (load27 c23) (load27 c33).
(** pde_euler_cubesphere.py 208-276: metric.christoffel[a, k] and metric.h_contra_new[i, j] at one point *)
Definition forcing_py (q : nat -> R) (p : R) (h christoffel : nat -> nat -> R) (a : nat) : R :=
  let rho := q 0%nat in
  let c := christoffel a in
  compute_single_forcing rho (q 1%nat / rho) (q 2%nat / rho) (q 3%nat / rho) p (h 0 0)%nat (h 0 1)%nat (h 0 2)%nat (h 1 1)%nat (h 1 2)%nat (h 2 2)%nat
    (c 0%nat) (c 1%nat) (c 2%nat) (c 3%nat) (c 4%nat) (c 5%nat) (c 6%nat) (c 7%nat) (c 8%nat).
