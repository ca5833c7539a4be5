(** Which test cases can be started: the shapes, the calls and the names of wx_factory/init/initialize.py, dcmip.py and shallow_water_test.py. The values are in InitModel and AtmoModel; here an array is its shape and a
    function either returns or raises the exception that stops it first. *)
From Coq Require Import String List Arith Bool.
Import ListNotations.

Definition shape := list nat.
Inductive exn := ValueError | TypeError | NameError | AttributeError.
Inductive res (A : Type) := Ok (a : A) | Raise (e : exn).
Arguments Ok {A}. Arguments Raise {A}.
Definition bind {A B} (x : res A) (f : A -> res B) : res B := match x with Ok a => f a | Raise e => Raise e end.

(** numpy, external: broadcasting of two shapes, a product of stacked rows with a matrix, an assignment to all the entries of an array (numpy would also drop leading dimensions of length 1 of the value; no call here has one that matters) *)
Fixpoint bc (s t : shape) : res shape :=
  match s, t with
  | [], _ => Ok t
  | _, [] => Ok s
  | a :: s', b :: t' => bind (bc s' t') (fun r => if a =? b then Ok (a :: r) else if a =? 1 then Ok (b :: r) else if b =? 1 then Ok (a :: r) else Raise ValueError)
  end.
Definition broadcast (s t : shape) : res shape := bind (bc (rev s) (rev t)) (fun r => Ok (rev r)).
Definition matmul (s : shape) (rows columns : nat) : res shape :=
  match rev s with a :: r => if a =? rows then Ok (rev (columns :: r)) else Raise ValueError | [] => Raise ValueError end.
Definition assign (target value : shape) : res unit :=
  bind (broadcast value target) (fun s => if list_eq_dec Nat.eq_dec s target then Ok tt else Raise ValueError).
(** Python: a tuple unpacked to [k] names; a call with [given] positional arguments of a function with [required] parameters and no defaults; a name; a method *)
Definition unpack (k : nat) (s : shape) : res unit := if List.length s =? k then Ok tt else Raise ValueError.
Definition call (required given : nat) : res unit := if required =? given then Ok tt else Raise TypeError.
Definition name (scope : list string) (x : string) : res unit := if in_dec string_dec x scope then Ok tt else Raise NameError.
Definition method (class : list string) (x : string) : res unit := if in_dec string_dec x class then Ok tt else Raise AttributeError.

(** A grid: [n] elements in each horizontal direction, [nv] vertical ones, [ns] solution points *)
Record grid := { n : nat; nv : nat; ns : nat }.
(** cubed_sphere_2d.py 452-457: lon, lat; the interfaces (lon_itf_i, lon_itf_j) have a halo element on both sides *)
Definition lon_2d (g : grid) : shape := [n g; n g; ns g * ns g].
Definition itf_i_2d (g : grid) : shape := [n g; n g + 2; 2 * ns g].
Definition itf_j_2d (g : grid) : shape := [n g + 2; n g; 2 * ns g].
(** cubed_sphere_3d.py 718-719, 736-737: lon, lat; 535, 591: height; 187, 740-741: lon_new, lat_new, height_new, polar[i] *)
Definition lon_3d (g : grid) : shape := [n g * ns g; n g * ns g].
Definition height_3d (g : grid) : shape := [nv g * ns g; n g * ns g; n g * ns g].
Definition new_3d (g : grid) : shape := [nv g; n g; n g; ns g * ns g * ns g].
(** cartesian_2d_mesh.py 56-57 *)
Definition x1_plane (g : grid) : shape := [nv g; n g; ns g * ns g].

(** ** Shallow water: initialize.py 132-202. The shapes of u1, u2 and the height *)
(** geom.wind2contra, cubed_sphere_2d.py 583-631: the wind and the arrays of the grid *)
Definition wind_2d (g : grid) (u v : shape) : res shape := bind (broadcast u (lon_2d g)) (fun a => bind (broadcast v (lon_2d g)) (fun b => broadcast a b)).
(** winds.py 11-83 on this grid, wind2contra_2d: the arrays X_block, Y_block of the grid have the shape (n ns, n ns) *)
Definition wind_block (g : grid) (u v : shape) : res shape := bind (wind_2d g u v) (fun a => broadcast a (lon_3d g)).
Definition sw_case (g : grid) (case : nat) : res (shape * shape) :=
  let base := lon_2d g in
  match case with
  | 0 => (* circular_vortex, height_vortex: shallow_water_test.py 92 *)
         bind (unpack 2 base) (fun _ => bind (wind_block g base base) (fun w => Ok (w, base)))
  | 1 | 2 | 6 => (* williamson_case1, 2, 6: 29-39, 112-139, 149-161, 240-271 *)
         bind (wind_2d g base (if case =? 6 then base else [])) (fun w => Ok (w, base))
  | 5 => (* williamson_case5: 176-218 *)
         bind (wind_2d g base []) (fun w =>
         bind (matmul base (ns g * ns g) (ns g * ns g)) (fun d =>
         bind (matmul [n g; n g; 2 * ns g] (2 * ns g) (ns g * ns g)) (fun c =>
         bind (broadcast d c) (fun _ => Ok (w, base)))))
  | 8 => (* case_galewsky: 289 *) bind (unpack 2 base) (fun _ => bind (wind_block g base base) (fun w => Ok (w, base)))
  | 9 => (* case_matsuno: 362 *) bind (unpack 2 base) (fun _ => bind (wind_block g base base) (fun w => Ok (w, base)))
  | 10 => (* case_unsteady_zonal: the assignment of line 430, with lat_itf_i[:, itf], and the unpacking of line 440 *)
         bind (assign [n g * ns g] [n g; 2 * ns g]) (fun _ =>
         bind (unpack 2 base) (fun _ => bind (wind_block g base base) (fun w => Ok (w, base))))
  | _ => Raise ValueError
  end.
(** 187-196 *)
Definition start_sw (g : grid) (case : nat) : res shape :=
  bind (sw_case g case) (fun '(w, h) =>
  bind (assign (lon_2d g) h) (fun _ =>
  bind (if case <=? 1 then Ok w else broadcast h w) (fun q => bind (assign (lon_2d g) q) (fun _ => Ok (3 :: lon_2d g))))).

(** ** Euler: initialize.py 57-129. The shapes of rho, u1 and u2, w; [floors]: the two copies of the mountain agree (dcmip.py 616-617) *)
(** geom.wind2contra, geom.wind2contra_2d: cubed_sphere_3d.py 988-1110 *)
Definition wind_3d (g : grid) (u v w : shape) : res shape := bind (broadcast u (new_3d g)) (fun a => bind (broadcast v a) (fun b => broadcast w b)).
(** winds.py 11-83 on this grid: coslat and X_block are two dimensional, coordVec_gnom (deep atmosphere) is three dimensional *)
Definition wind_old (g : grid) (u : shape) : res shape := broadcast u (lon_3d g).
Definition apply_topography_parameters := 6.
Definition euler_case (g : grid) (floors : bool) (case : nat) : res (nat * shape * shape * shape) :=
  match case with
  | 11 => (* dcmip.py 49, 74-97, 190, 208 *) bind (broadcast (height_3d g) (lon_3d g)) (fun u => bind (wind_old g u) (fun c => Ok (9, height_3d g, c, u)))
  | 12 => (* dcmip.py 120, 137-164, 289, 307 *) bind (broadcast (height_3d g) (lon_3d g)) (fun u => bind (wind_old g u) (fun c => Ok (6, height_3d g, c, u)))
  | 20 => (* dcmip.py 482 *) bind (call apply_topography_parameters 3) (fun _ => bind (wind_old g []) (fun c => Ok (5, height_3d g, c, [])))
  | 21 | 22 => (* dcmip.py 616-620, 628-673 *)
      if floors then bind (call apply_topography_parameters 6) (fun _ => bind (wind_3d g (new_3d g) (new_3d g) (new_3d g)) (fun c => Ok (5, new_3d g, c, c))) else Raise ValueError
  | 31 => (* dcmip.py 796-857 *) bind (call apply_topography_parameters 6) (fun _ => bind (wind_3d g (new_3d g) (new_3d g) []) (fun c => Ok (5, new_3d g, c, new_3d g)))
  | 77 => (* dcmip.py 910-959 *) bind (wind_3d g [] [] []) (fun c => Ok (5, new_3d g, c, []))
  | _ => Raise ValueError
  end.
(** 114-127 *)
Definition start_euler (g : grid) (floors : bool) (case : nat) : res shape :=
  bind (euler_case g floors case) (fun '(k, rho, c, w) =>
  bind (broadcast rho c) (fun m => bind (assign rho m) (fun _ =>
  bind (broadcast rho w) (fun m => bind (assign rho m) (fun _ => Ok (k :: rho)))))).

(** ** The vertical plane: initialize.py 205-337 *)
(** the names that can be read at the line 237: the imports 1-45, the classes and functions of the module, the locals assigned in 208-235. The line 212, that would set nk and ni, is a comment *)
Definition plane_scope : list string :=
  ["numpy"; "NDArray"; "gravity"; "cpd"; "cvd"; "Rd"; "p0"; "Configuration"; "Cartesian2D"; "Topo"; "geom"; "param"; "num_equations"; "xp"; "Q"; "uu"; "ww"; "exner"; "theta"; "range"; "xc"; "zc"; "pert"; "A"; "a"; "s"; "x0"; "z0"; "xr"; "zr"]%string.
(** cartesian_2d_mesh.py 9-93, geometry.py 17-47 *)
Definition plane_methods : list string := ["__init__"; "to_single_block"]%string.
Definition plane_case (g : grid) (case : nat) : res shape :=
  match case with
  | 0 => (* 224 *) bind (method plane_methods "make_mountain"%string) (fun _ => Ok (x1_plane g))
  | 1 => (* 237 *) bind (name plane_scope "nk"%string) (fun _ => Ok (x1_plane g))
  | 2 => (* 251-253 *) broadcast (x1_plane g) (x1_plane g)
  | 3 => (* 275 *) bind (name plane_scope "nk"%string) (fun _ => Ok (x1_plane g))
  | 4 => (* 307, 313 *) bind (name plane_scope "nk"%string) (fun _ => bind (method plane_methods "make_mountain"%string) (fun _ => Ok (x1_plane g)))
  | _ => (* no branch is taken *) Ok (x1_plane g)
  end.
Definition start_plane (g : grid) (case : nat) : res shape :=
  bind (plane_case g case) (fun th => bind (broadcast th (x1_plane g)) (fun rho => bind (assign (x1_plane g) rho) (fun _ => Ok (4 :: x1_plane g)))).
