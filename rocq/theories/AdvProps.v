(** C89: transport of a tracer by a given wind on the sphere. *)
From Coq Require Import Reals ZArith Lra.
From Verif Require Import TopologyModel GeoModel SwModel.
From mathcomp Require Import all_ssreflect all_algebra.
From Verif Require Import RField SwRhs QuadModel OpModel SwSplitModel SwSplitSpec AdvModel AdvSpec AdvFinal RNum AdvExact.
Import GRing.Theory.
Delimit Scope R_scope with re.
Delimit Scope Z_scope with zz.
Local Open Scope ring_scope.

(** The total of the tracer over the sphere does not change: the integral of its tendency over all the tiles is zero, whatever the tracer and the wind, on 6 k^2 processes *)
Theorem C89_total : forall roots k N ns pts ws radius h u1 u2,
  (0 < k)%N -> (0 < N)%N -> (0 < ns <= 5)%N -> gauss_legendre roots ns = Some (pts, ws) -> radius <> 0%re ->
  global_integral_2d k N ns pts ws radius (fun r => by_element ns (advection k N ns pts radius (carried h u1 u2) r 0)) = 0%re.
Proof. exact (fun roots k N ns pts ws radius h u1 u2 => @tracer_mass roots k N ns pts ws radius (carried h u1 u2)). Qed.
Print Assumptions C89_total.
(** 24 processes, elements of 3 by 3 points, a wind that turns *)
Example C89_total_case : forall h radius, radius <> 0%re -> exists pts ws, gauss_legendre (fun _ => ([::], [::])) 3 = Some (pts, ws) /\
  global_integral_2d 2 4 3 pts ws radius (fun r => by_element 3 (advection 2 4 3 pts radius (carried h (fun r y x => INR x) (fun r y x => IZR r - INR y)%re) r 0)) = 0%re.
Proof. intros h radius Hr. eexists _, _. split; [reflexivity|]. by apply: (@C89_total (fun _ => ([::], [::]))). Qed.

(** The tendency is linear in the tracer: the tendency of a combination of two tracers carried by the same wind is the combination of their tendencies, at every point of every tile *)
Theorem C89_linear : forall k N ns pts radius a b h h' u1 u2 r y x,
  (0 < k)%N -> (0 <= r < 6 * Z.of_nat k * Z.of_nat k)%zz -> (y < N * ns)%N -> (x < N * ns)%N ->
  advection k N ns pts radius (carried (fun r y x => a * h r y x + b * h' r y x)%re u1 u2) r 0 y x
  = (a * advection k N ns pts radius (carried h u1 u2) r 0 y x + b * advection k N ns pts radius (carried h' u1 u2) r 0 y x)%re.
Proof. exact (fun k N ns pts radius a b h h' u1 u2 r y x Hk => @tracer_mixed k N ns pts radius a b h h' u1 u2 Hk r y x). Qed.
Print Assumptions C89_linear.
(** a tracer twice as large changes twice as fast; a point at the side of the last of 24 tiles *)
Example C89_linear_case : forall pts radius h u1 u2,
  advection 2 4 3 pts radius (carried (fun r y x => 2 * h r y x + 0 * h r y x)%re u1 u2) 23%zz 0 11 0 = (2 * advection 2 4 3 pts radius (carried h u1 u2) 23%zz 0 11 0)%re.
Proof. intros. rewrite C89_linear //. ring. Qed.

(** The tendency is minus the divergence of the flux of the tracer: in each direction, the derivative at the point of the polynomial that takes the values sqrt(g) h u at the points of the element and, at its two faces, the upwind flux of the values on the two sides. For every state whose wind across the faces of the element is the same on both sides, in the interior of a tile or at its sides *)
Theorem C89_upwind : forall k N pts radius h u1 u2 r row col j i (p1 p2 : {poly R_numFieldType}),
  let ns := seq.size pts in let y := (row * ns + j)%N in let x := (col * ns + i)%N in let Q := carried h u1 u2 in
  let vi := b_var_i k N ns pts None Q r in let vj := b_var_j k N ns pts None Q r in
  let G := b_G k N ns pts radius r in let Gi := b_G_i k N ns pts radius r in let Gj := b_G_j k N ns pts radius r in
  uniq (extension (pts : seq R_numFieldType)) -> (j < ns)%N -> (i < ns)%N -> (seq.size p1 <= ns.+2)%N -> (seq.size p2 <= ns.+2)%N ->
  (forall f, f = col \/ f = col.+1 -> vi 1%N f 1%N y = vi 1%N f.+1 0%N y) -> (forall f, f = row \/ f = row.+1 -> vj 2%N f 1%N x = vj 2%N f.+1 0%N x) ->
  (forall l, (l < ns)%N -> p1.[pts`_l] = (G y (col * ns + l)%N * h r y (col * ns + l)%N * u1 r y (col * ns + l)%N)%re) ->
  (forall l, (l < ns)%N -> p2.[pts`_l] = (G (row * ns + l)%N x * h r (row * ns + l)%N x * u2 r (row * ns + l)%N x)%re) ->
  p1.[-1] = upwind (Gi col y) (vi 1%N col 1%N y) (vi 0%N col 1%N y) (vi 0%N col.+1 0%N y) ->
  p1.[1] = upwind (Gi col.+1 y) (vi 1%N col.+1 1%N y) (vi 0%N col.+1 1%N y) (vi 0%N col.+2 0%N y) ->
  p2.[-1] = upwind (Gj row x) (vj 2%N row 1%N x) (vj 0%N row 1%N x) (vj 0%N row.+1 0%N x) ->
  p2.[1] = upwind (Gj row.+1 x) (vj 2%N row.+1 1%N x) (vj 0%N row.+1 1%N x) (vj 0%N row.+2 0%N x) ->
  advection k N ns pts radius Q r 0 y x = (G y x)^-1 * - (p1^`().[pts`_i] + p2^`().[pts`_j]).
Proof. exact (fun k N pts radius h u1 u2 => @tracer_exact k N pts radius (carried h u1 u2)). Qed.
Print Assumptions C89_upwind.
(** one point per element and a wind along x1: the differences of the first-order upwind scheme *)
Example C89_upwind_case : forall radius h r,
  advection 1 3 1 [:: 0%re] radius (carried h (fun _ _ _ => 1%re) (fun _ _ _ => 0%re)) r 0 1 1
  = (/ b_G 1 3 1 [:: 0%re] radius r 1 1 * - ((b_G_i 1 3 1 [:: 0%re] radius r 2 1 * h r 1%N 1%N - b_G_i 1 3 1 [:: 0%re] radius r 1 1 * h r 1%N 0%N) / 2))%re.
Proof. exact upwind_differences. Qed.
