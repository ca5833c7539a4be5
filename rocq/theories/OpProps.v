(** C43-C45 and C58-C60: polynomial operators of an element. *)
From mathcomp Require Import all_ssreflect all_fingroup all_algebra.
From Verif Require Import OpModel OpSpec OpReduce OpLagrange OpLegendre OpDfr OpFilter OpTensor OpFinal.
Set Implicit Arguments.
Unset Strict Implicit.
Unset Printing Implicit Defensive.
Import GRing.Theory Num.Theory.
Local Open Scope ring_scope.

(** ** C43: row reduction and inversion *)
(** the result is reduced and row-equivalent to the input *)
Theorem C43_row_reduce (F : fieldType) (m n ncols : nat) (A : 'M[F]_(m, n)) : (ncols <= n)%N ->
  reduced_echelon ncols (row_reduce A ncols) /\ exists2 P : 'M[F]_m, P \in unitmx & row_reduce A ncols = P *m A.
Proof. exact (fun H => conj (row_reduce_ok A H) (row_reduce_mul A ncols)). Qed.
Print Assumptions C43_row_reduce.
Theorem C43_inverse (F : fieldType) (n : nat) (A B : 'M[F]_n) : inv A = Some B -> A *m B = 1%:M /\ B *m A = 1%:M.
Proof. exact (@inv_correct F n A B). Qed.
Print Assumptions C43_inverse.
(** the error is raised exactly for singular matrices *)
Theorem C43_singular (F : fieldType) (n : nat) (A : 'M[F]_n) : inv A = None <-> \det A = 0.
Proof. exact (@inv_fails F n A). Qed.
Print Assumptions C43_singular.
(** a matrix whose rows have to be exchanged *)
Example C43_example : exists B, inv (2%:M *m tperm_mx 0 1 : 'M[rat]_3) = Some B.
Proof. apply: inv_unit. by rewrite unitmx_mul unitmx_perm andbT unitmxE det_scalar unitfE. Qed.
Example C43_example_singular : inv (0 : 'M[rat]_2) = None.
Proof. apply/inv_fails. by rewrite det0. Qed.

(** ** C44: Lagrange interpolation and differentiation *)
Theorem C44_interpolation (F : fieldType) (xi : seq F) (x : F) (p : {poly F}) : uniq xi -> (size p <= size xi)%N -> \sum_(i < size xi) (lagrange_eval xi x)`_i * p.[xi`_i] = p.[x].
Proof. exact (@lagrange_eval_exact F xi x p). Qed.
Print Assumptions C44_interpolation.
Theorem C44_sum (F : fieldType) (xi : seq F) (x : F) : uniq xi -> xi <> [::] -> \sum_(i < size xi) (lagrange_eval xi x)`_i = 1.
Proof. exact (@lagrange_eval_one F xi x). Qed.
Print Assumptions C44_sum.
Theorem C44_derivative (F : fieldType) (xi : seq F) (p : {poly F}) (j : nat) : uniq xi -> (size p <= size xi)%N -> \sum_(i < size xi) diffmat xi j i * p.[xi`_i] = (p^`()).[xi`_j].
Proof. exact (@diffmat_exact F xi p j). Qed.
Print Assumptions C44_derivative.
Example C44_example : \sum_(i < 3) (lagrange_eval [:: -1; 0; 1 : rat] 3%:Q)`_i * ('X^2).[[:: -1; 0; 1 : rat]`_i] = 9%:Q.
Proof. by rewrite (@C44_interpolation _ [:: -1; 0; 1 : rat] 3%:Q 'X^2) ?size_polyXn // !hornerE. Qed.

(** ** C45: linear weights *)
Theorem C45_linear (F : realFieldType) (points w : seq F) (x a b : F) : sorted <%R points -> (2 <= size points)%N -> get_linear_weights points x = Some w ->
  size w = size points /\ \sum_(k < size points) w`_k * (a * points`_k + b) = a * x + b.
Proof. exact (@weights_linear F points x w a b). Qed.
Print Assumptions C45_linear.
Theorem C45_sum (F : realFieldType) (points w : seq F) (x : F) : sorted <%R points -> (2 <= size points)%N -> get_linear_weights points x = Some w -> \sum_(k < size points) w`_k = 1.
Proof. exact (@weights_sum F points x w). Qed.
Print Assumptions C45_sum.
(** only two neighbours contribute, with weights that are not negative between the first and the last point *)
Theorem C45_two (F : realFieldType) (points w : seq F) (x : F) : (2 <= size points)%N -> get_linear_weights points x = Some w ->
  exists2 ix, (ix.+1 < size points)%N & forall k, k != ix -> k != ix.+1 -> w`_k = 0.
Proof. exact (@weights_two F points x w). Qed.
Print Assumptions C45_two.
Theorem C45_convex (F : realFieldType) (points w : seq F) (x : F) : sorted <%R points -> (2 <= size points)%N -> points`_0 <= x <= points`_(size points).-1 -> get_linear_weights points x = Some w -> forall k, 0 <= w`_k.
Proof. exact (@weights_nonneg F points x w). Qed.
Print Assumptions C45_convex.
Theorem C45_one_point (F : realFieldType) (a x : F) : get_linear_weights [:: a] x = Some [:: 1].
Proof. exact (weights_one a x). Qed.
Print Assumptions C45_one_point.
Theorem C45_error (F : realFieldType) (points : seq F) (x : F) : get_linear_weights points x = None <-> points = [::].
Proof. exact (weights_error points x). Qed.
Print Assumptions C45_error.
Example C45_example : get_linear_weights [:: 0; 1; 3%:Q] 2%:Q = Some [:: 0; 1 / 2%:Q; 1 / 2%:Q].
Proof. by []. Qed.

(** ** C58: extrapolation, derivative and correction of an element *)
(** the values at any point, in particular at the two ends, are those of the polynomial through the solution points *)
Theorem C58_extrapolation (F : numFieldType) (pts : seq F) (x : F) (p : {poly F}) : uniq pts -> (size p <= size pts)%N -> \sum_(i < size pts) extrap pts x 0 i * p.[pts`_i] = p.[x].
Proof. exact (@extrap_exact F pts x p). Qed.
Print Assumptions C58_extrapolation.
(** the derivative of the polynomial through the solution points and any two values at the ends *)
Theorem C58_correction (F : fieldType) (pts : seq F) (p : {poly F}) (i : nat) : uniq (extension pts) -> (size p <= (size pts).+2)%N -> (i < size pts)%N ->
  \sum_(j < size pts) diff_solpt pts i j * p.[pts`_j] + correction_neg pts i * p.[-1] + correction_pos pts i * p.[1] = (p^`()).[pts`_i].
Proof. exact (@dfr_derivative F pts p i). Qed.
Print Assumptions C58_correction.
(** three dimensions: value (k, j, i) of an element is at (k ns + j) ns + i; the operators work along one axis, and the values of a face are stored side by side *)
Theorem C58_extrap_x (F : fieldType) (ns : nat) (neg pos f : nat -> F) (k j : nat) : (k < ns)%N -> (j < ns)%N ->
  apply_op (ns ^ 3) f (extrap_x_3d ns neg pos) (k * ns + j) = \sum_(i < ns) f ((k * ns + j) * ns + i)%N * neg i /\
  apply_op (ns ^ 3) f (extrap_x_3d ns neg pos) (ns ^ 2 + (k * ns + j)) = \sum_(i < ns) f ((k * ns + j) * ns + i)%N * pos i.
Proof. exact (@extrap_x_3d_ok F ns neg pos f k j). Qed.
Print Assumptions C58_extrap_x.
Theorem C58_extrap_y (F : fieldType) (ns : nat) (neg pos f : nat -> F) (k i : nat) : (k < ns)%N -> (i < ns)%N ->
  apply_op (ns ^ 3) f (extrap_y_3d ns neg pos) (k * ns + i) = \sum_(j < ns) f ((k * ns + j) * ns + i)%N * neg j /\
  apply_op (ns ^ 3) f (extrap_y_3d ns neg pos) (ns ^ 2 + (k * ns + i)) = \sum_(j < ns) f ((k * ns + j) * ns + i)%N * pos j.
Proof. exact (@extrap_y_3d_ok F ns neg pos f k i). Qed.
Print Assumptions C58_extrap_y.
Theorem C58_extrap_z (F : fieldType) (ns : nat) (neg pos f : nat -> F) (j i : nat) : (j < ns)%N -> (i < ns)%N ->
  apply_op (ns ^ 3) f (extrap_z_3d ns neg pos) (j * ns + i) = \sum_(k < ns) f ((k * ns + j) * ns + i)%N * neg k /\
  apply_op (ns ^ 3) f (extrap_z_3d ns neg pos) (ns ^ 2 + (j * ns + i)) = \sum_(k < ns) f ((k * ns + j) * ns + i)%N * pos k.
Proof. exact (@extrap_z_3d_ok F ns neg pos f j i). Qed.
Print Assumptions C58_extrap_z.
(** a field that is a polynomial along every line of an axis: derivative plus correction by the extrapolated values is the derivative of the polynomial *)
Theorem C58_derivative_x (F : numFieldType) (pts : seq F) (f : nat -> F) (p : nat -> nat -> {poly F}) : uniq (extension pts) -> let ns := size pts in
  (forall k j i, (k < ns)%N -> (j < ns)%N -> (i < ns)%N -> f ((k * ns + j) * ns + i)%N = (p k j).[pts`_i]) -> (forall k j, (size (p k j) <= ns)%N) ->
  forall k j i, (k < ns)%N -> (j < ns)%N -> (i < ns)%N ->
  apply_op (ns ^ 3) f (derivative_x_3d ns (diff_solpt pts)) ((k * ns + j) * ns + i) +
  apply_op (ns ^ 2 + ns ^ 2) (apply_op (ns ^ 3) f (extrap_x_3d ns (extrap_neg pts) (extrap_pos pts))) (correction_WE_3d ns (correction_neg pts) (correction_pos pts)) ((k * ns + j) * ns + i) = ((p k j)^`()).[pts`_i].
Proof. exact (fun U => @full_x_3d F pts U f p). Qed.
Print Assumptions C58_derivative_x.
Theorem C58_derivative_y (F : numFieldType) (pts : seq F) (f : nat -> F) (p : nat -> nat -> {poly F}) : uniq (extension pts) -> let ns := size pts in
  (forall k j i, (k < ns)%N -> (j < ns)%N -> (i < ns)%N -> f ((k * ns + j) * ns + i)%N = (p k i).[pts`_j]) -> (forall k i, (size (p k i) <= ns)%N) ->
  forall k j i, (k < ns)%N -> (j < ns)%N -> (i < ns)%N ->
  apply_op (ns ^ 3) f (derivative_y_3d ns (diff_solpt pts)) ((k * ns + j) * ns + i) +
  apply_op (ns ^ 2 + ns ^ 2) (apply_op (ns ^ 3) f (extrap_y_3d ns (extrap_neg pts) (extrap_pos pts))) (correction_SN_3d ns (correction_neg pts) (correction_pos pts)) ((k * ns + j) * ns + i) = ((p k i)^`()).[pts`_j].
Proof. exact (fun U => @full_y_3d F pts U f p). Qed.
Print Assumptions C58_derivative_y.
Theorem C58_derivative_z (F : numFieldType) (pts : seq F) (f : nat -> F) (p : nat -> nat -> {poly F}) : uniq (extension pts) -> let ns := size pts in
  (forall k j i, (k < ns)%N -> (j < ns)%N -> (i < ns)%N -> f ((k * ns + j) * ns + i)%N = (p j i).[pts`_k]) -> (forall j i, (size (p j i) <= ns)%N) ->
  forall k j i, (k < ns)%N -> (j < ns)%N -> (i < ns)%N ->
  apply_op (ns ^ 3) f (derivative_z_3d ns (diff_solpt pts)) ((k * ns + j) * ns + i) +
  apply_op (ns ^ 2 + ns ^ 2) (apply_op (ns ^ 3) f (extrap_z_3d ns (extrap_neg pts) (extrap_pos pts))) (correction_DU_3d ns (correction_neg pts) (correction_pos pts)) ((k * ns + j) * ns + i) = ((p j i)^`()).[pts`_k].
Proof. exact (fun U => @full_z_3d F pts U f p). Qed.
Print Assumptions C58_derivative_z.
(** two dimensions *)
Theorem C58_extrap_2d (F : fieldType) (ns : nat) (neg pos f : nat -> F) (l : nat) : (l < ns)%N ->
  [/\ apply_op (ns * ns) f (extrap_x_2d ns neg pos) l = \sum_(i < ns) f (l * ns + i)%N * neg i,
      apply_op (ns * ns) f (extrap_x_2d ns neg pos) (ns + l) = \sum_(i < ns) f (l * ns + i)%N * pos i,
      apply_op (ns * ns) f (extrap_y_2d ns neg pos) l = \sum_(j < ns) f (j * ns + l)%N * neg j
    & apply_op (ns * ns) f (extrap_y_2d ns neg pos) (ns + l) = \sum_(j < ns) f (j * ns + l)%N * pos j].
Proof. exact (@extrap_2d_ok F ns neg pos f l). Qed.
Print Assumptions C58_extrap_2d.
Theorem C58_derivative_x_2d (F : numFieldType) (pts : seq F) (f : nat -> F) (p : nat -> {poly F}) : uniq (extension pts) -> let ns := size pts in
  (forall j i, (j < ns)%N -> (i < ns)%N -> f (j * ns + i)%N = (p j).[pts`_i]) -> (forall j, (size (p j) <= ns)%N) -> forall j i, (j < ns)%N -> (i < ns)%N ->
  apply_op (ns * ns) f (derivative_x_2d ns (diff_solpt pts)) (j * ns + i) +
  apply_op (ns + ns) (apply_op (ns * ns) f (extrap_x_2d ns (extrap_neg pts) (extrap_pos pts))) (correction_WE_2d ns (correction_neg pts) (correction_pos pts)) (j * ns + i) = ((p j)^`()).[pts`_i].
Proof. exact (fun U => @full_x_2d F pts U f p). Qed.
Print Assumptions C58_derivative_x_2d.
Theorem C58_derivative_y_2d (F : numFieldType) (pts : seq F) (f : nat -> F) (p : nat -> {poly F}) : uniq (extension pts) -> let ns := size pts in
  (forall j i, (j < ns)%N -> (i < ns)%N -> f (j * ns + i)%N = (p i).[pts`_j]) -> (forall i, (size (p i) <= ns)%N) -> forall j i, (j < ns)%N -> (i < ns)%N ->
  apply_op (ns * ns) f (derivative_y_2d ns (diff_solpt pts)) (j * ns + i) +
  apply_op (ns + ns) (apply_op (ns * ns) f (extrap_y_2d ns (extrap_neg pts) (extrap_pos pts))) (correction_SN_2d ns (correction_neg pts) (correction_pos pts)) (j * ns + i) = ((p i)^`()).[pts`_j].
Proof. exact (fun U => @full_y_2d F pts U f p). Qed.
Print Assumptions C58_derivative_y_2d.
(** points as the theorems ask for them *)
Example C58_points : uniq (extension [:: - (1 / 2%:Q); 0; 1 / 2%:Q]) /\ mirrored [:: - (1 / 2%:Q); 0; 1 / 2%:Q].
Proof. split=> //. by do 3 (case=> //). Qed.
Example C58_example : \sum_(i < 2) extrap [:: - (1 / 2%:Q); 1 / 2%:Q] 1 0 i * ('X).[[:: - (1 / 2%:Q); 1 / 2%:Q]`_i] = 1.
Proof. by rewrite (@C58_extrapolation _ [:: - (1 / 2%:Q); 1 / 2%:Q] 1 'X) ?hornerX ?size_polyX. Qed.

(** ** C59: filters and changes of order *)
(** a filter multiplies each mode by its factor; polynomials whose modes have the factor one are kept *)
Theorem C59_modes (F : numFieldType) (pts : seq F) (sigma : nat -> F) (k : nat) : uniq pts -> (k < size pts)%N ->
  modal_filter pts sigma *m values pts (legendre F k) = sigma k *: values pts (legendre F k).
Proof. exact (@modal_mode F pts sigma k). Qed.
Print Assumptions C59_modes.
Theorem C59_low_degree (F : numFieldType) (pts : seq F) (sigma : nat -> F) (n : nat) (p : {poly F}) : uniq pts -> (n <= size pts)%N -> (forall k, (k < n)%N -> sigma k = 1) -> (size p <= n)%N ->
  modal_filter pts sigma *m values pts p = values pts p.
Proof. exact (@modal_keeps F pts sigma n p). Qed.
Print Assumptions C59_low_degree.
(** the factors of the two exponential filters: one up to the cutoff, exp (- alpha) for the highest mode *)
Theorem C59_factors (F : realFieldType) (expo : F -> F) (alpha : F) (N Nc s : nat) : expo 0 = 1 -> (0 < s)%N -> (Nc < N)%N ->
  (forall i, (i <= Nc)%N -> sigma_exponential expo alpha N Nc s i = 1) /\ sigma_exponential expo alpha N Nc s N = expo (- alpha).
Proof. exact (@sigma_exponential_ok F expo alpha N Nc s). Qed.
Print Assumptions C59_factors.
Theorem C59_factors_3d (F : realFieldType) (expo : F -> F) (alpha cutoff : F) (order n : nat) : (2 <= n)%N -> cutoff < 1 ->
  (forall k, k%:R <= cutoff * (n - 1)%:R -> sigma_make_filter expo alpha cutoff order n k = 1) /\ sigma_make_filter expo alpha cutoff order n (n - 1) = expo (- alpha).
Proof. exact (@sigma_make_ok F expo alpha cutoff order n). Qed.
Print Assumptions C59_factors_3d.
(** the filter of the whole element multiplies a product of modes by the product of their factors *)
Theorem C59_filter_3d (F : numFieldType) (pts : seq F) (sigma : nat -> F) (f : nat -> F) (a b d : nat) : uniq pts -> let ns := size pts in (a < ns)%N -> (b < ns)%N -> (d < ns)%N ->
  (forall k j i, (k < ns)%N -> (j < ns)%N -> (i < ns)%N -> f ((k * ns + j) * ns + i)%N = (legendre F a).[pts`_k] * (legendre F b).[pts`_j] * (legendre F d).[pts`_i]) ->
  forall k j i, (k < ns)%N -> (j < ns)%N -> (i < ns)%N -> apply_op (ns ^ 3) f (expfilter_new ns (entries (modal_filter pts sigma))) ((k * ns + j) * ns + i) = sigma a * sigma b * sigma d * f ((k * ns + j) * ns + i)%N.
Proof. exact (@filter_modes F pts sigma f a b d). Qed.
Print Assumptions C59_filter_3d.
(** the vertical filter of the gravity term keeps polynomials of lower degree and removes the highest mode *)
Theorem C59_high_filter (F : numFieldType) (pts : seq F) (p : {poly F}) : uniq pts ->
  ((size p <= (size pts).-1)%N -> highfilter pts *m values pts p = values pts p) /\ highfilter pts *m values pts (legendre F (size pts).-1) = 0.
Proof. exact (@highfilter_both F pts p). Qed.
Print Assumptions C59_high_filter.
Theorem C59_high_filter_3d (F : numFieldType) (pts : seq F) (f : nat -> F) (p : nat -> nat -> {poly F}) : uniq pts -> let ns := size pts in
  (forall k j i, (k < ns)%N -> (j < ns)%N -> (i < ns)%N -> f ((k * ns + j) * ns + i)%N = (p j i).[pts`_k]) -> (forall j i, (size (p j i) <= ns.-1)%N) ->
  forall k j i, (k < ns)%N -> (j < ns)%N -> (i < ns)%N -> apply_op (ns ^ 3) f (highfilter_k ns (entries (highfilter pts))) ((k * ns + j) * ns + i) = f ((k * ns + j) * ns + i)%N.
Proof. exact (@highfilter_line F pts f p). Qed.
Print Assumptions C59_high_filter_3d.
Theorem C59_high_filter_3d_top (F : numFieldType) (pts : seq F) (f : nat -> F) (c : nat -> nat -> F) : uniq pts -> let ns := size pts in
  (forall k j i, (k < ns)%N -> (j < ns)%N -> (i < ns)%N -> f ((k * ns + j) * ns + i)%N = c j i * (legendre F ns.-1).[pts`_k]) ->
  forall k j i, (k < ns)%N -> (j < ns)%N -> (i < ns)%N -> apply_op (ns ^ 3) f (highfilter_k ns (entries (highfilter pts))) ((k * ns + j) * ns + i) = 0.
Proof. exact (@highfilter_line_top F pts f c). Qed.
Print Assumptions C59_high_filter_3d_top.
(** from one order to another: polynomials below the highest common mode are kept, this mode is halved, higher ones are dropped *)
Theorem C59_remesh_partial (F : numFieldType) (src target : seq F) (p : {poly F}) : uniq src -> (size p <= (minn (size src) (size target)).-1)%N ->
  remesh_operator src target *m values src p = values target p.
Proof. exact (@remesh_keeps F src target p). Qed.
Print Assumptions C59_remesh_partial.
Theorem C59_remesh_half (F : numFieldType) (src target : seq F) : uniq src -> (0 < size src)%N -> (0 < size target)%N ->
  let m := (minn (size src) (size target)).-1 in remesh_operator src target *m values src (legendre F m) = 2%:R^-1 *: values target (legendre F m).
Proof. exact (@remesh_halves F src target). Qed.
Print Assumptions C59_remesh_half.
Theorem C59_remesh_drop (F : numFieldType) (src target : seq F) (k : nat) : uniq src -> (size target <= k < size src)%N -> remesh_operator src target *m values src (legendre F k) = 0.
Proof. exact (@remesh_drops F src target k). Qed.
Print Assumptions C59_remesh_drop.
(** with order one on either side every constant field is halved *)
Theorem C59_remesh_constant_refuted (F : numFieldType) (src target : seq F) : uniq src -> (0 < size src)%N -> (0 < size target)%N -> (size src == 1%N) || (size target == 1%N) ->
  remesh_operator src target *m values src 1 = 2%:R^-1 *: values target 1 /\ remesh_operator src target *m values src 1 <> values target 1.
Proof. exact (@remesh_constant F src target). Qed.
Print Assumptions C59_remesh_constant_refuted.
Example C59_example : remesh_operator [:: -1; 0; 1 : rat] [:: 0; 1; 2%:Q; 3%:Q] *m values [:: -1; 0; 1] 'X = values [:: 0; 1; 2%:Q; 3%:Q] 'X.
Proof. apply: C59_remesh_partial; by rewrite ?size_polyX. Qed.

(** ** C60: the check of the differentiation matrix *)
(** the check accepts exactly the skew-centrosymmetric matrices *)
Theorem C60_check (F : numFieldType) (n : nat) (A : nat -> nat -> F) :
  check_skewcentrosymmetry n A = true <-> (forall i j, (i < n)%N -> (j < n)%N -> A (n - i - 1)%N (n - j - 1)%N = - A i j).
Proof. exact (@check_ok F n A (two_ne F)). Qed.
Print Assumptions C60_check.
(** and it never rejects the matrix of points that are symmetric, with or without filter *)
Theorem C60_passes (F : numFieldType) (pts : seq F) : uniq (extension pts) -> mirrored pts -> check_skewcentrosymmetry (size (extension pts)) (diff_ext pts) = true.
Proof. exact (@check_diffmat F pts). Qed.
Print Assumptions C60_passes.
Theorem C60_passes_filtered (F : numFieldType) (pts : seq F) (sigma : nat -> F) : uniq (extension pts) -> mirrored pts ->
  check_skewcentrosymmetry (size (extension pts)) (entries (diff_filtered (extension pts) sigma)) = true.
Proof. exact (@check_filtered F pts sigma). Qed.
Print Assumptions C60_passes_filtered.
Example C60_example : check_skewcentrosymmetry 3 (fun i j => (i + j)%N%:R : rat) = false.
Proof. by []. Qed.
