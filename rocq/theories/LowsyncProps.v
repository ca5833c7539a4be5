(** C82: the solvers for phi functions with fewer synchronisations *)
From Coq Require Import Reals ZArith List Arith Lra Lia.
From Coquelicot Require Import Coquelicot.
From Verif Require Import InnerSpec FgmresModel KiopsModel PmexSpec PmexModel KiopsLinear LowsyncModel LowsyncSpec LowsyncProofs LowsyncFacts LowsyncFiles LowsyncPairs LowsyncCases LowsyncGs LowsyncMain.
Import ListNotations.
Local Open Scope R_scope.

(** Whatever the operator, the number of processes P, the sizes of the passes and the arrays left by the substeps before: a substep that ends without breakdown has the Arnoldi decomposition of the augmented operator of the largest size, in the product of the file *)
Theorem C82_basis_partial : forall (X : ModuleSpace R_Ring) (dot : X -> X -> R) A u p ex P f t mmax ms S x now K h, scalar_product dot -> linear_map A -> (1 <= p)%nat -> (1 <= P)%nat -> (f = pmex_1s \/ f = cwy_1s -> P = 1%nat) ->
  0 < t -> unit_lower (at_ S) -> strictly_upper (an S) -> ms <> [] -> growing mmax 0 ms -> build dot A u p ex P f t mmax ms S x now = Some (K, h, false) ->
  h = largest ms /\ decomposition (loop_product dot p P f) (augmented_product A u p ex) (start_row p ex x now) h (ab K) (av K) (ah K).
Proof. exact basis_main. Qed.
Print Assumptions C82_basis_partial.
(** Its arrays reproduce the polynomials of the operator of degree up to the size *)
Theorem C82_polynomials : forall (X : ModuleSpace R_Ring) (dot : X -> X -> R) A u p ex P f t mmax ms S x now K h, scalar_product dot -> linear_map A -> (1 <= p)%nat -> (1 <= P)%nat -> (f = pmex_1s \/ f = cwy_1s -> P = 1%nat) ->
  0 < t -> unit_lower (at_ S) -> strictly_upper (an S) -> ms <> [] -> growing mmax 0 ms -> build dot A u p ex P f t mmax ms S x now = Some (K, h, false) ->
  forall d, (1 <= d <= h + 1)%nat -> reproduces (augmented_product A u p ex) (start_row p ex x now) d (ab K) d (ah K) d (av K).
Proof. exact polynomials_main. Qed.
Print Assumptions C82_polynomials.
(** A breakdown at size h: the decomposition of size h - 1, and a next vector below the tolerance. In the files with lagged norms the subdiagonal entry of the step before (at the first step the norm of the start) is below it *)
Theorem C82_breakdown : forall (X : ModuleSpace R_Ring) (dot : X -> X -> R) A u p ex P f t mmax ms S x now K h, scalar_product dot -> linear_map A -> (1 <= p)%nat -> (1 <= P)%nat -> (f = pmex_1s \/ f = cwy_1s -> P = 1%nat) ->
  0 < t -> unit_lower (at_ S) -> strictly_upper (an S) -> ms <> [] -> growing mmax 0 ms -> build dot A u p ex P f t mmax ms S x now = Some (K, h, true) ->
  (1 <= h <= largest ms)%nat /\ decomposition (loop_product dot p P f) (augmented_product A u p ex) (start_row p ex x now) (h - 1) (ab K) (av K) (ah K) /\
  (if match f with pmex_1s | icwy_1s | cwy_1s => true | _ => false end
   then (if Nat.eqb h 1 then ab K else ah K (h - 1)%nat (h - 2)%nat) < t \/ 1 < t
   else exists c r, augmented_product A u p ex (av K (h - 1)%nat) = plus (vec_sum h (fun i => scal (V := row) (c i) (av K i))) r /\ sqrt (loop_product dot p P f r r) < t).
Proof. exact breakdown_main. Qed.
Print Assumptions C82_breakdown.
(** A substep fails only in the files with lagged norms, and only if a Krylov space of at most the largest size is invariant *)
Theorem C82_failure : forall (X : ModuleSpace R_Ring) (dot : X -> X -> R) A u p ex P f t mmax ms S x now, scalar_product dot -> linear_map A -> (1 <= p)%nat -> (1 <= P)%nat -> (f = pmex_1s \/ f = cwy_1s -> P = 1%nat) ->
  0 < t -> unit_lower (at_ S) -> strictly_upper (an S) -> ms <> [] -> growing mmax 0 ms -> build dot A u p ex P f t mmax ms S x now = None ->
  f <> pmex /\ f <> icwy_ne /\ f <> cwy_ne /\ exists h b V H r, (1 <= h <= largest ms)%nat /\
    decomposition (loop_product dot p P f) (augmented_product A u p ex) (start_row p ex x now) (h - 1) b V H /\ remainder (loop_product dot p P f) (augmented_product A u p ex) h V H r /\ loop_product dot p P f r r = 0.
Proof. exact failure_main. Qed.
Print Assumptions C82_failure.
(** The matrices start with the shapes assumed above and keep them *)
Theorem C82_shapes : forall (X : ModuleSpace R_Ring) (dot : X -> X -> R) A u p ex P f t mmax ms S x now K h b, (unit_lower (at_ (@fresh (@row X))) /\ strictly_upper (an (@fresh (@row X)))) /\
  (unit_lower (at_ S) -> strictly_upper (an S) -> build dot A u p ex P f t mmax ms S x now = Some (K, h, b) -> unit_lower (at_ K) /\ strictly_upper (an K)).
Proof. exact shapes_main. Qed.
Print Assumptions C82_shapes.
(** The sizes of the passes of a substep grow as assumed, with both controls *)
Theorem C82_sizes : (forall a ps0 ps s, good a -> run a ps0 (start a) = Some s -> tau_now s < tau_end a -> j s = 0%Z -> growing (Z.to_nat (mmax a)) 0 (map Z.to_nat (sizes a ps s))) /\
  (forall a delta ps0 ps s, 1 <= delta -> good a -> p_run a delta ps0 (start a) = Some s -> tau_now s < tau_end a -> j s = 0%Z -> growing (Z.to_nat (mmax a)) 0 (map Z.to_nat (p_sizes a delta ps s))).
Proof. exact (conj sizes_ok p_sizes_ok). Qed.
Print Assumptions C82_sizes.
(** All files give the same numbers with one process; so do pmex, icwy_ne and cwy_ne with any number of processes *)
Theorem C82_same : forall (X : ModuleSpace R_Ring) (dot : X -> X -> R) A u p ex P f P' f' t t' mmax mmax' ms ms' S S' x now K K' h h', scalar_product dot -> linear_map A -> (1 <= p)%nat ->
  P = 1%nat \/ ((1 <= P)%nat /\ (f = pmex \/ f = icwy_ne \/ f = cwy_ne)) -> P' = 1%nat \/ ((1 <= P')%nat /\ (f' = pmex \/ f' = icwy_ne \/ f' = cwy_ne)) ->
  0 < t -> 0 < t' -> unit_lower (at_ S) -> strictly_upper (an S) -> unit_lower (at_ S') -> strictly_upper (an S') -> ms <> [] -> ms' <> [] -> growing mmax 0 ms -> growing mmax' 0 ms' -> largest ms = largest ms' ->
  build dot A u p ex P f t mmax ms S x now = Some (K, h, false) -> build dot A u p ex P' f' t' mmax' ms' S' x now = Some (K', h', false) ->
  h = h' /\ ab K = ab K' /\ (forall i, (i <= h)%nat -> av K i = av K' i) /\ (forall i k, (i <= h)%nat -> (k < h)%nat -> ah K i k = ah K' i k).
Proof. exact same_main. Qed.
Print Assumptions C82_same.
(** [build] with pmex is the basis of the model of the default solver *)
Theorem C82_default : forall (X : ModuleSpace R_Ring) (dot : X -> X -> R) A u p ex P t mmax ms S x now, (1 <= p)%nat -> growing mmax 0 ms -> exists K h b, build dot A u p ex P pmex t mmax ms S x now = Some (K, h, b) /\
  orths dot A u p ex t (largest ms) (first_row dot p ex (Kry (av S) (ah S) (an S) (ai S) (ab S)) x now) 0 = (Kry (av K) (ah K) (an K) (ai K) (ab K), h, b).
Proof. intros X dot A u p ex P t mmax ms S x now Hp. exact (build_pmex dot A u p Hp ex P t mmax ms S x now). Qed.
Print Assumptions C82_default.
(** The files with incomplete orthogonalisation: icwy_neiop with any number of processes, and kiops_nest with one, build the basis of kiops with iop = 2 (after a breakdown without the last column) *)
Theorem C82_incomplete_partial : forall (X : ModuleSpace R_Ring) (dot : X -> X -> R) A u p ex t m S x now, scalar_product dot -> (1 <= p)%nat -> 0 < t ->
  let K := Basis (pv S) (fun _ _ => 0) 0 in
  (exists S1 K1 h b, pairs_loop (step_neiop (augmented_product A u p ex) (once dot p) t) m (pairs_begin (once dot p) S (start_row p ex x now)) 0 = (S1, h, b) /\
     k_orths dot A u p ex 2 t m (k_first dot p ex K x now) 0 = (K1, h, b) /\ pv S1 = bv K1 /\ pb S1 = bb K1 /\ forall i k, b = false \/ (k <> h - 1)%nat -> ph S1 i k = bh K1 i k) /\
  (exists S1 K1 h b, pairs_loop (step_nest (augmented_product A u p ex) (each dot p 1) (once dot p) t) m (pairs_begin (once dot p) S (start_row p ex x now)) 0 = (S1, h, b) /\
     k_orths dot A u p ex 2 t m (k_first dot p ex K x now) 0 = (K1, h, b) /\ pv S1 = bv K1 /\ ph S1 = bh K1 /\ pb S1 = bb K1).
Proof. exact incomplete_main. Qed.
Print Assumptions C82_incomplete_partial.
(** Basis vectors V that are not orthogonal, as after rounding. The cwy files take off what the modified Gram-Schmidt process takes off; what is left is orthogonal to the last vector *)
Theorem C82_compact : forall (W : ModuleSpace R_Ring) (lp : W -> W -> R) (V : nat -> W) j N I, (forall x y, lp x y = lp y x) -> (forall x y z, lp (plus x y) z = lp x z + lp y z) -> (forall a x z, lp (scal (V := W) a x) z = a * lp x z) ->
  let left := reduce V j (coefficients Compact (rows_of lp V Compact j) N I j (fun i => lp (V i) (V j))) in left = swept lp V (V j) j /\ ((0 < j)%nat -> lp (V (j - 1)%nat) (V (j - 1)%nat) = 1 -> lp (V (j - 1)%nat) left = 0).
Proof. exact compact_main. Qed.
Print Assumptions C82_compact.
(** The icwy files do so up to products of two of the small numbers V_i . V_q *)
Theorem C82_inverse : forall (W : ModuleSpace R_Ring) (lp : W -> W -> R) (V : nat -> W) w j N I i, (forall x y, lp x y = lp y x) -> (forall x y z, lp (plus x y) z = lp x z + lp y z) -> (forall a x z, lp (scal (V := W) a x) z = a * lp x z) -> (i < j)%nat ->
  coefficients Inverse_compact (rows_of lp V Inverse_compact j) N I j (fun i => lp (V i) w) i = sweep lp V w i - rsum i (fun q => lp (V i) (V q) * rsum q (fun r => lp (V q) (V r) * sweep lp V w r)).
Proof. exact inverse_main. Qed.
Print Assumptions C82_inverse.
(** The pmex files, the default among them, do not: their lower triangular system is solved as an upper triangular one. What is left has a product with the last vector of the size of those small numbers, *)
Theorem C82_triangular : forall (W : ModuleSpace R_Ring) (lp : W -> W -> R) (V : nat -> W) j T, (forall x y, lp x y = lp y x) -> (forall x y z, lp (plus x y) z = lp x z + lp y z) -> (forall a x z, lp (scal (V := W) a x) z = a * lp x z) -> lp (V j) (V j) = 1 ->
  let a := coefficients Gauss_Seidel T (cols_of lp V (j + 1)) (rows_of lp V Gauss_Seidel (j + 1)) (j + 1) (fun i => lp (V i) (V (j + 1)%nat)) in
  lp (V j) (reduce V (j + 1) a) = - rsum j (fun i => lp (V j) (V i) * a i) /\ forall i, (i <= j)%nat -> a i = lp (V i) (V (j + 1)%nat) - rsum (j + 1) (fun r => if Nat.ltb i r then lp (V i) (V r) * sweep lp V (V (j + 1)%nat) r else 0).
Proof. exact triangular_main. Qed.
Print Assumptions C82_triangular.
(** for instance - e where the compact form leaves 0 *)
Theorem C82_triangular_refuted : forall e, e ^ 2 <= 1 -> let V := nearly e in pdot (V 0%nat) (V 0%nat) = 1 /\ pdot (V 1%nat) (V 1%nat) = 1 /\ pdot (V 1%nat) (V 0%nat) = e /\
  pdot (V 1%nat) (reduce V 2 (coefficients Gauss_Seidel (fun _ _ => 0) (cols_of pdot V 2) (rows_of pdot V Gauss_Seidel 2) 2 (fun i => pdot (V i) (V 2%nat)))) = - e /\
  pdot (V 1%nat) (reduce V 2 (coefficients Compact (rows_of pdot V Compact 2) (fun _ _ => 0) (fun _ _ => 0) 2 (fun i => pdot (V i) (V 2%nat)))) = 0.
Proof. exact triangular_case. Qed.
Print Assumptions C82_triangular_refuted.
(** icwy_1s and the ne1s files give results that depend on the number of processes: x' = 1 from 1 over the time 1, one basis vector *)
Theorem C82_processes_refuted : forall f, f = icwy_1s \/ f = pmex_ne1s \/ f = icwy_ne1s \/ f = cwy_ne1s -> exists K1 K2,
  build ldot still (push 1) 1 0 1 f lone 128 [1%nat] fresh 1 0 = Some (K1, 1%nat, false) /\ build ldot still (push 1) 1 0 2 f lone 128 [1%nat] fresh 1 0 = Some (K2, 1%nat, false) /\
  ab K1 * exp (ah K1 0%nat 0%nat) * fst (av K1 0%nat) = exp (1 / 2) /\ ab K2 * exp (ah K2 0%nat 0%nat) * fst (av K2 0%nat) = exp (1 / 3).
Proof. exact processes. Qed.
Print Assumptions C82_processes_refuted.
(** pmex_1s and cwy_1s with two processes: the last vector, with which the next pass continues as if it had norm 1, has not *)
Theorem C82_last_norm_refuted : forall f, f = pmex_1s \/ f = cwy_1s -> exists K, build ldot still (push 1) 1 0 2 f lone 128 [1%nat] fresh 1 0 = Some (K, 1%nat, false) /\ once ldot 1 (av K 0%nat) (av K 0%nat) = 1 /\ once ldot 1 (av K 1%nat) (av K 1%nat) = 2 / 3.
Proof. exact last_norm. Qed.
Print Assumptions C82_last_norm_refuted.
(** kiops_nest with two processes: nor has its second vector *)
Theorem C82_nest_refuted : exists S1, pairs_loop (step_nest (augmented_product still (push 0) 2 0) (each ldot 2 2) (once ldot 2) lone) 1 (pairs_begin (once ldot 2) (Pairs (fun _ => @zero (@row line)) (fun _ _ => 0) 0 0) (start_row (X := line) 2 0 0 0)) 0 = (S1, 1%nat, false) /\
  once ldot 2 (pv S1 0%nat) (pv S1 0%nat) = 1 /\ once ldot 2 (pv S1 1%nat) (pv S1 1%nat) = 1 / 2.
Proof. exact nest_norm. Qed.
Print Assumptions C82_nest_refuted.
(** At rest (one phi function, no right-hand side) the 1s files divide by zero, with whatever sizes; the files without lag find a breakdown and return the state *)
Theorem C82_rest_refuted : forall (X : ModuleSpace R_Ring) (dot : X -> X -> R) A ex P f t mmax ms S, scalar_product dot -> linear_map A -> (1 <= P)%nat -> (f = pmex_1s \/ f = cwy_1s -> P = 1%nat) -> f = pmex_1s \/ f = icwy_1s \/ f = cwy_1s ->
  0 < t -> t <= 1 -> t <= mu ex -> unit_lower (at_ S) -> strictly_upper (an S) -> ms <> [] -> growing mmax 0 ms -> build dot A (fun _ => zero) 1 ex P f t mmax ms S zero 0 = None.
Proof. exact rest_main. Qed.
Print Assumptions C82_rest_refuted.
Theorem C82_rest : forall (X : ModuleSpace R_Ring) (dot : X -> X -> R) A ex P f t mmax ms S, scalar_product dot -> linear_map A -> (1 <= P)%nat -> f = pmex \/ f = icwy_ne \/ f = cwy_ne ->
  0 < t -> unit_lower (at_ S) -> strictly_upper (an S) -> ms <> [] -> growing mmax 0 ms -> exists K, build dot A (fun _ => zero) 1 ex P f t mmax ms S zero 0 = Some (K, 1%nat, true) /\ scal (V := row) (ab K) (av K 0%nat) = start_row 1 ex zero 0.
Proof. exact rest_ne_main. Qed.
Print Assumptions C82_rest.
(** dcgs2 does not divide the first vector by its norm, in whatever run: the result at the time 0 is the start times its norm *)
Theorem C82_dcgs2_first : forall (X : ModuleSpace R_Ring) (dot : X -> X -> R) A u p ex P t mmax ms S x now S1 h e, growing mmax 0 ms ->
  dcgs_passes (augmented_product A u p ex) (each dot p P) t mmax ms (dcgs_begin (once dot p) S (start_row p ex x now)) 0 false = Some (S1, h, e) ->
  dv S1 0%nat = start_row p ex x now /\ db S1 = sqrt (once dot p (start_row p ex x now) (start_row p ex x now)).
Proof. intros X dot A u p ex P t mmax ms S x now. exact (dcgs_first (augmented_product A u p ex) (each dot p P) (once dot p) t mmax ms S (start_row p ex x now)). Qed.
Print Assumptions C82_dcgs2_first.
(** x' = - 1 / 4 from 1, one vector: sqrt 2, for substeps of whatever length tau *)
Theorem C82_dcgs2_refuted : exists S1, dcgs_passes (lop (- (1 / 4))) (each ldot 1 1) lone 128 [1%nat] (dcgs_begin (once ldot 1) (Dcgs (fun _ => @zero (@row line)) (fun _ _ => 0) 0 false) lstart) 0 false = Some (S1, 1%nat, false) /\
  forall tau, db S1 * exp (tau * dh S1 0%nat 0%nat) * fst (dv S1 0%nat) = sqrt 2.
Proof. exact dcgs_line. Qed.
Print Assumptions C82_dcgs2_refuted.
(** every file, on a line; and sizes that grow *)
Example C82_line : scalar_product ldot /\ linear_map still /\ forall f, exists K, build ldot still (push 1) 1 0 1 f lone 128 [1%nat] fresh 1 0 = Some (K, 1%nat, false).
Proof. exact line_main. Qed.
Example C82_growing : growing 128 0 [10; 14; 19; 128; 128]%nat /\ largest [10; 14; 19; 128; 128]%nat = 128%nat.
Proof. exact growing_main. Qed.
