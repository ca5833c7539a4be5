(** C52 and C68 *)
From Coq Require Import Reals List Lra Lia.
From Coquelicot Require Import Hierarchy.
From Verif Require Import InnerSpec GcrotModel GcrotSpec GcrotProofs GcrotCases.
Import ListNotations.
Local Open Scope R_scope.

(** C52. The statement, with [k] the bound, for every sequence of solves: length (recycled res) <= k. It fails: two solves started from the solution leave two pairs, whatever the bound *)
Theorem C52_refuted : forall tol tr i, 0 <= tol -> exists r1 r2,
  gcrot (V := R_ModuleSpace) Rmult id_line id_line 1 (Some 1) tol 1 tr false [] (qr_one 0) 0 [i] = Some r1 /\
  gcrot (V := R_ModuleSpace) Rmult id_line id_line 1 (Some 1) tol 1 tr false (recycled r1) (qr_one 0) 1 [i] = Some r2 /\
  (1 < length (recycled r2))%nat.
Proof. intros tol tr i T. destruct (two_solves tol 1 tr i T) as (r1 & r2 & E1 & E2 & E3). exists r1, r2. split; [exact E1|]. split; [exact E2|]. rewrite E3. exact (le_n 2). Qed.
Print Assumptions C52_refuted.
(** in any space, a solve started from the solution leaves one pair more than it found unless the QR finds the products dependent: nothing bounds the number over a sequence of such solves *)
Theorem C52_growth_refuted : forall (V : ModuleSpace R_Ring) (dot : V -> V -> R) (A M : V -> V), scalar_product dot ->
  forall b v tol k tr d pairs qr i is, norm dot b <> 0 -> plus b (opp (A v)) = zero -> 0 <= tol -> pairs <> [] -> length (q_cols qr) = length pairs ->
  exists res, gcrot dot A M b (Some v) tol k tr d pairs qr (length pairs) (i :: is) = Some res /\ length (recycled res) = S (length pairs).
Proof. intros V dot A M D. exact (gcrot_grows dot A M D). Qed.
Print Assumptions C52_growth_refuted.
Example C52_growth_example : exists res, gcrot (V := R_ModuleSpace) Rmult id_line id_line 1 (Some 1) 0 3 Oldest true [(None, 1)] (qr_one 0) 1 [Inner 0 [] (fun _ => [])] = Some res /\ length (recycled res) = 2%nat.
Proof. apply (C52_growth_refuted R_ModuleSpace Rmult id_line id_line line_product 1 1 0 3%nat Oldest true [(None, 1)]); [rewrite line_norm, Rabs_R1; lra|apply plus_opp_r|lra|discriminate|reflexivity]. Qed.
(** what holds (truncate = 'oldest'): each update of the solution that changes the pairs keeps the newest max(k, 1) - 1 of the old ones, in order, and adds one *)
Theorem C52_update_partial : forall (V : ModuleSpace R_Ring) (dot : V -> V -> R) (A M : V -> V) k s i,
  exists l, CU (update dot A M k Oldest s i) = CU s \/ CU (update dot A M k Oldest s i) = skipn (length (CU s) - (k - 1)) (CU s) ++ [l].
Proof. intros V dot A M. exact (update_pairs dot A M). Qed.
Print Assumptions C52_update_partial.
(** a solve leaves at most one pair more than the bound, or than it found. Missing: the bound itself *)
Theorem C52_size_partial : forall (V : ModuleSpace R_Ring) (dot : V -> V -> R) (A M : V -> V) b x0 tol k d pairs qr rank is res, (rank <= length pairs)%nat ->
  gcrot dot A M b x0 tol k Oldest d pairs qr rank is = Some res -> (length (recycled res) <= S (Nat.max (length pairs) (Nat.max k 1)))%nat.
Proof. intros V dot A M. exact (gcrot_size dot A M). Qed.
Print Assumptions C52_size_partial.
Example C52_size_example : exists r1 r2, gcrot (V := R_ModuleSpace) Rmult id_line id_line 1 (Some 1) 0 1 Oldest false [] (qr_one 0) 0 [Inner 0 [] (fun _ => [])] = Some r1 /\
  gcrot (V := R_ModuleSpace) Rmult id_line id_line 1 (Some 1) 0 1 Oldest false (recycled r1) (qr_one 0) 1 [Inner 0 [] (fun _ => [])] = Some r2 /\ length (recycled r2) = 2%nat.
Proof. destruct (two_solves 0 1%nat Oldest (Inner 0 [] (fun _ => [])) (Rle_refl 0)) as (r1 & r2 & E1 & E2 & E3). exists r1, r2. rewrite E3. auto. Qed.

(** C68. The residual is never larger than that of the initial guess, and never larger than the one reported; the products kept for the next call are right. Whatever the preconditioner, the inner iterations and lstsq do *)
Theorem C68_monotone : forall (V : ModuleSpace R_Ring) (dot : V -> V -> R) (A M : V -> V), scalar_product dot -> linear_map A ->
  forall b x0 tol k tr d pairs qr rank is res, List.Forall (good_inner tr) is -> d = true \/ known_products A pairs -> (pairs <> [] -> pivoted_qr dot (map fst (filled A (forgotten d pairs))) qr rank) ->
  gcrot dot A M b x0 tol k tr d pairs qr rank is = Some res ->
  true_residual dot A b (solution res) <= norm dot (initial A b x0) /\ true_residual dot A b (solution res) <= residual res /\ (norm dot b <> 0 -> known_products A (recycled res)).
Proof. intros V dot A M D L. exact (gcrot_ok dot A M D L). Qed.
Print Assumptions C68_monotone.
Example C68_monotone_example : pivoted_qr (V := R_ModuleSpace) Rmult (map fst (filled id_line (forgotten false [(Some 1, 1); (None, 1)]))) (qr_one 0) 1 /\ known_products id_line [(Some 1, 1); (None, 1)] /\
  exists r1 r2, gcrot (V := R_ModuleSpace) Rmult id_line id_line 1 (Some 1) 0 2 Oldest false [] (qr_one 0) 0 [Inner 0 [] (fun _ => [])] = Some r1 /\ gcrot (V := R_ModuleSpace) Rmult id_line id_line 1 (Some 1) 0 2 Oldest false (recycled r1) (qr_one 0) 1 [Inner 0 [] (fun _ => [])] = Some r2 /\ recycled r2 = [(Some 1, 1); (None, 1)].
Proof. exact (conj line_qr (conj line_products (two_solves 0 2%nat Oldest (Inner 0 [] (fun _ => [])) (Rle_refl 0)))). Qed.
(** a reported residual within the tolerance is the true residual, whatever the pairs are and whatever the QR returned *)
Theorem C68_converged : forall (V : ModuleSpace R_Ring) (dot : V -> V -> R) (A M : V -> V), scalar_product dot -> linear_map A ->
  forall b x0 tol k tr d pairs qr rank is res, gcrot dot A M b x0 tol k tr d pairs qr rank is = Some res -> residual res <= tol * norm dot b -> true_residual dot A b (solution res) = residual res.
Proof. intros V dot A M D L. exact (gcrot_true dot A M D L). Qed.
Print Assumptions C68_converged.
(** pairs left by solves with another operator (discard_C is False by default, and the operator of a Rosenbrock step changes at every step) can make the result worse than the initial guess, for any number of passes, and the flag is 0 although the tolerance is not met *)
Theorem C68_refuted : forall tol k tr i is, 0 <= tol < 3 / 2 -> List.Forall (fun i => passes i = 1%nat) (i :: is) ->
  exists r1 r2 res, gcrot (V := R_ModuleSpace) Rmult id_line id_line 1 (Some 1) tol k tr false [] (qr_one 0) 0 [i] = Some r1 /\ gcrot (V := R_ModuleSpace) Rmult id_line id_line 1 (Some 1) tol k tr false (recycled r1) (qr_one 0) 1 [i] = Some r2 /\
    pivoted_qr (V := R_ModuleSpace) Rmult (map fst (filled half (forgotten false (recycled r2)))) (qr_one 1) 1 /\
    gcrot (V := R_ModuleSpace) Rmult half id_line 1 None tol k tr false (recycled r2) (qr_one 1) 1 (i :: is) = Some res /\
    norm (V := R_ModuleSpace) Rmult (initial half 1 None) < true_residual (V := R_ModuleSpace) Rmult half 1 (solution res) /\ tol * norm (V := R_ModuleSpace) Rmult 1 < true_residual (V := R_ModuleSpace) Rmult half 1 (solution res) /\ flag res = 0%nat.
Proof. exact stale_worse. Qed.
Print Assumptions C68_refuted.
Example C68_refuted_example : List.Forall (fun i => passes i = 1%nat) [Inner 1 [1] (fun _ => []); Inner 1 [2] (fun _ => [])].
Proof. repeat constructor. Qed.
(** the flag says nothing *)
Theorem C68_flag_refuted : forall (V : ModuleSpace R_Ring) (dot : V -> V -> R) (A M : V -> V) b x0 tol k tr d pairs qr rank is res, gcrot dot A M b x0 tol k tr d pairs qr rank is = Some res -> flag res = 0%nat.
Proof. intros V dot A M. exact (gcrot_flag dot A M). Qed.
Print Assumptions C68_flag_refuted.
(** the number of iterations returned is that of the inner solves that were made: all of them, unless the tolerance was met before *)
Theorem C68_iterations : forall (V : ModuleSpace R_Ring) (dot : V -> V -> R) (A M : V -> V) b x0 tol k tr d pairs qr rank is res, norm dot b <> 0 -> gcrot dot A M b x0 tol k tr d pairs qr rank is = Some res ->
  exists n, (n <= length is)%nat /\ iterations res = list_sum (map passes (firstn n is)) /\ (n = length is \/ residual res <= tol * norm dot b).
Proof. intros V dot A M. exact (gcrot_count dot A M). Qed.
Print Assumptions C68_iterations.
