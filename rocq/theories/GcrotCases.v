(** GCROT on the real line *)
From Coq Require Import Reals List Bool Lra Lia.
From Coquelicot Require Import Hierarchy.
From Verif Require Import InnerSpec InnerFacts GcrotModel GcrotSpec GcrotProofs VecTac.
Import ListNotations.
Local Open Scope R_scope.

Notation line := R_ModuleSpace.
Lemma line_product : scalar_product (V := line) Rmult.
Proof. repeat split; unfold plus, scal, zero; cbn; intros; try ring. - apply Rle_0_sqr. - apply Rmult_integral in H. destruct H; assumption. Qed.
Lemma line_norm : forall x : R, norm (V := line) Rmult x = Rabs x.
Proof. intros x. apply sqrt_Rsqr_abs. Qed.
Lemma line_scale : forall a : R, linear_map (V := line) (Rmult a).
Proof. intros a. split; intros; unfold plus, scal; cbn; unfold mult; cbn; ring. Qed.
Lemma line_id : linear_map (V := line) (fun x => x).
Proof. split; reflexivity. Qed.

Definition id_line : line -> line := fun x => x.
Definition qr_one (p : nat) : qr_result (V := line) := Qr [1] (fun _ _ => 1) (fun _ => p).

(** two solves that start from the solution leave two pairs, whatever the bound *)
Lemma two_solves : forall tol k tr i, 0 <= tol -> exists r1 r2,
  gcrot (V := line) Rmult id_line id_line 1 (Some 1) tol k tr false [] (qr_one 0) 0 [i] = Some r1 /\
  gcrot (V := line) Rmult id_line id_line 1 (Some 1) tol k tr false (recycled r1) (qr_one 0) 1 [i] = Some r2 /\
  recycled r2 = [(Some 1, 1); (None, 1)].
Proof.
  intros tol k tr i T. assert (NB : norm (V := line) Rmult 1 <> 0) by (rewrite line_norm, Rabs_R1; lra). assert (RZ : plus (1 : line) (opp (id_line 1)) = zero) by apply plus_opp_r.
  destruct (gcrot_immediate Rmult id_line id_line line_product 1 1 tol k tr false [] (qr_one 0) 0 i [] NB RZ T) as (r1 & E1 & F1).
  destruct (gcrot_immediate Rmult id_line id_line line_product 1 1 tol k tr false (recycled r1) (qr_one 0) 1 i [] NB RZ T) as (r2 & E2 & F2).
  exists r1, r2. split; [exact E1|]. split; [exact E2|]. rewrite F2, F1. cbn. f_equal. f_equal. unfold plus, scal. cbn. unfold mult. cbn. rewrite Rinv_1. unfold zero. cbn. ring_simplify. reflexivity.
Qed.

(** pairs of the identity reused for x -> - x / 2 *)
Definition half : line -> line := Rmult (- / 2).
Lemma line_norm0 : norm (V := line) Rmult 0 = 0.
Proof. rewrite line_norm. apply Rabs_R0. Qed.
Lemma against_two : forall v w : R, exists b, against (V := line) Rmult [1] w = ([b], 0) /\ against (V := line) Rmult [v] 0 = ([0], 0).
Proof.
  intros v w. exists (1 * w). cbn [against]. split; f_equal; try (f_equal; ring); unfold plus, scal; cbn; unfold mult; cbn; ring.
Qed.
Lemma stuck_arnoldi : forall v : R, exists b w, arnoldi (V := line) Rmult half id_line [1] (Krylov [v] [] [] []) = Krylov [v; w] [v] [b] [[0; 0]].
Proof.
  intros v. destruct (against_two v (half v)) as (b & E1 & E2). exists [b]. unfold arnoldi. cbn [vs zs cols_b cols_h last]. unfold id_line. rewrite E1, E2. rewrite line_norm0. eexists. cbn [app]. reflexivity.
Qed.
Lemma stuck_update : forall k tr n y W, update (V := line) Rmult half id_line k tr (State 1 (3 / 2) [(1, 1)] n) (Inner 1 y W) = State 1 (3 / 2) [(1, 1)] (n + 1).
Proof.
  intros k tr n y W. unfold update. cbn [r passes map fst snd CU x niter GcrotModel.y]. unfold fgmres. cbn [Nat.iter nat_rect]. set (K := arnoldi Rmult half id_line _ _). assert (EK : exists v b w, K = Krylov [v; w] [v] [b] [[0; 0]]) by (eexists; exact (stuck_arnoldi _)). destruct EK as (v0 & b & w & ->). cbn [vs zs cols_b cols_h].
  assert (C0 : combination (V := line) (times_cols [[0; 0]] y) [v0; w] = 0).
  { destruct y as [|u y]; [reflexivity|]. cbn [times_cols]. replace (times_cols [] y) with (@nil R) by (destruct y; reflexivity). cbn [map add_pad combination]. unfold plus, scal, zero. cbn. unfold mult. cbn. ring. }
  set (cx := combination (times_cols [[0; 0]] y) _). change cx with (combination (V := line) (times_cols [[0; 0]] y) [v0; w]). rewrite C0, line_norm0. destruct (Req_EM_T 0 0) as [_|N]; [reflexivity|now contradiction N].
Qed.
Lemma stuck_loop : forall tol k tr is first beta0 n, tol < 3 / 2 -> List.Forall (fun i => passes i = 1%nat) is ->
  main_loop (V := line) Rmult half id_line 1 tol k tr first is beta0 (State 1 (3 / 2) [(1, 1)] n) = (State 1 (3 / 2) [(1, 1)] (n + length is), match is with [] => beta0 | _ => Some (3 / 2) end, false).
Proof.
  intros tol k tr. induction is as [|[p y W] is IH]; intros first beta0 n T P; cbn [main_loop length]; [rewrite Nat.add_0_r; reflexivity|]. inversion P as [|i0 is0 P1 P2]. cbn in P1. subst p. cbn [r x CU niter].
  assert (N32 : norm (V := line) Rmult (3 / 2) = 3 / 2) by (rewrite line_norm; apply Rabs_pos_eq; lra). assert (N1 : norm (V := line) Rmult 1 = 1) by (rewrite line_norm; apply Rabs_R1). rewrite N32, N1.
  destruct (Rle_dec (3 / 2) (tol * 1)) as [C|_]; [lra|]. cbn [andb r]. rewrite N32. destruct (Rle_dec (3 / 2) (tol * 1)) as [C|_]; [lra|]. rewrite stuck_update, IH by assumption. replace (n + 1 + length is)%nat with (n + S (length is))%nat by lia. destruct is; reflexivity.
Qed.
Lemma stale_pairs : forall tol k tr i is, 0 <= tol < 3 / 2 -> List.Forall (fun i => passes i = 1%nat) (i :: is) -> exists res,
  gcrot (V := line) Rmult half id_line 1 None tol k tr false [(Some 1, 1); (None, 1)] (qr_one 1) 1 (i :: is) = Some res /\ solution res = 1 /\ residual res = 3 / 2 /\ flag res = 0%nat.
Proof.
  intros tol k tr i is T P. unfold gcrot. assert (N1 : norm (V := line) Rmult 1 = 1) by (rewrite line_norm; apply Rabs_R1). destruct (Req_EM_T _ 0) as [C|_]; [rewrite N1 in C; lra|].
  set (CU1 := reorthogonalised _ _ _). assert (C1 : CU1 = [(1, 1)]). { unfold CU1, reorthogonalised. cbn. f_equal. f_equal. unfold plus, scal, zero. cbn. unfold mult. cbn. rewrite Rinv_1. ring. }
  rewrite C1. assert (FP : fold_left (project (V := line) Rmult) [(1, 1)] (zero, 1) = (1, 0)). { cbn [fold_left project]. f_equal; unfold plus, scal, zero; cbn; unfold mult; cbn; ring. }
  set (fl := fold_left _ _ _). change fl with (fold_left (project (V := line) Rmult) [(1, 1)] (zero, 1)). rewrite FP.
  cbn [main_loop r x CU niter length]. assert (N0 : norm (V := line) Rmult 0 = 0) by (rewrite line_norm; apply Rabs_R0). rewrite N0, N1. destruct (Rle_dec 0 (tol * 1)) as [_|C]; [|lra]. cbn [andb orb negb Nat.eqb r].
  assert (R2 : plus (1 : line) (opp (half 1)) = 3 / 2) by (unfold half, plus, opp; cbn; field). match goal with |- context [State ?a (plus ?c ?e) _ _] => change (plus c e) with (plus (1 : line) (opp (half 1))) end. rewrite R2. assert (N32 : norm (V := line) Rmult (3 / 2) = 3 / 2) by (rewrite line_norm; apply Rabs_pos_eq; lra). rewrite N32.
  destruct (Rle_dec (3 / 2) (tol * 1)) as [C|_]; [lra|]. inversion P as [|i0 is0 P1 P2]. destruct i as [p y W]. cbn in P1. subst p. subst. rewrite stuck_update, stuck_loop by (try assumption; lra). eexists. split; [destruct is; reflexivity|]. cbn. auto.
Qed.

(** the assumptions of C68_monotone are met by the second of the two solves above *)
Lemma line_qr : pivoted_qr (V := line) Rmult (map fst (filled id_line (forgotten false [(Some 1, 1); (None, 1)]))) (qr_one 0) 1.
Proof.
  split; [|split].
  - intros i j Hi Hj. cbn in Hi, Hj. replace i with 0%nat by lia. replace j with 0%nat by lia. cbn. ring.
  - cbn. lia.
  - intros j Hj. replace j with 0%nat by lia. split; [cbn; lra|]. cbn. unfold id_line, plus, scal, zero. cbn. unfold mult. cbn. ring.
Qed.
Lemma line_products : known_products id_line [(Some 1, 1); (None, 1)].
Proof. intros c u [E|[E|[]]]; [injection E as <- <-; reflexivity|discriminate]. Qed.
Lemma stale_qr : pivoted_qr (V := line) Rmult (map fst (filled half (forgotten false [(Some 1, 1); (None, 1)]))) (qr_one 1) 1.
Proof.
  split; [|split].
  - intros i j Hi Hj. cbn in Hi, Hj. replace i with 0%nat by lia. replace j with 0%nat by lia. cbn. ring.
  - cbn. lia.
  - intros j Hj. replace j with 0%nat by lia. split; [cbn; lra|]. cbn. unfold plus, scal, zero. cbn. unfold mult. cbn. ring.
Qed.
Lemma stale_worse : forall tol k tr i is, 0 <= tol < 3 / 2 -> List.Forall (fun i => passes i = 1%nat) (i :: is) ->
  exists r1 r2 res, gcrot (V := line) Rmult id_line id_line 1 (Some 1) tol k tr false [] (qr_one 0) 0 [i] = Some r1 /\ gcrot (V := line) Rmult id_line id_line 1 (Some 1) tol k tr false (recycled r1) (qr_one 0) 1 [i] = Some r2 /\
    pivoted_qr (V := line) Rmult (map fst (filled half (forgotten false (recycled r2)))) (qr_one 1) 1 /\
    gcrot (V := line) Rmult half id_line 1 None tol k tr false (recycled r2) (qr_one 1) 1 (i :: is) = Some res /\
    norm (V := line) Rmult (initial half 1 None) < true_residual (V := line) Rmult half 1 (solution res) /\ tol * norm (V := line) Rmult 1 < true_residual (V := line) Rmult half 1 (solution res) /\ flag res = 0%nat.
Proof.
  intros tol k tr i is T P. destruct (two_solves tol k tr i (proj1 T)) as (r1 & r2 & E1 & E2 & E3). destruct (stale_pairs tol k tr i is T P) as (res & F1 & F2 & F3 & F4). exists r1, r2, res. rewrite E3. repeat (split; [first [exact E1|exact E2|exact stale_qr|exact F1]|]).
  assert (N1 : norm (V := line) Rmult 1 = 1) by (rewrite line_norm; apply Rabs_R1). assert (TR : true_residual (V := line) Rmult half 1 (solution res) = 3 / 2).
  { rewrite F2. unfold true_residual. rewrite line_norm. unfold half, plus, opp. cbn. rewrite Rabs_pos_eq; lra. }
  rewrite TR. cbn [initial]. rewrite N1. repeat split; try lra. exact F4.
Qed.
