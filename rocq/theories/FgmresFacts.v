(** Sums, rotations and triangular systems *)
From Coq Require Import Reals List Bool Arith Lra Lia.
From Coquelicot Require Import Hierarchy.
From Verif Require Import InnerSpec InnerFacts FgmresModel VecTac.
Import ListNotations.
Local Open Scope R_scope.

Lemma rsum_ext : forall n f g, (forall i, (i < n)%nat -> f i = g i) -> rsum n f = rsum n g.
Proof. induction n as [|n IH]; intros f g H; cbn [rsum]; [reflexivity|]. rewrite (IH f g), H by (auto; intros; apply H; lia). reflexivity. Qed.
Lemma rsum_zero : forall n f, (forall i, (i < n)%nat -> f i = 0) -> rsum n f = 0.
Proof. induction n as [|n IH]; intros f H; cbn [rsum]; [reflexivity|]. rewrite IH, H by (auto; intros; apply H; lia). ring. Qed.
Lemma rsum_plus : forall n f g, rsum n (fun i => f i + g i) = rsum n f + rsum n g.
Proof. induction n as [|n IH]; intros; cbn [rsum]; [ring|]. rewrite IH. ring. Qed.
Lemma rsum_scal : forall n a f, rsum n (fun i => a * f i) = a * rsum n f.
Proof. induction n as [|n IH]; intros; cbn [rsum]; [ring|]. rewrite IH. ring. Qed.
Lemma rsum_delta : forall n k f, (k < n)%nat -> (forall i, (i < n)%nat -> i <> k -> f i = 0) -> rsum n f = f k.
Proof.
  induction n as [|n IH]; intros k f K H; [lia|]. cbn [rsum]. destruct (Nat.eq_dec k n) as [->|N].
  - rewrite rsum_zero by (intros; apply H; lia). ring.
  - rewrite (IH k), (H n) by (auto; try lia; intros; apply H; lia). ring.
Qed.
Lemma rsum_pos : forall n f, (forall i, (i < n)%nat -> 0 <= f i) -> 0 <= rsum n f.
Proof. induction n as [|n IH]; intros f H; cbn [rsum]; [lra|]. specialize (IH f (fun i I => H i (Nat.lt_trans _ _ _ I (Nat.lt_succ_diag_r n)))). specialize (H n (Nat.lt_succ_diag_r n)). lra. Qed.

Section Vec.
Context {V : ModuleSpace R_Ring}.
Lemma vsum_ext : forall n (f g : nat -> V), (forall i, (i < n)%nat -> f i = g i) -> vsum n f = vsum n g.
Proof. induction n as [|n IH]; intros f g H; cbn [vsum]; [reflexivity|]. rewrite (IH f g), H by (auto; intros; apply H; lia). reflexivity. Qed.
Lemma vsum_plus : forall n (f g : nat -> V), vsum n (fun i => plus (f i) (g i)) = plus (vsum n f) (vsum n g).
Proof. induction n as [|n IH]; intros; cbn [vsum]; [now rewrite plus_zero_l|]. rewrite IH. vec. Qed.
Lemma vsum_scal : forall n a (f : nat -> V), vsum n (fun i => scal (V := V) a (f i)) = scal (V := V) a (vsum n f).
Proof. induction n as [|n IH]; intros; cbn [vsum]; [symmetry; exact (scal_zero_r a)|]. rewrite IH. vec. Qed.
Lemma vsum_zero : forall n (f : nat -> V), (forall i, (i < n)%nat -> f i = zero) -> vsum n f = zero.
Proof. induction n as [|n IH]; intros f H; cbn [vsum]; [reflexivity|]. rewrite IH, H by (auto; intros; apply H; lia). apply plus_zero_l. Qed.
Lemma vsum_more : forall m n (f : nat -> V), (n <= m)%nat -> (forall i, (n <= i)%nat -> f i = zero) -> vsum m f = vsum n f.
Proof. induction m as [|m IH]; intros n f L H; [replace n with 0%nat by lia; reflexivity|]. destruct (Nat.eq_dec n (S m)) as [->|N]; [reflexivity|]. cbn [vsum]. rewrite H, plus_zero_r by lia. apply IH; [lia|exact H]. Qed.
(** exchanging two sums *)
Lemma vsum_swap : forall n m (y : nat -> R) (h : nat -> nat -> R) (q : nat -> V),
  vsum n (fun j => scal (V := V) (y j) (vsum m (fun l => scal (V := V) (h j l) (q l)))) = vsum m (fun l => scal (V := V) (rsum n (fun j => y j * h j l)) (q l)).
Proof.
  induction n as [|n IH]; intros m y h q; cbn [vsum rsum].
  - symmetry. apply vsum_zero. intros. exact (scal_zero_l _).
  - rewrite IH, <- vsum_scal, <- vsum_plus. apply vsum_ext. intros l _. vec.
Qed.
Lemma linear_vsum : forall A : V -> V, linear_map A -> forall n f, A (vsum n f) = vsum n (fun i => A (f i)).
Proof. intros A L. induction n as [|n IH]; intros f; cbn [vsum]; [now apply linear_zero|]. rewrite (proj1 L), IH. reflexivity. Qed.

Variable dot : V -> V -> R.
Hypothesis D : scalar_product dot.
Lemma dot_vsum_l : forall n f w, dot (vsum n f) w = rsum n (fun i => dot (f i) w).
Proof. induction n as [|n IH]; intros f w; cbn [vsum rsum]; [apply (dot_zero_l dot D)|]. rewrite (dot_plus_l dot D), IH. reflexivity. Qed.
Lemma dot_vsum_r : forall n f w, dot w (vsum n f) = rsum n (fun i => dot w (f i)).
Proof. intros n f w. rewrite (dot_sym dot D), dot_vsum_l. apply rsum_ext. intros. apply (dot_sym dot D). Qed.
Definition on (q : nat -> V) (n : nat) : Prop := forall a b, (a < n)%nat -> (b < n)%nat -> dot (q a) (q b) = if Nat.eqb a b then 1 else 0.
Lemma on_norm : forall q n (a : nat -> R), on q n -> dot (vsum n (fun l => scal (V := V) (a l) (q l))) (vsum n (fun l => scal (V := V) (a l) (q l))) = rsum n (fun l => a l * a l).
Proof.
  intros q n a O. rewrite dot_vsum_l. apply rsum_ext. intros i Hi. rewrite dot_vsum_r, (rsum_delta n i _ Hi). 2:{ intros l Hl Nl. rewrite (dot_scal_l dot D), (dot_scal_r dot D), O by lia. destruct (Nat.eqb_spec i l); [lia|ring]. }
  rewrite (dot_scal_l dot D), (dot_scal_r dot D), O, Nat.eqb_refl by lia. ring.
Qed.
Lemma on_coef : forall q n (a : nat -> R) i, on q n -> (i < n)%nat -> dot (q i) (vsum n (fun l => scal (V := V) (a l) (q l))) = a i.
Proof.
  intros q n a i O Hi. rewrite dot_vsum_r, (rsum_delta n i _ Hi). 2:{ intros l Hl Nl. rewrite (dot_scal_r dot D), O by lia. destruct (Nat.eqb_spec i l); [lia|ring]. } rewrite (dot_scal_r dot D), O, Nat.eqb_refl by lia. ring.
Qed.
End Vec.

(** Givens rotations *)
Lemma rotg_ok : forall a b c s r, rotg a b = (c, s, r) -> c * c + s * s = 1 /\ c * a + s * b = r /\ - s * a + c * b = 0.
Proof.
  intros a b c s r H. unfold rotg in H. destruct (Req_EM_T (Rabs b) 0) as [B|B].
  - injection H as <- <- <-. assert (b = 0) by (destruct (Req_dec b 0) as [E|E]; [exact E|apply Rabs_no_R0 in E; contradiction]). subst. repeat split; ring.
  - destruct (Req_EM_T (Rabs a) 0) as [A0|A0].
    + injection H as <- <- <-. assert (a = 0) by (destruct (Req_dec a 0) as [E|E]; [exact E|apply Rabs_no_R0 in E; contradiction]). subst. repeat split; ring.
    + set (scl := Rmin (Rabs a) (Rabs b)) in H. assert (SP : 0 < scl). { unfold scl. apply Rmin_pos; [pose proof (Rabs_pos a)|pose proof (Rabs_pos b)]; lra. }
      set (sg := if Rlt_dec (Rabs b) (Rabs a) then sign_of a else sign_of b) in H. assert (S1 : sg * sg = 1) by (unfold sg, sign_of; destruct (Rlt_dec (Rabs b) (Rabs a)); destruct (Rlt_dec _ 0); ring).
      set (q := (a / scl) ^ 2 + (b / scl) ^ 2) in H. assert (QP : 0 < q). { unfold q. assert (0 < (a / scl) ^ 2). { assert (a / scl <> 0); [|nra]. intros E. apply A0. apply Rmult_integral in E as [->|E]; [apply Rabs_R0|apply Rinv_neq_0_compat in E; [contradiction|lra]]. } pose proof (pow2_ge_0 (b / scl)). lra. }
      assert (SQ : sqrt q * sqrt q = q) by (apply sqrt_sqrt; lra). assert (SQP : 0 < sqrt q) by now apply sqrt_lt_R0.
      set (rr := sg * (scl * sqrt q)) in H. assert (R2 : rr * rr = a * a + b * b). { unfold rr. replace (sg * (scl * sqrt q) * (sg * (scl * sqrt q))) with (sg * sg * (scl * scl) * (sqrt q * sqrt q)) by ring. rewrite S1, SQ. unfold q. field. lra. }
      assert (RN : rr <> 0). { unfold rr. apply Rmult_integral_contrapositive_currified; [intros E; rewrite E in S1; lra|]. apply Rmult_integral_contrapositive_currified; lra. }
      injection H as <- <- <-. split; [|split].
      * replace (a / rr * (a / rr) + b / rr * (b / rr)) with ((a * a + b * b) / (rr * rr)) by (field; exact RN). rewrite <- R2. field. exact RN.
      * replace (a / rr * a + b / rr * b) with ((a * a + b * b) / rr) by (field; exact RN). rewrite <- R2. field. exact RN.
      * field. exact RN.
Qed.

Fixpoint turn (rs : list (R * R)) (j : nat) (v : nat -> R) : nat -> R := match rs with [] => v | (c, s) :: rs => turn rs (S j) (rotate c s j v) end.
Lemma apply_turn : forall Q j v, apply_givens Q j (length Q) v = Some (turn Q j v).
Proof. induction Q as [|[c s] Q IH]; intros j v; [reflexivity|]. cbn [length apply_givens turn]. apply IH. Qed.
Lemma turn_ext : forall rs j v w, (forall l, v l = w l) -> forall l, turn rs j v l = turn rs j w l.
Proof. induction rs as [|[c s] rs IH]; intros j v w H l; cbn [turn]; [apply H|]. apply IH. intros k. unfold rotate. rewrite !H. reflexivity. Qed.
Lemma turn_snoc : forall rs j c s v, turn (rs ++ [(c, s)]) j v = rotate c s (j + length rs) (turn rs j v).
Proof. induction rs as [|[c0 s0] rs IH]; intros j c s v; cbn [app turn length]; [rewrite Nat.add_0_r; reflexivity|]. rewrite IH. f_equal. lia. Qed.
Lemma rotate_lin : forall c s j (v w : nat -> R) y l, rotate c s j (fun l => v l + y * w l) l = rotate c s j v l + y * rotate c s j w l.
Proof. intros. unfold rotate. destruct (Nat.eqb l j); [ring|]. destruct (Nat.eqb l (S j)); ring. Qed.
Lemma turn_lin : forall rs j (v w : nat -> R) y l, turn rs j (fun l => v l + y * w l) l = turn rs j v l + y * turn rs j w l.
Proof. induction rs as [|[c s] rs IH]; intros j v w y l; cbn [turn]; [reflexivity|]. rewrite <- IH. apply turn_ext. intros k. apply rotate_lin. Qed.
Lemma turn_zero : forall rs j l, turn rs j (fun _ => 0) l = 0.
Proof. induction rs as [|[c s] rs IH]; intros j l; cbn [turn]; [reflexivity|]. transitivity (turn rs (S j) (fun _ => 0) l); [|apply IH]. apply turn_ext. intros k. unfold rotate. destruct (Nat.eqb k j); [|destruct (Nat.eqb k (S j))]; cbv beta; ring. Qed.
Lemma turn_rsum : forall rs j n (v : nat -> R) (h : nat -> nat -> R) y l, turn rs j (fun l => v l + rsum n (fun i => y i * h i l)) l = turn rs j v l + rsum n (fun i => y i * turn rs j (h i) l).
Proof.
  intros rs j. induction n as [|n IH]; intros v h y l.
  - cbn [rsum]. rewrite Rplus_0_r. apply turn_ext. intros k. ring.
  - cbn [rsum]. rewrite <- Rplus_assoc, <- IH, <- turn_lin. apply turn_ext. intros k. ring.
Qed.
Lemma turn_above : forall rs j v l, (j + length rs < l)%nat -> turn rs j v l = v l.
Proof. induction rs as [|[c s] rs IH]; intros j v l H; cbn [turn length] in *; [reflexivity|]. rewrite IH by lia. unfold rotate. destruct (Nat.eqb_spec l j); [lia|]. destruct (Nat.eqb_spec l (S j)); [lia|reflexivity]. Qed.
Lemma rotate_squares : forall N c s j v, c * c + s * s = 1 -> (S j < N)%nat -> rsum N (fun l => rotate c s j v l * rotate c s j v l) = rsum N (fun l => v l * v l).
Proof.
  intros N c s j v H. induction N as [|N IH]; intros L; [lia|]. destruct (Nat.eq_dec N (S j)) as [->|N1].
  - cbn [rsum]. assert (E : rsum j (fun l => rotate c s j v l * rotate c s j v l) = rsum j (fun l => v l * v l)).
    { apply rsum_ext. intros i Hi. unfold rotate. destruct (Nat.eqb_spec i j); [lia|]. destruct (Nat.eqb_spec i (S j)); [lia|reflexivity]. }
    rewrite E. unfold rotate. rewrite !Nat.eqb_refl. destruct (Nat.eqb_spec (S j) j); [lia|].
    transitivity (rsum j (fun l => v l * v l) + (c * c + s * s) * (v j * v j + v (S j) * v (S j))); [ring|rewrite H; ring].
  - cbn [rsum]. rewrite IH by lia. f_equal. unfold rotate. destruct (Nat.eqb_spec N j); [lia|]. destruct (Nat.eqb_spec N (S j)); [lia|reflexivity].
Qed.
Definition rotations (rs : list (R * R)) : Prop := forall p, In p rs -> fst p * fst p + snd p * snd p = 1.
Lemma turn_squares : forall rs j N v, rotations rs -> (j + length rs < N)%nat -> rsum N (fun l => turn rs j v l * turn rs j v l) = rsum N (fun l => v l * v l).
Proof.
  induction rs as [|[c s] rs IH]; intros j N v H L; cbn [turn length] in *; [reflexivity|]. rewrite IH by (try lia; intros p P; apply H; now right). apply rotate_squares; [exact (H (c, s) (or_introl eq_refl))|lia].
Qed.

(** back substitution *)
Lemma nth_snoc : forall {T} (l : list T) a d i, (i < length l)%nat -> nth i (l ++ [a]) d = nth i l d.
Proof. intros. now rewrite app_nth1. Qed.
Lemma nth_end : forall {T} (l : list T) a d, nth (length l) (l ++ [a]) d = a.
Proof. intros. rewrite app_nth2, Nat.sub_diag by lia. reflexivity. Qed.
Lemma upper_solve_ok : forall hs v y, (forall j l, (j < length hs)%nat -> (j < l)%nat -> nth j hs (fun _ => 0) l = 0) -> upper_solve (rev hs) v = Some y ->
  length y = length hs /\ forall l, (l < length hs)%nat -> rsum (length hs) (fun j => nth j y 0 * nth j hs (fun _ => 0) l) = v l.
Proof.
  induction hs as [|h hs IH] using rev_ind; intros v y T H.
  - cbn in H. injection H as <-. split; [reflexivity|]. cbn. lia.
  - rewrite rev_app_distr in H. cbn [rev app upper_solve] in H. rewrite rev_length in H. destruct (Req_EM_T (h (length hs)) 0) as [Z|Z]; [discriminate|]. set (t := v (length hs) / h (length hs)) in H.
    destruct (upper_solve (rev hs) (fun l => v l - t * h l)) as [ys|] eqn:E; [|discriminate]. injection H as <-. assert (LL : length (hs ++ [h]) = S (length hs)) by (rewrite app_length; cbn; lia). rewrite LL in *.
    assert (T' : forall j l, (j < length hs)%nat -> (j < l)%nat -> nth j hs (fun _ => 0) l = 0). { intros j l Hj Hl. specialize (T j l). rewrite nth_snoc in T by exact Hj. apply T; lia. }
    destruct (IH _ _ T' E) as [L S]. rewrite app_length. cbn [length]. split; [lia|]. intros l Hl. cbn [rsum]. replace (nth (length hs) (ys ++ [t]) 0) with t by (rewrite <- L; symmetry; apply nth_end).
    replace (nth (length hs) (hs ++ [h]) (fun _ => 0) l) with (h l) by (rewrite nth_end; reflexivity).
    rewrite (rsum_ext (length hs) _ (fun j => nth j ys 0 * nth j hs (fun _ => 0) l)) by (intros i Hi; rewrite !nth_snoc by lia; reflexivity).
    destruct (Nat.eq_dec l (length hs)) as [->|N].
    + rewrite rsum_zero by (intros i Hi; rewrite T' by lia; ring). unfold t. field. exact Z.
    + rewrite S by lia. ring.
Qed.
