(** The linear system of the spatial Christoffel symbols *)
From Coq Require Import Reals Lra Lia.
From Coquelicot Require Import Coquelicot.
From Verif Require Import GeoModel GeoSpec.
Local Open Scope R_scope.

Lemma below3_all : forall P, below3 P <-> (forall a, (a < 3)%nat -> P a).
Proof.
  intros P. split; [intros (A & B & C) a Ha; destruct a as [|[|[|a]]]; auto; lia|]. intros H. repeat split; apply H; lia.
Qed.
Lemma sum3_ext : forall f g, (forall a, (a < 3)%nat -> f a = g a) -> sum3 f = sum3 g.
Proof. intros f g H. unfold sum3. rewrite !H by lia. reflexivity. Qed.
Lemma sum3_swap : forall f, sum3 (fun a => sum3 (fun b => f a b)) = sum3 (fun b => sum3 (fun a => f a b)).
Proof. intros. unfold sum3. ring. Qed.
Lemma sum3_kron : forall a f, (a < 3)%nat -> sum3 (fun b => kron a b * f b) = f a.
Proof. intros a f H. destruct a as [|[|[|a]]]; try lia; unfold sum3, kron; cbn [Nat.eqb]; ring. Qed.
Lemma sum3_scal : forall k f, k * sum3 f = sum3 (fun a => k * f a).
Proof. intros. unfold sum3. ring. Qed.
Lemma sum3_plus : forall f g, sum3 f + sum3 g = sum3 (fun a => f a + g a).
Proof. intros. unfold sum3. ring. Qed.
Lemma sum3_minus : forall f g, sum3 f - sum3 g = sum3 (fun a => f a - g a).
Proof. intros. unfold sum3. ring. Qed.
(** the row (a, b, c) *)
Definition row (h : nat -> nat -> R) (G : nat -> nat -> nat -> R) (a b c : nat) : R :=
  h a b * sum3 (fun d => G d c d) - sum3 (fun d => h d b * G a d c) - sum3 (fun d => h a d * G b c d).
Lemma c_lhs_row : forall s h G a b c, (a < 3)%nat -> (b < 3)%nat -> (c < 3)%nat ->
  sum3 (fun d => sum3 (fun e => sum3 (fun f => c_lhs s h a b c d e f * G d e f))) = s * row h G a b c.
Proof.
  intros s h G a b c Ha Hb Hc. unfold c_lhs, row. cbv zeta. destruct a as [|[|[|a]]]; try lia; destruct b as [|[|[|b]]]; try lia; destruct c as [|[|[|c]]]; try lia;
    unfold sum3; cbn [Nat.eqb andb]; ring.
Qed.
Section System.
Variables (s : R) (g h : nat -> nat -> R).
Hypotheses (Hs : s <> 0) (Sg : forall a b, (a < 3)%nat -> (b < 3)%nat -> g a b = g b a) (Sh : forall a b, (a < 3)%nat -> (b < 3)%nat -> h a b = h b a)
  (I : forall a b, (a < 3)%nat -> (b < 3)%nat -> sum3 (fun k => g a k * h k b) = kron a b).
Lemma I' : forall a b, (a < 3)%nat -> (b < 3)%nat -> sum3 (fun k => h a k * g k b) = kron a b.
Proof.
  intros a b Ha Hb. rewrite <- (sum3_ext (fun k => g b k * h k a)); [|intros k Hk; rewrite (Sg b k), (Sh k a) by auto; ring]. rewrite I by auto. unfold kron. rewrite Nat.eqb_sym. reflexivity.
Qed.
(** lowering and raising an index *)
Lemma lower : forall f, (forall b, (b < 3)%nat -> sum3 (fun d => h b d * f d) = 0) -> forall d, (d < 3)%nat -> f d = 0.
Proof.
  intros f H d Hd. rewrite <- (sum3_kron d f Hd). rewrite (sum3_ext _ (fun b => sum3 (fun k => g d k * h k b) * f b)) by (intros; rewrite I; auto).
  transitivity (sum3 (fun k => g d k * sum3 (fun b => h k b * f b))); [unfold sum3; ring|]. rewrite (sum3_ext _ (fun _ => 0)) by (intros; rewrite H; auto; ring). unfold sum3; ring.
Qed.
Lemma expand_g : forall f d, (d < 3)%nat -> f d = sum3 (fun b => g d b * sum3 (fun k => h b k * f k)).
Proof.
  intros f d Hd. transitivity (sum3 (fun b => sum3 (fun k => g d k * h k b) * f b)); [|unfold sum3; ring].
  rewrite (sum3_ext _ (fun b => kron d b * f b)) by (intros; rewrite I; auto). rewrite sum3_kron; auto.
Qed.
Lemma expand_h : forall f d, (d < 3)%nat -> f d = sum3 (fun b => h d b * sum3 (fun k => g b k * f k)).
Proof.
  intros f d Hd. transitivity (sum3 (fun b => sum3 (fun k => h d k * g k b) * f b)); [|unfold sum3; ring].
  rewrite (sum3_ext _ (fun b => kron d b * f b)) by (intros; rewrite I'; auto). rewrite sum3_kron; auto.
Qed.
(** a tensor whose last index, raised, can be exchanged with the first one (with the sign e) *)
Lemma exchange : forall e (T : nat -> nat -> nat -> R),
  (forall a b c, (a < 3)%nat -> (b < 3)%nat -> (c < 3)%nat -> sum3 (fun d => h b d * T a c d) = e * sum3 (fun d => h a d * T b c d)) ->
  forall a c d, (a < 3)%nat -> (c < 3)%nat -> (d < 3)%nat -> sum3 (fun k => g a k * T k c d) = e * sum3 (fun k => g d k * T k c a).
Proof.
  intros e T H a c d Ha Hc Hd. rewrite (sum3_ext _ (fun k => g a k * sum3 (fun b => g d b * sum3 (fun l => h b l * T k c l)))) by (intros k Hk; rewrite <- (expand_g (fun l => T k c l)); auto).
  rewrite (sum3_ext (fun k => g d k * T k c a) (fun k => g d k * sum3 (fun b => g a b * sum3 (fun l => h b l * T k c l)))) by (intros k Hk; rewrite <- (expand_g (fun l => T k c l)); auto).
  rewrite (sum3_ext (fun k => g a k * _) (fun k => sum3 (fun b => e * (g a k * g d b * sum3 (fun l => h k l * T b c l))))).
  2:{ intros k Hk. rewrite sum3_scal. apply sum3_ext. intros b Hb. rewrite (H k b c) by auto. ring. }
  rewrite sum3_swap, sum3_scal. apply sum3_ext. intros b Hb. rewrite sum3_scal, sum3_scal. apply sum3_ext. intros k Hk. ring.
Qed.
Lemma raise_zero : forall (T : nat -> nat -> nat -> R), (forall a c d, (a < 3)%nat -> (c < 3)%nat -> (d < 3)%nat -> sum3 (fun k => g a k * T k c d) = 0) ->
  forall a c d, (a < 3)%nat -> (c < 3)%nat -> (d < 3)%nat -> T a c d = 0.
Proof.
  intros T H a c d Ha Hc Hd. rewrite (expand_h (fun k => T k c d)) by auto. rewrite (sum3_ext _ (fun _ => 0)) by (intros; rewrite H; auto; ring). unfold sum3; ring.
Qed.
Lemma torsion_free : forall G, (forall a b c, (a < 3)%nat -> (b < 3)%nat -> (c < 3)%nat -> row h G a b c = row h G b a c) ->
  forall a c d, (a < 3)%nat -> (c < 3)%nat -> (d < 3)%nat -> G a c d = G a d c.
Proof.
  intros G H a c d Ha Hc Hd. apply Rminus_diag_uniq. revert a c d Ha Hc Hd. set (T := fun a c d => G a c d - G a d c). change (forall a c d, (a < 3)%nat -> (c < 3)%nat -> (d < 3)%nat -> T a c d = 0).
  assert (X : forall a c d, (a < 3)%nat -> (c < 3)%nat -> (d < 3)%nat -> sum3 (fun k => g a k * T k c d) = 1 * sum3 (fun k => g d k * T k c a)).
  { apply exchange. intros a b c Ha Hb Hc. specialize (H a b c Ha Hb Hc). unfold row in H. rewrite (Sh a b) in H by auto. unfold T.
    rewrite (sum3_ext (fun d => h d b * G a d c) (fun d => h b d * G a d c)) in H by (intros k Hk; rewrite (Sh k b); auto).
    rewrite (sum3_ext (fun d => h d a * G b d c) (fun d => h a d * G b d c)) in H by (intros k Hk; rewrite (Sh k a); auto).
    unfold sum3 in *. lra. }
  assert (A : forall a c d, sum3 (fun k => g a k * T k c d) = - sum3 (fun k => g a k * T k d c)) by (intros; unfold sum3, T; ring).
  apply raise_zero. intros a c d Ha Hc Hd. pose proof (X a c d Ha Hc Hd) as X1. pose proof (A d c a) as X2. pose proof (X d a c Hd Ha Hc) as X3. pose proof (A c a d) as X4. pose proof (X c d a Hc Hd Ha) as X5. pose proof (A a d c) as X6. lra.
Qed.
Lemma trace_zero : forall G, (forall a c d, (a < 3)%nat -> (c < 3)%nat -> (d < 3)%nat -> G a c d = G a d c) ->
  forall c, (c < 3)%nat -> sum3 (fun a => sum3 (fun b => g a b * row h G a b c)) = sum3 (fun d => G d c d).
Proof.
  intros G Y c Hc. unfold row.
  transitivity (sum3 (fun a => sum3 (fun b => g a b * h b a)) * sum3 (fun d => G d c d)
    - sum3 (fun a => sum3 (fun d => sum3 (fun b => h d b * g b a) * G a d c)) - sum3 (fun b => sum3 (fun d => sum3 (fun a => g b a * h a d) * G b c d))).
  - rewrite (sum3_ext (fun a => sum3 (fun b => g a b * h b a)) (fun a => sum3 (fun b => g a b * h a b))) by (intros a Ha; apply sum3_ext; intros b Hb; rewrite (Sh b a); auto).
    rewrite (sum3_ext (fun a => sum3 (fun d => sum3 (fun b => h d b * g b a) * G a d c)) (fun a => sum3 (fun d => sum3 (fun b => h d b * g a b) * G a d c)))
      by (intros a Ha; apply sum3_ext; intros d Hd; f_equal; apply sum3_ext; intros b Hb; rewrite (Sg b a); auto).
    rewrite (sum3_ext (fun b => sum3 (fun d => sum3 (fun a => g b a * h a d) * G b c d)) (fun b => sum3 (fun d => sum3 (fun a => g a b * h a d) * G b c d)))
      by (intros a Ha; apply sum3_ext; intros d Hd; f_equal; apply sum3_ext; intros b Hb; rewrite (Sg b a); auto).
    unfold sum3. ring.
  - rewrite (sum3_ext (fun a => sum3 (fun b => g a b * h b a)) (fun a => kron a a)) by (intros; apply I; auto).
    rewrite (sum3_ext (fun a => sum3 (fun d => sum3 (fun b => h d b * g b a) * G a d c)) (fun a => G a c a)).
    2:{ intros a Ha. rewrite (sum3_ext _ (fun d => kron a d * G a d c)) by (intros d Hd; rewrite I' by auto; unfold kron; rewrite Nat.eqb_sym; reflexivity). rewrite sum3_kron by auto. apply Y; auto. }
    rewrite (sum3_ext (fun b => sum3 (fun d => sum3 (fun a => g b a * h a d) * G b c d)) (fun b => G b c b)).
    2:{ intros b Hb. rewrite (sum3_ext _ (fun d => kron b d * G b c d)) by (intros d Hd; rewrite I by auto; reflexivity). rewrite sum3_kron by auto. reflexivity. }
    unfold sum3, kron; cbn [Nat.eqb]. ring.
Qed.
Lemma injective : forall G, (forall a b c, (a < 3)%nat -> (b < 3)%nat -> (c < 3)%nat -> row h G a b c = 0) ->
  forall a c d, (a < 3)%nat -> (c < 3)%nat -> (d < 3)%nat -> G a c d = 0.
Proof.
  intros G H. assert (Y : forall a c d, (a < 3)%nat -> (c < 3)%nat -> (d < 3)%nat -> G a c d = G a d c) by (apply torsion_free; intros; rewrite !H; auto).
  assert (Z : forall c, (c < 3)%nat -> sum3 (fun d => G d c d) = 0).
  { intros c Hc. rewrite <- (trace_zero G Y c Hc). rewrite (sum3_ext _ (fun _ => 0)); [unfold sum3; ring|]. intros a Ha. rewrite (sum3_ext _ (fun _ => 0)); [unfold sum3; ring|]. intros b Hb. rewrite H by auto. ring. }
  assert (X : forall a c d, (a < 3)%nat -> (c < 3)%nat -> (d < 3)%nat -> sum3 (fun k => g a k * G k c d) = - 1 * sum3 (fun k => g d k * G k c a)).
  { apply exchange. intros a b c Ha Hb Hc. specialize (H a b c Ha Hb Hc). unfold row in H. rewrite Z in H by auto.
    rewrite (sum3_ext (fun d => h d b * G a d c) (fun d => h b d * G a c d)) in H by (intros k Hk; rewrite (Sh k b), (Y a k c); auto). lra. }
  assert (A : forall a c d, (a < 3)%nat -> (c < 3)%nat -> (d < 3)%nat -> sum3 (fun k => g a k * G k c d) = sum3 (fun k => g a k * G k d c)) by (intros; apply sum3_ext; intros k Hk; rewrite (Y k c d); auto).
  apply raise_zero. intros a c d Ha Hc Hd. pose proof (X a c d Ha Hc Hd) as X1. pose proof (A d c a Hd Hc Ha) as X2. pose proof (X d a c Hd Ha Hc) as X3. pose proof (A c a d Hc Ha Hd) as X4. pose proof (X c d a Hc Hd Ha) as X5. pose proof (A a d c Ha Hd Hc) as X6. lra.
Qed.
Lemma system_row : forall rhs G, solves_system s h rhs G -> forall a b c, (a < 3)%nat -> (b < 3)%nat -> (c < 3)%nat -> row h G a b c = rhs a b c / s.
Proof. intros rhs G H a b c Ha Hb Hc. specialize (H a b c Ha Hb Hc). rewrite c_lhs_row in H by auto. rewrite <- H. field. auto. Qed.
Lemma row_minus : forall G G' a b c, row h (fun d e f => G d e f - G' d e f) a b c = row h G a b c - row h G' a b c.
Proof. intros. unfold row, sum3. ring. Qed.
Lemma system_unique : forall rhs G G', solves_system s h rhs G -> solves_system s h rhs G' -> forall a b c, (a < 3)%nat -> (b < 3)%nat -> (c < 3)%nat -> G a b c = G' a b c.
Proof.
  intros rhs G G' H H' a b c Ha Hb Hc. apply Rminus_diag_uniq. apply (injective (fun d e f => G d e f - G' d e f)); auto.
  intros. rewrite row_minus, (system_row rhs G H), (system_row rhs G' H') by auto. ring.
Qed.
Lemma system_symmetric : forall rhs G, (forall a b c, (a < 3)%nat -> (b < 3)%nat -> (c < 3)%nat -> rhs a b c = rhs b a c) -> solves_system s h rhs G ->
  forall a b c, (a < 3)%nat -> (b < 3)%nat -> (c < 3)%nat -> G a b c = G a c b.
Proof. intros rhs G HR H. apply torsion_free. intros. rewrite !(system_row rhs G H) by auto. rewrite HR by auto. reflexivity. Qed.
(** a fluid at rest with a constant pressure: the divergence of sqrtG h^ac and the symbols cancel *)
Lemma system_balance : forall rhs G, (forall a b c, (a < 3)%nat -> (b < 3)%nat -> (c < 3)%nat -> rhs a b c = rhs b a c) -> solves_system s h rhs G ->
  forall a, (a < 3)%nat -> sum3 (fun c => rhs a c c) + s * sum3 (fun c => sum3 (fun d => G a c d * h c d)) = 0.
Proof.
  intros rhs G HR H a Ha. pose proof (system_symmetric rhs G HR H) as Y.
  assert (E : sum3 (fun c => rhs a c c) = s * sum3 (fun c => row h G a c c)).
  { rewrite sum3_scal. apply sum3_ext. intros c Hc. rewrite (system_row rhs G H) by auto. field. auto. }
  rewrite E. rewrite <- Rmult_plus_distr_l. replace (_ + _) with 0; [ring|]. symmetry. unfold row.
  transitivity (sum3 (fun c => sum3 (fun d => h a c * (G d c d - G d d c))) + sum3 (fun c => sum3 (fun d => (G a c d - G a d c) * h c d)) + sum3 (fun c => sum3 (fun d => G a d c * (h c d - h d c)))); [unfold sum3; ring|].
  rewrite (sum3_ext _ (fun _ => 0)). 2:{ intros c Hc. rewrite (sum3_ext _ (fun _ => 0)); [unfold sum3; ring|]. intros d Hd. rewrite (Y d c d) by auto. ring. }
  rewrite (sum3_ext (fun c => sum3 (fun d => (G a c d - G a d c) * h c d)) (fun _ => 0)). 2:{ intros c Hc. rewrite (sum3_ext _ (fun _ => 0)); [unfold sum3; ring|]. intros d Hd. rewrite (Y a c d) by auto. ring. }
  rewrite (sum3_ext (fun c => sum3 (fun d => G a d c * (h c d - h d c))) (fun _ => 0)). 2:{ intros c Hc. rewrite (sum3_ext _ (fun _ => 0)); [unfold sum3; ring|]. intros d Hd. rewrite (Sh c d) by auto. ring. }
  unfold sum3; ring.
Qed.
End System.

(** ** Exact derivatives: the solution is the Levi-Civita connection *)
Ltac idx x := destruct x as [|[|[|x]]]; try lia.
Section Exact.
Variables (s : R) (g h : nat -> nat -> R) (dg : nat -> nat -> nat -> R).
Hypotheses (Hs : s <> 0) (Sg : forall a b, (a < 3)%nat -> (b < 3)%nat -> g a b = g b a) (Sh : forall a b, (a < 3)%nat -> (b < 3)%nat -> h a b = h b a)
  (I : forall a b, (a < 3)%nat -> (b < 3)%nat -> sum3 (fun k => g a k * h k b) = kron a b)
  (Sd : forall a b c, (a < 3)%nat -> (b < 3)%nat -> (c < 3)%nat -> dg a b c = dg b a c).
Definition lc (a b c : nat) : R := 1 / 2 * sum3 (fun d => h a d * (dg d b c + dg d c b - dg b c d)).
Lemma lc_row : forall a b c, (a < 3)%nat -> (b < 3)%nat -> (c < 3)%nat ->
  row h lc a b c = h a b * (1 / 2 * sum3 (fun e => sum3 (fun f => h e f * dg e f c))) - sum3 (fun e => sum3 (fun f => h a e * h b f * dg e f c)).
Proof.
  intros a b c Ha Hb Hc. unfold row, lc.
  pose proof (Sh 1 0 ltac:(lia) ltac:(lia)) as S1. pose proof (Sh 2 0 ltac:(lia) ltac:(lia)) as S2. pose proof (Sh 2 1 ltac:(lia) ltac:(lia)) as S3.
  assert (D1 : forall k, (k < 3)%nat -> dg 1%nat 0%nat k = dg 0%nat 1%nat k) by (intros; apply Sd; lia).
  assert (D2 : forall k, (k < 3)%nat -> dg 2%nat 0%nat k = dg 0%nat 2%nat k) by (intros; apply Sd; lia).
  assert (D3 : forall k, (k < 3)%nat -> dg 2%nat 1%nat k = dg 1%nat 2%nat k) by (intros; apply Sd; lia).
  idx a; idx b; idx c; unfold sum3; rewrite ?S1, ?S2, ?S3, !D1, !D2, !D3 by lia; field.
Qed.
End Exact.
Lemma derive_det9 : forall (f00 f01 f02 f10 f11 f12 f20 f21 f22 : R -> R) t0 d00 d01 d02 d10 d11 d12 d20 d21 d22, is_derive f00 t0 d00 -> is_derive f01 t0 d01 -> is_derive f02 t0 d02 -> is_derive f10 t0 d10 -> is_derive f11 t0 d11 -> is_derive f12 t0 d12 -> is_derive f20 t0 d20 -> is_derive f21 t0 d21 -> is_derive f22 t0 d22 ->
  is_derive (fun t => f00 t * (f11 t * f22 t - f12 t * f21 t) - f01 t * (f10 t * f22 t - f12 t * f20 t) + f02 t * (f10 t * f21 t - f11 t * f20 t)) t0
    (d00 * (f11 t0 * f22 t0 - f12 t0 * f21 t0) + f00 t0 * (d11 * f22 t0 + f11 t0 * d22 - d12 * f21 t0 - f12 t0 * d21) - d01 * (f10 t0 * f22 t0 - f12 t0 * f20 t0) - f01 t0 * (d10 * f22 t0 + f10 t0 * d22 - d12 * f20 t0 - f12 t0 * d20) + d02 * (f10 t0 * f21 t0 - f11 t0 * f20 t0) + f02 t0 * (d10 * f21 t0 + f10 t0 * d21 - d11 * f20 t0 - f11 t0 * d20)).
Proof.
  intros. auto_derive; [repeat split; eexists; eassumption|].
  repeat match goal with H : is_derive ?f t0 ?d |- _ => apply is_derive_unique in H; change (Derive (fun x => f x) t0 = d) in H; rewrite ?H end. ring.
Qed.
Section Curve.
(** g, h, s along a curve *)
Variables (g h : R -> nat -> nat -> R) (s : R -> R) (dg dsh : nat -> nat -> R) (t0 : R).
Hypotheses (Sg : forall t a b, (a < 3)%nat -> (b < 3)%nat -> g t a b = g t b a) (Sh : forall t a b, (a < 3)%nat -> (b < 3)%nat -> h t a b = h t b a)
  (I : forall t a b, (a < 3)%nat -> (b < 3)%nat -> sum3 (fun k => g t a k * h t k b) = kron a b)
  (Ps : forall t, 0 < s t) (Ds : forall t, s t ^ 2 = det3n (g t))
  (Dg : forall a b, (a < 3)%nat -> (b < 3)%nat -> is_derive (fun t => g t a b) t0 (dg a b))
  (Dsh : forall a b, (a < 3)%nat -> (b < 3)%nat -> is_derive (fun t => s t * h t a b) t0 (dsh a b)).
Definition cof (m : nat -> nat -> R) (a b : nat) : R :=
  let p k := match k with 0 => 1 | 1 => 2 | _ => 0 end%nat in let q k := match k with 0 => 2 | 1 => 0 | _ => 1 end%nat in
  m (p a) (p b) * m (q a) (q b) - m (p a) (q b) * m (q a) (p b).
Lemma cof_g : forall t a b, (a < 3)%nat -> (b < 3)%nat -> sum3 (fun k => cof (g t) k a * g t k b) = det3n (g t) * kron a b.
Proof. intros t a b Ha Hb. idx a; idx b; unfold sum3, cof, det3n, kron; cbn [Nat.eqb]; ring. Qed.
Lemma cof_h : forall t a b, (a < 3)%nat -> (b < 3)%nat -> cof (g t) b a = det3n (g t) * h t a b.
Proof.
  intros t a b Ha Hb. rewrite <- (sum3_kron b (fun k => cof (g t) k a)) by auto. rewrite (sum3_ext _ (fun k => sum3 (fun m => g t k m * h t m b) * cof (g t) k a)) by (intros; rewrite I by auto; unfold kron; rewrite Nat.eqb_sym; reflexivity).
  transitivity (sum3 (fun m => sum3 (fun k => cof (g t) k a * g t k m) * h t m b)); [unfold sum3; ring|].
  rewrite (sum3_ext _ (fun m => kron a m * (det3n (g t) * h t m b))) by (intros; rewrite cof_g by auto; ring). rewrite sum3_kron by auto. reflexivity.
Qed.
Lemma derive_det : is_derive (fun t => det3n (g t)) t0 (sum3 (fun a => sum3 (fun b => cof (g t0) a b * dg a b))).
Proof.
  unfold det3n. evar_last.
  - apply (derive_det9 (fun t => g t 0%nat 0%nat) (fun t => g t 0%nat 1%nat) (fun t => g t 0%nat 2%nat) (fun t => g t 1%nat 0%nat) (fun t => g t 1%nat 1%nat) (fun t => g t 1%nat 2%nat) (fun t => g t 2%nat 0%nat) (fun t => g t 2%nat 1%nat) (fun t => g t 2%nat 2%nat)); apply Dg; lia.
  - cbv beta. unfold sum3, cof; ring.
Qed.
Lemma derive_s : is_derive s t0 (s t0 / 2 * sum3 (fun a => sum3 (fun b => h t0 a b * dg a b))).
Proof.
  apply (is_derive_ext (fun t => sqrt (det3n (g t)))). { intros t. rewrite <- Ds, <- Rsqr_pow2. apply sqrt_Rsqr. apply Rlt_le, Ps. }
  assert (P : 0 < det3n (g t0)) by (rewrite <- Ds; apply pow_lt, Ps).
  pose proof derive_det as DD.
  assert (E : sqrt (det3n (g t0)) = s t0) by (rewrite <- Ds, <- Rsqr_pow2; apply sqrt_Rsqr; apply Rlt_le, Ps).
  evar_last. { apply is_derive_comp; [|exact DD]. apply is_derive_Reals. apply derivable_pt_lim_sqrt. exact P. }
  unfold scal; cbn. unfold mult; cbn. rewrite E.
  assert (Q : sum3 (fun a => sum3 (fun b => cof (g t0) a b * dg a b)) = s t0 ^ 2 * sum3 (fun a => sum3 (fun b => h t0 a b * dg a b))).
  { rewrite sum3_scal. apply sum3_ext. intros a Ha. rewrite sum3_scal. apply sum3_ext. intros b Hb. rewrite (cof_h t0 b a) by auto. rewrite Ds, (Sh t0 b a) by auto. ring. }
  rewrite Q. pose proof (Ps t0). field. lra.
Qed.
Lemma derive_h : forall a b, (a < 3)%nat -> (b < 3)%nat -> is_derive (fun t => h t a b) t0 ((dsh a b - s t0 / 2 * sum3 (fun e => sum3 (fun f => h t0 e f * dg e f)) * h t0 a b) / s t0).
Proof.
  intros a b Ha Hb. pose proof (Ps t0) as P. apply (is_derive_ext (fun t => s t * h t a b / s t)). { intros t. pose proof (Ps t). change (s t * h t a b / s t = h t a b). field. lra. }
  pose proof (is_derive_div (fun t => s t * h t a b) s t0 _ _ (Dsh a b Ha Hb) derive_s ltac:(lra)) as D. evar_last; [exact D|]. cbv beta. match goal with |- ?u = ?v => change (@eq R u v) end. field. lra.
Qed.
Lemma derive_h_value : forall a b, (a < 3)%nat -> (b < 3)%nat -> (dsh a b - s t0 / 2 * sum3 (fun e => sum3 (fun f => h t0 e f * dg e f)) * h t0 a b) / s t0 = - sum3 (fun e => sum3 (fun f => h t0 a e * h t0 b f * dg e f)).
Proof.
  set (dh := fun a b => (dsh a b - s t0 / 2 * sum3 (fun e => sum3 (fun f => h t0 e f * dg e f)) * h t0 a b) / s t0).
  assert (K : forall a b, (a < 3)%nat -> (b < 3)%nat -> sum3 (fun k => dg a k * h t0 k b + g t0 a k * dh k b) = 0).
  { intros a b Ha Hb. assert (D : is_derive (fun t => sum3 (fun k => g t a k * h t k b)) t0 (sum3 (fun k => dg a k * h t0 k b + g t0 a k * dh k b))).
    { unfold sum3. assert (X : forall k, (k < 3)%nat -> is_derive (fun t => g t a k * h t k b) t0 (dg a k * h t0 k b + g t0 a k * dh k b)).
      { intros k Hk. exact (is_derive_mult (fun t => g t a k) (fun t => h t k b) t0 _ _ (Dg a k Ha Hk) (derive_h k b Hk Hb) Rmult_comm). }
      apply (is_derive_plus (fun t => g t a 0%nat * h t 0%nat b + g t a 1%nat * h t 1%nat b) (fun t => g t a 2%nat * h t 2%nat b)); [|apply X; lia].
      apply (is_derive_plus (fun t => g t a 0%nat * h t 0%nat b) (fun t => g t a 1%nat * h t 1%nat b)); apply X; lia. }
    assert (Z : is_derive (fun t => sum3 (fun k => g t a k * h t k b)) t0 0).
    { eapply is_derive_ext; [intros t; symmetry; apply I; auto|]. apply (is_derive_const (K:=R_AbsRing) (V:=R_NormedModule)). }
    pose proof (is_derive_unique _ _ _ D) as E1. pose proof (is_derive_unique _ _ _ Z) as E2. rewrite <- E1. exact E2. }
  intros a b Ha Hb. change (dh a b = - sum3 (fun e => sum3 (fun f => h t0 a e * h t0 b f * dg e f))).
  rewrite (expand_h (g t0) (h t0) (Sg t0) (Sh t0) (I t0) (fun k => dh k b)) by auto.
  transitivity (sum3 (fun e => h t0 a e * - sum3 (fun f => dg e f * h t0 f b))).
  - apply sum3_ext. intros e He. f_equal. specialize (K e b He Hb). unfold sum3 in *. lra.
  - transitivity (- sum3 (fun e => sum3 (fun f => h t0 a e * h t0 f b * dg e f))); [unfold sum3; ring|]. f_equal. apply sum3_ext; intros e He; apply sum3_ext; intros f Hf. rewrite (Sh t0 f b) by auto. reflexivity.
Qed.
Lemma derive_sh : forall a b, (a < 3)%nat -> (b < 3)%nat ->
  dsh a b = s t0 * (h t0 a b * (1 / 2 * sum3 (fun e => sum3 (fun f => h t0 e f * dg e f))) - sum3 (fun e => sum3 (fun f => h t0 a e * h t0 b f * dg e f))).
Proof.
  intros a b Ha Hb. pose proof (derive_h_value a b Ha Hb) as D. pose proof (Ps t0). 
  replace (dsh a b) with (((dsh a b - s t0 / 2 * sum3 (fun e => sum3 (fun f => h t0 e f * dg e f)) * h t0 a b) / s t0) * s t0 + s t0 / 2 * sum3 (fun e => sum3 (fun f => h t0 e f * dg e f)) * h t0 a b) by (field; lra).
  rewrite D. field.
Qed.
End Curve.
Lemma shift_0 : forall x c, shift x c 0 = x.
Proof. intros [[x y] z] c. destruct c as [|[|c]]; unfold shift, vx, vy, vz; cbn [fst snd]; rewrite Rplus_0_r; reflexivity. Qed.
Lemma system_exact : forall (g h : vec -> nat -> nat -> R) (s : vec -> R) x dg rhs G,
  (forall y, symmetric3 (g y) /\ symmetric3 (h y) /\ inverse3n (g y) (h y) /\ 0 < s y /\ s y ^ 2 = det3n (g y)) ->
  (forall a b c, (a < 3)%nat -> (b < 3)%nat -> (c < 3)%nat -> is_derive (fun t => g (shift x c t) a b) 0 (dg a b c)) ->
  (forall a b c, (a < 3)%nat -> (b < 3)%nat -> (c < 3)%nat -> is_derive (fun t => s (shift x c t) * h (shift x c t) a b) 0 (rhs a b c)) ->
  solves_system (s x) (h x) rhs G <-> levi_civita3 (h x) dg G.
Proof.
  intros g h s x dg rhs G M Dg Dsh.
  assert (Sg : forall y a b, (a < 3)%nat -> (b < 3)%nat -> g y a b = g y b a).
  { intros y a b Ha Hb. destruct (M y) as (S & _). unfold symmetric3 in S. rewrite below3_all in S. specialize (S a Ha). rewrite below3_all in S. auto. }
  assert (Sh : forall y a b, (a < 3)%nat -> (b < 3)%nat -> h y a b = h y b a).
  { intros y a b Ha Hb. destruct (M y) as (_ & S & _). unfold symmetric3 in S. rewrite below3_all in S. specialize (S a Ha). rewrite below3_all in S. auto. }
  assert (I : forall y a b, (a < 3)%nat -> (b < 3)%nat -> sum3 (fun k => g y a k * h y k b) = kron a b).
  { intros y a b Ha Hb. destruct (M y) as (_ & _ & S & _). unfold inverse3n in S. rewrite below3_all in S. specialize (S a Ha). rewrite below3_all in S. apply S; auto. }
  assert (Ps : 0 < s x) by apply M. assert (Hs : s x <> 0) by lra.
  assert (Sd : forall a b c, (a < 3)%nat -> (b < 3)%nat -> (c < 3)%nat -> dg a b c = dg b a c).
  { intros a b c Ha Hb Hc. rewrite <- (is_derive_unique _ _ _ (Dg a b c Ha Hb Hc)), <- (is_derive_unique _ _ _ (Dg b a c Hb Ha Hc)). apply Derive_ext. intros t. apply Sg; auto. }
  assert (L : solves_system (s x) (h x) rhs (lc (h x) dg)).
  { intros a b c Ha Hb Hc. rewrite c_lhs_row by auto. rewrite lc_row by auto.
    pose proof (derive_sh (fun t => g (shift x c t)) (fun t => h (shift x c t)) (fun t => s (shift x c t)) (fun a b => dg a b c) (fun a b => rhs a b c) 0
      ltac:(intros; apply Sg; auto) ltac:(intros; apply Sh; auto) ltac:(intros; apply I; auto) ltac:(intros; apply M) ltac:(intros; apply M)
      ltac:(intros; apply Dg; auto) ltac:(intros; apply Dsh; auto) a b Ha Hb) as E. cbv beta in E. rewrite shift_0 in E. symmetry. exact E. }
  assert (U : levi_civita3 (h x) dg G <-> (forall a b c, (a < 3)%nat -> (b < 3)%nat -> (c < 3)%nat -> G a b c = lc (h x) dg a b c)).
  { unfold levi_civita3. rewrite below3_all. split.
    - intros H a b c Ha Hb Hc. specialize (H a Ha). rewrite below3_all in H. specialize (H b Hb). rewrite below3_all in H. specialize (H c Hc). exact H.
    - intros H a Ha. rewrite below3_all. intros b Hb. rewrite below3_all. intros c Hc. apply H; auto. }
  rewrite U. split.
  - intros H. apply (system_unique (s x) (g x) (h x) Hs (Sg x) (Sh x) (I x) rhs); auto.
  - intros H a b c Ha Hb Hc. rewrite <- (L a b c Ha Hb Hc). apply sum3_ext. intros d Hd. apply sum3_ext. intros e He. apply sum3_ext. intros f Hf. rewrite H; auto.
Qed.
(** flat space seen in a curved coordinate: g = exp(2 x1) times the unit matrix *)
Definition ex_g (y : vec) (a b : nat) : R := exp (2 * vx y) * kron a b.
Definition ex_h (y : vec) (a b : nat) : R := exp (- (2 * vx y)) * kron a b.
Definition ex_s (y : vec) : R := exp (3 * vx y).
Definition ex_dg (x : vec) (a b c : nat) : R := if Nat.eqb c 0 then 2 * exp (2 * vx x) * kron a b else 0.
Definition ex_rhs (x : vec) (a b c : nat) : R := if Nat.eqb c 0 then exp (vx x) * kron a b else 0.
Lemma ex_system : forall x,
  (forall y, symmetric3 (ex_g y) /\ symmetric3 (ex_h y) /\ inverse3n (ex_g y) (ex_h y) /\ 0 < ex_s y /\ ex_s y ^ 2 = det3n (ex_g y)) /\
  (forall a b c, (a < 3)%nat -> (b < 3)%nat -> (c < 3)%nat -> is_derive (fun t => ex_g (shift x c t) a b) 0 (ex_dg x a b c)) /\
  (forall a b c, (a < 3)%nat -> (b < 3)%nat -> (c < 3)%nat -> is_derive (fun t => ex_s (shift x c t) * ex_h (shift x c t) a b) 0 (ex_rhs x a b c)).
Proof.
  intros [[x y] z]. split; [|split].
  - intros [[p q] r]. unfold ex_g, ex_h, ex_s, vx, vy, vz; cbn [fst snd]. repeat split; unfold kron; cbn [Nat.eqb]; try ring; try apply exp_pos.
    all: try (rewrite exp_Ropp; field; apply not_eq_sym, Rlt_not_eq, exp_pos).
    unfold det3n; cbn [Nat.eqb]. rewrite !Rmult_0_r, !Rmult_1_r. replace (exp (3 * p) ^ 2) with (exp (3 * p) * exp (3 * p)) by ring. rewrite <- exp_plus.
    rewrite Rminus_0_r. rewrite ?Rmult_0_l, ?Rmult_0_r, ?Rminus_0_r, ?Rplus_0_r. rewrite <- !exp_plus. f_equal. ring.
  - intros a b c Ha Hb Hc. idx c; unfold ex_g, ex_dg, shift, vx, vy, vz; cbn [fst snd Nat.eqb]; auto_derive; auto; try ring. rewrite Rplus_0_r. ring.
  - intros a b c Ha Hb Hc. idx c; unfold ex_s, ex_h, ex_rhs, shift, vx, vy, vz; cbn [fst snd Nat.eqb]; auto_derive; auto; try ring.
    rewrite !Rplus_0_r. replace (exp x) with (exp (3 * x) * exp (- (2 * x))) by (rewrite <- exp_plus; f_equal; ring). ring.
Qed.
