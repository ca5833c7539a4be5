(** Proofs for C17 and C18. *)
From Coq Require Import ZArith Reals List Bool String Ascii Floats.SpecFloat Lra Lia.
From Flocq Require Import Core.Raux Core.Defs Core.Generic_fmt Core.Round_NE.
From Verif Require Import ExprModel ExprSpec.
Local Open Scope R_scope.

(** * eval_expr *)

Lemma lower_cases : forall a, (lower_ascii a = "p"%char <-> a = "p"%char \/ a = "P"%char)
  /\ (lower_ascii a = "i"%char <-> a = "i"%char \/ a = "I"%char).
Proof.
  intros [[] [] [] [] [] [] [] []]; cbv; split; split; intro H; try discriminate; try (left; reflexivity);
    try (right; reflexivity); destruct H as [H|H]; try discriminate; reflexivity.
Qed.

Lemma lower_pi : forall s, lower s = "pi"%string <-> (s = "pi" \/ s = "Pi" \/ s = "pI" \/ s = "PI")%string.
Proof.
  intros s. split.
  - destruct s as [|a [|b [|c s]]]; cbn; intro H; try discriminate.
    injection H as Ha Hb. destruct (lower_cases a) as [[Pa _] _]. destruct (lower_cases b) as [_ [Pb _]].
    destruct (Pa Ha) as [-> | ->], (Pb Hb) as [-> | ->]; auto.
  - intros [-> | [-> | [-> | ->]]]; reflexivity.
Qed.

Lemma name_value : forall s x, eval (Name s) = Val x <-> ((s = "pi" \/ s = "Pi" \/ s = "pI" \/ s = "PI")%string /\ x = PI).
Proof.
  intros s x. cbn. unfold math_constant. destruct (String.eqb_spec (lower s) "pi") as [E|E].
  - apply lower_pi in E. split; [intros [= <-]; auto | intros [_ ->]; reflexivity].
  - split; [discriminate|]. intros [H _]. apply lower_pi in H. contradiction.
Qed.

Lemma eval_denotes : forall e x, eval e = Val x -> denotes e x.
Proof.
  induction e as [c|s|l IHl op r IHr|op e IH|]; intros x H.
  - destruct c; cbn in H; [injection H as <-; constructor | discriminate].
  - apply name_value in H. destruct H as [H ->]. constructor; exact H.
  - cbn in H. destruct op; cbn in H; try discriminate;
      (destruct (eval l) as [a|]; [|discriminate]; destruct (eval r) as [b|]; [|discriminate]).
    + injection H as <-. constructor; auto.
    + injection H as <-. constructor; auto.
    + injection H as <-. constructor; auto.
    + destruct (Req_EM_T b 0); [discriminate|]. injection H as <-. constructor; auto.
  - cbn in H. destruct op; cbn in H; [|discriminate]. destruct (eval e) as [a|]; [|discriminate].
    injection H as <-. constructor; auto.
  - discriminate.
Qed.

Lemma denotes_eval : forall e x, denotes e x -> eval e = Val x.
Proof.
  induction 1 as [x|s Hs|a b x y _ IHa _ IHb|a b x y _ IHa _ IHb|a b x y _ IHa _ IHb|a b x y _ IHa _ IHb Hy|a x _ IH];
    try (cbn; rewrite ?IHa, ?IHb, ?IH; reflexivity).
  - apply name_value. auto.
  - cbn. rewrite IHa, IHb. destruct (Req_EM_T y 0); [contradiction|reflexivity].
Qed.

Lemma eval_value : forall e x, eval e = Val x <-> denotes e x.
Proof. split; [apply eval_denotes | apply denotes_eval]. Qed.

Lemma foreign_no_value : forall e, foreign e -> forall x, ~ denotes e x.
Proof. induction 1 as [|s [H1 [H2 [H3 H4]]]| | | |? ? ? ? IH|? ? ? ? IH|? ? ? IH]; intros x D; inversion D; subst; try tauto; try (eapply IH; eassumption). Qed.

Lemma div_no_value : forall e, divides_by_zero e -> forall x, ~ denotes e x.
Proof.
  induction 1 as [a b Hb|? ? ? ? IH|? ? ? ? IH|? ? ? IH]; intros x D; inversion D; subst; try (eapply IH; eassumption).
  apply denotes_eval in Hb. match goal with H : denotes b ?y |- _ => apply denotes_eval in H; rewrite Hb in H; injection H as <- end. auto.
Qed.

Lemma raise_reason : forall e k, eval e = Raise k -> (k = ZeroDivErr /\ divides_by_zero e) \/ (k <> ZeroDivErr /\ foreign e).
Proof.
  induction e as [c|s|l IHl op r IHr|op e IH|]; intros k H.
  - destruct c; cbn in H; [discriminate|]. injection H as <-. right. split; [discriminate|constructor].
  - right. cbn in H. unfold math_constant in H. destruct (String.eqb_spec (lower s) "pi") as [E|E]; [discriminate|].
    injection H as <-. split; [discriminate|]. constructor.
    repeat split; intro Hs; apply E; apply lower_pi; auto.
  - cbn in H. destruct op; cbn in H;
      try (destruct (eval l) as [a|ka];
        [destruct (eval r) as [b|kb] eqn:Er;
          [ try discriminate | injection H as ->; destruct (IHr k eq_refl) as [[-> D]|[N D]]; [left; split; [reflexivity|apply z_right; exact D] | right; split; [exact N| apply x_right; exact D]] ]
        | injection H as ->; destruct (IHl k eq_refl) as [[-> D]|[N D]]; [left; split; [reflexivity|apply z_left; exact D] | right; split; [exact N| apply x_left; exact D]] ]).
    + destruct (Req_EM_T b 0) as [->|]; [|discriminate]. injection H as <-. left. split; [reflexivity|].
      apply z_here. apply eval_denotes. exact Er.
    + injection H as <-. right. split; [discriminate|apply x_binop].
  - cbn in H. destruct op; cbn in H.
    + destruct (eval e) as [a|ka]; [discriminate|]. injection H as ->. destruct (IH k eq_refl) as [[-> D]|[N D]];
        [left; split; [reflexivity|apply z_operand; exact D] | right; split; [exact N| apply x_operand; exact D]].
    + injection H as <-. right. split; [discriminate|apply x_unop].
  - injection H as <-. right. split; [discriminate|constructor].
Qed.

Lemma eval_raises : forall e, (exists k, eval e = Raise k) <-> (foreign e \/ divides_by_zero e).
Proof.
  intros e. split.
  - intros [k H]. destruct (raise_reason _ _ H) as [[_ D]|[_ D]]; auto.
  - intros H. destruct (eval e) as [x|k] eqn:E; [|eauto]. apply eval_value in E.
    destruct H as [H|H]; [destruct (foreign_no_value _ H _ E) | destruct (div_no_value _ H _ E)].
Qed.

(** * angle24 *)

Lemma quantum_interval : quantum = interval.
Proof. unfold quantum, interval. replace (2 ^ 24)%Z with 16777216%Z by reflexivity. reflexivity. Qed.
Lemma interval_pos : 0 < interval.
Proof. unfold interval. replace (2 ^ 24)%Z with 16777216%Z by reflexivity. pose proof PI_RGT_0. lra. Qed.
Lemma interval_pi : IZR (2 ^ 23) * interval = PI.
Proof. unfold interval. replace (2 ^ 24)%Z with 16777216%Z by reflexivity. replace (2 ^ 23)%Z with 8388608%Z by reflexivity. lra. Qed.

Lemma land_mask : forall u, Z.land u (2 ^ 24 - 1) = (u mod 2 ^ 24)%Z.
Proof. intros u. replace (2 ^ 24 - 1)%Z with (Z.ones 24) by reflexivity. apply Z.land_ones. lia. Qed.
Lemma mask_range : forall u, (0 <= Z.land u (2 ^ 24 - 1) < 2 ^ 24)%Z.
Proof. intros u. rewrite land_mask. apply Z.mod_pos_bound. lia. Qed.

Lemma decode_range : forall u, - PI <= decode u < PI.
Proof.
  intros u. unfold decode. pose proof (mask_range u) as [L U]. pose proof interval_pos as P. rewrite <- interval_pi.
  set (m := Z.land u (2 ^ 24 - 1)) in *. rewrite minus_IZR.
  assert (0 <= IZR m) by (apply IZR_le; exact L).
  assert (IZR m < 2 * IZR (2 ^ 23)) by (rewrite <- mult_IZR; apply IZR_lt; exact U).
  split.
  - replace (- (IZR (2 ^ 23) * interval)) with ((0 - IZR (2 ^ 23)) * interval) by ring. apply Rmult_le_compat_r; lra.
  - apply Rmult_lt_compat_r; lra.
Qed.

(** the loops *)
Lemma wrap_down_inside : forall fuel x, x < PI -> wrap_down fuel x = Some x.
Proof. intros [|f] x H; cbn; destruct (Rle_dec PI x); try reflexivity; lra. Qed.
Lemma wrap_up_inside : forall fuel x, - PI <= x -> wrap_up fuel x = Some x.
Proof. intros [|f] x H; cbn; destruct (Rlt_dec x (- PI)); try reflexivity; lra. Qed.

Lemma wrap_down_sound : forall fuel x y, wrap_down fuel x = Some y -> y < PI /\ (- PI <= x -> - PI <= y) /\ exists k : Z, y = x - 2 * PI * IZR k.
Proof.
  induction fuel as [|f IH]; intros x y; cbn; destruct (Rle_dec PI x) as [L|L]; intros E; try discriminate.
  - injection E as <-. split; [lra|]. split; [auto|]. exists 0%Z. lra.
  - destruct (IH _ _ E) as [A [B [k K]]]. split; [exact A|]. split; [intros _; apply B; lra|]. exists (k + 1)%Z. rewrite plus_IZR. lra.
  - injection E as <-. split; [lra|]. split; [auto|]. exists 0%Z. lra.
Qed.
Lemma wrap_up_sound : forall fuel x y, wrap_up fuel x = Some y -> - PI <= y /\ (x < PI -> y < PI) /\ exists k : Z, y = x + 2 * PI * IZR k.
Proof.
  induction fuel as [|f IH]; intros x y; cbn; destruct (Rlt_dec x (- PI)) as [L|L]; intros E; try discriminate.
  - injection E as <-. split; [lra|]. split; [auto|]. exists 0%Z. lra.
  - destruct (IH _ _ E) as [A [B [k K]]]. split; [exact A|]. split; [intros _; apply B; lra|]. exists (k + 1)%Z. rewrite plus_IZR. lra.
  - injection E as <-. split; [lra|]. split; [auto|]. exists 0%Z. lra.
Qed.
Lemma wrap_down_complete : forall n x, x < PI + 2 * PI * INR n -> exists y, wrap_down n x = Some y.
Proof.
  induction n as [|n IH]; intros x H.
  - exists x. apply wrap_down_inside. cbn in H. lra.
  - cbn. destruct (Rle_dec PI x); [|eauto]. apply IH. rewrite S_INR in H. lra.
Qed.
Lemma wrap_up_complete : forall n x, - PI - 2 * PI * INR n <= x -> exists y, wrap_up n x = Some y.
Proof.
  induction n as [|n IH]; intros x H.
  - exists x. apply wrap_up_inside. cbn in H. lra.
  - cbn. destruct (Rlt_dec x (- PI)); [|eauto]. apply IH. rewrite S_INR in H. lra.
Qed.
Lemma wrap_down_mono : forall n m x y, wrap_down n x = Some y -> (n <= m)%nat -> wrap_down m x = Some y.
Proof.
  induction n as [|n IH]; intros m x y E L.
  - cbn in E. destruct (Rle_dec PI x); [discriminate|]. injection E as <-. apply wrap_down_inside. lra.
  - destruct m as [|m]; [lia|]. cbn in *. destruct (Rle_dec PI x); [|exact E]. apply IH; [exact E|lia].
Qed.
Lemma wrap_up_mono : forall n m x y, wrap_up n x = Some y -> (n <= m)%nat -> wrap_up m x = Some y.
Proof.
  induction n as [|n IH]; intros m x y E L.
  - cbn in E. destruct (Rlt_dec x (- PI)); [discriminate|]. injection E as <-. apply wrap_up_inside. lra.
  - destruct m as [|m]; [lia|]. cbn in *. destruct (Rlt_dec x (- PI)); [|exact E]. apply IH; [exact E|lia].
Qed.

Lemma INR_above : forall r, exists n, r < INR n.
Proof.
  intros r. exists (Z.to_nat (up r)). destruct (archimed r) as [A _]. rewrite INR_IZR_INZ.
  destruct (Z.le_gt_cases 0 (up r)) as [H|H].
  - rewrite Z2Nat.id by exact H. lra.
  - apply Rlt_le_trans with (IZR (up r)); [lra|]. apply IZR_le. lia.
Qed.

Lemma encode_terminates : forall x, exists fuel n, forall more, (fuel <= more)%nat -> encode more x = Some n.
Proof.
  intros x. pose proof PI_RGT_0 as P.
  destruct (INR_above (Rabs x / (2 * PI))) as [n Hn].
  assert (Hx : Rabs x < 2 * PI * INR n).
  { apply Rmult_lt_reg_r with (/ (2 * PI)); [apply Rinv_0_lt_compat; lra|].
    replace (2 * PI * INR n * / (2 * PI)) with (INR n) by (field; lra). exact Hn. }
  assert (B := Rle_abs x). assert (B' := Rle_abs (- x)). rewrite Rabs_Ropp in B'.
  destruct (wrap_down_complete n x) as [y Hy]; [lra|].
  assert (Hlow : - PI - 2 * PI * INR n <= y).
  { destruct (Rlt_dec x PI) as [I|I].
    - rewrite (wrap_down_inside n x I) in Hy. injection Hy as <-. lra.
    - destruct (wrap_down_sound _ _ _ Hy) as [_ [K _]]. assert (0 <= INR n) by apply pos_INR.
      assert (0 <= 2 * PI * INR n) by (apply Rmult_le_pos; lra). specialize (K ltac:(lra)). lra. }
  destruct (wrap_up_complete n y Hlow) as [z Hz].
  exists n, (to24 z). intros m L. unfold encode. rewrite (wrap_down_mono _ _ _ _ Hy L), (wrap_up_mono _ _ _ _ Hz L). reflexivity.
Qed.

Lemma encode_range : forall fuel x n, encode fuel x = Some n -> (0 <= n < 2 ^ 24)%Z.
Proof.
  intros fuel x n. unfold encode. destruct (wrap_down fuel x); [|discriminate]. destruct (wrap_up fuel r); [|discriminate].
  intros [= <-]. apply mask_range.
Qed.

Lemma to24_close : forall z, - PI <= z < PI -> close_mod_2pi (quantum / 2) (decode (to24 z)) z.
Proof.
  intros z [L U]. rewrite quantum_interval. unfold decode, to24. pose proof interval_pos as P. pose proof interval_pi as PP.
  set (n := ZnearestE (z / interval)).
  assert (Hn : Rabs (z / interval - IZR n) <= /2) by apply Znearest_half.
  assert (Hq : z / interval * interval = z) by (field; lra).
  assert (Habs : Rabs (IZR n * interval - z) <= interval / 2).
  { replace (IZR n * interval - z) with (- (z / interval - IZR n) * interval) by (transitivity (IZR n * interval - z / interval * interval); [ring | rewrite Hq; reflexivity]).
    rewrite Rabs_mult, Rabs_Ropp, (Rabs_right interval) by lra. apply Rle_trans with (/2 * interval); [apply Rmult_le_compat_r; lra | lra]. }
  assert (Hb : (- 2 ^ 23 <= n <= 2 ^ 23)%Z).
  { split; unfold n.
    - apply Z.le_trans with (ZnearestE (IZR (- 2 ^ 23))); [rewrite Znearest_imp with (n := (- 2 ^ 23)%Z); [lia| unfold Rminus; rewrite Rplus_opp_r, Rabs_R0; lra] | ].
      apply (@Zrnd_le ZnearestE (valid_rnd_N _)). apply Rmult_le_reg_r with interval; [exact P|]. rewrite Hq, opp_IZR. lra.
    - apply Z.le_trans with (ZnearestE (IZR (2 ^ 23))); [ | rewrite Znearest_imp with (n := (2 ^ 23)%Z); [lia| unfold Rminus; rewrite Rplus_opp_r, Rabs_R0; lra]].
      apply (@Zrnd_le ZnearestE (valid_rnd_N _)). apply Rmult_le_reg_r with interval; [exact P|]. rewrite Hq. lra. }
  rewrite !land_mask. rewrite Zmod_mod.
  destruct (Z.eq_dec n (2 ^ 23)) as [E|E].
  - exists (-1)%Z. rewrite E. replace ((2 ^ 23 + 2 ^ 23) mod 2 ^ 24)%Z with 0%Z by reflexivity.
    replace (IZR (0 - 2 ^ 23) * interval - z - 2 * PI * IZR (-1)) with (IZR n * interval - z); [exact Habs|].
    rewrite E, minus_IZR. rewrite <- PP. ring.
  - exists 0%Z. rewrite Z.mod_small by lia. replace (n + 2 ^ 23 - 2 ^ 23)%Z with n by ring.
    replace (IZR n * interval - z - 2 * PI * 0) with (IZR n * interval - z) by ring. exact Habs.
Qed.

Lemma encode_wrap : forall fuel x n, encode fuel x = Some n -> exists z k, n = to24 z /\ - PI <= z < PI /\ z = x - 2 * PI * IZR k.
Proof.
  intros fuel x n. unfold encode. destruct (wrap_down fuel x) as [y|] eqn:Ed; [|discriminate]. destruct (wrap_up fuel y) as [z|] eqn:Eu; [|discriminate].
  intros [= <-]. destruct (wrap_down_sound _ _ _ Ed) as [A [_ [k K]]]. destruct (wrap_up_sound _ _ _ Eu) as [B [C [j J]]].
  exists z, (k - j)%Z. split; [reflexivity|]. split; [split; auto|]. rewrite minus_IZR. lra.
Qed.

Lemma encode_close : forall fuel x n, encode fuel x = Some n -> close_mod_2pi (quantum / 2) (decode n) x.
Proof.
  intros fuel x n H. destruct (encode_wrap _ _ _ H) as [z [k [-> [R ->]]]].
  destruct (to24_close _ R) as [j J]. exists (j - k)%Z. rewrite minus_IZR.
  replace (decode (to24 (x - 2 * PI * IZR k)) - x - 2 * PI * (IZR j - IZR k)) with (decode (to24 (x - 2 * PI * IZR k)) - (x - 2 * PI * IZR k) - 2 * PI * IZR j) by ring. exact J.
Qed.

Lemma encode_decode : forall fuel u, encode fuel (decode u) = Some (u mod 2 ^ 24)%Z.
Proof.
  intros fuel u. destruct (decode_range u) as [L U]. unfold encode.
  rewrite (wrap_down_inside _ _ U), (wrap_up_inside _ _ L). f_equal. unfold to24, decode.
  pose proof interval_pos as P. set (m := Z.land u (2 ^ 24 - 1)).
  replace (IZR (m - 2 ^ 23) * interval / interval) with (IZR (m - 2 ^ 23)) by (field; lra).
  rewrite Znearest_imp with (n := (m - 2 ^ 23)%Z); [|unfold Rminus; rewrite Rplus_opp_r, Rabs_R0; lra].
  rewrite land_mask. replace (m - 2 ^ 23 + 2 ^ 23)%Z with m by ring. unfold m. rewrite land_mask. apply Zmod_mod.
Qed.

(** quantising twice *)
Lemma quantise_twice : forall fuel x n fuel', encode fuel x = Some n -> encode fuel' (decode n) = Some n.
Proof. intros fuel x n fuel' H. rewrite encode_decode. rewrite Z.mod_small; [reflexivity|]. eapply encode_range; eassumption. Qed.

(** equal encodings for equal angles *)
Lemma encode_periodic : forall f g x k n m, encode f x = Some n -> encode g (x + 2 * PI * IZR k) = Some m -> n = m.
Proof.
  intros f g x k n m Hn Hm. destruct (encode_wrap _ _ _ Hn) as [z [a [-> [Rz Ez]]]]. destruct (encode_wrap _ _ _ Hm) as [w [b [-> [Rw Ew]]]].
  f_equal. assert (E : w - z = 2 * PI * IZR (k - b + a)) by (rewrite plus_IZR, minus_IZR; lra).
  pose proof PI_RGT_0. assert (K : (k - b + a = 0)%Z).
  { assert (IZR (k - b + a) < 1) by (apply Rmult_lt_reg_l with (2 * PI); lra). assert (-1 < IZR (k - b + a)) by (apply Rmult_lt_reg_l with (2 * PI); lra).
    apply lt_IZR in H0. apply lt_IZR in H1. lia. }
  rewrite K in E. lra.
Qed.

(** binary64 *)
Definition f64_2p60 : spec_float := S754_finite false 4503599627370496 8.
Lemma f64_fixpoint : SFleb f64_pi f64_2p60 = true /\ f64_sub f64_2p60 f64_two_pi = f64_2p60.
Proof. split; vm_compute; reflexivity. Qed.
Lemma f64_diverges : forall fuel, f64_wrap_down fuel f64_2p60 = None.
Proof.
  induction fuel as [|f IH]; cbn [f64_wrap_down].
  - destruct f64_fixpoint as [-> _]. reflexivity.
  - destruct f64_fixpoint as [-> ->]. exact IH.
Qed.
