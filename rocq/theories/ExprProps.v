(** Properties C17 and C18. *)
From Coq Require Import ZArith Reals List Bool String Floats.SpecFloat Lra.
From Verif Require Import ExprModel ExprSpec ExprProofs.
Local Open Scope R_scope.

(** C17: eval_expr returns a value exactly for the expressions that have a mathematical value, and that value. *)
Theorem C17_value : forall e x, eval e = Val x <-> denotes e x.
Proof. exact eval_value. Qed.
Print Assumptions C17_value.

(** C17: it raises exactly when the expression contains a foreign construct or a division by zero. *)
Theorem C17_raises : forall e, (exists k, eval e = Raise k) <-> (foreign e \/ divides_by_zero e).
Proof. exact eval_raises. Qed.
Print Assumptions C17_raises.

(** C17: ZeroDivisionError reports a division by zero; KeyError and TypeError report a foreign construct. *)
Theorem C17_reason : forall e k, eval e = Raise k ->
  (k = ZeroDivErr /\ divides_by_zero e) \/ (k <> ZeroDivErr /\ foreign e).
Proof. exact raise_reason. Qed.
Print Assumptions C17_reason.

(** -Pi / 2 * 3, and a call, and 1 / (1 - 1) *)
Example C17_ex : eval (BinOp (BinOp (UnaryOp USub (Name "Pi")) Div (Constant (CNumber 2))) Mult (Constant (CNumber 3))) = Val (- PI / 2 * 3)
  /\ foreign (BinOp (Constant (CNumber 1)) Add Other)
  /\ divides_by_zero (BinOp (Constant (CNumber 1)) Div (BinOp (Constant (CNumber 1)) Sub (Constant (CNumber 1)))).
Proof.
  split; [apply C17_value; apply d_mul; [apply d_div; [apply d_neg, d_pi; auto | apply d_num | lra] | apply d_num]|]. split; [apply x_right, x_other|].
  apply z_here. replace 0 with (1 - 1) by lra. apply d_sub; apply d_num.
Qed.

(** C18: over the reals encode always terminates, with a result that does not depend on the (sufficient) fuel. *)
Theorem C18_terminates : forall x, exists fuel n, forall more, (fuel <= more)%nat -> encode more x = Some n.
Proof. exact encode_terminates. Qed.
Print Assumptions C18_terminates.

(** C18: the result is a 24-bit integer. *)
Theorem C18_24_bits : forall fuel x n, encode fuel x = Some n -> (0 <= n < 2 ^ 24)%Z.
Proof. exact encode_range. Qed.
Print Assumptions C18_24_bits.

(** C18: decoding, then encoding, is the identity on 24-bit integers, and truncates the others to 24 bits. *)
Theorem C18_encode_decode : forall fuel u, encode fuel (decode u) = Some (u mod 2 ^ 24)%Z.
Proof. exact encode_decode. Qed.
Print Assumptions C18_encode_decode.

(** C18: encoding, then decoding, changes an angle by at most half a quantum, modulo 2 pi. *)
Theorem C18_decode_encode : forall fuel x n, encode fuel x = Some n -> close_mod_2pi (quantum / 2) (decode n) x.
Proof. exact encode_close. Qed.
Print Assumptions C18_decode_encode.

(** C18: decoded angles are in [-pi, pi). *)
Theorem C18_decode_range : forall u, - PI <= decode u < PI.
Proof. exact decode_range. Qed.
Print Assumptions C18_decode_range.

(** C18: quantising twice equals quantising once (angle24(angle24(x)) = angle24(x)). *)
Theorem C18_idempotent : forall fuel x n fuel', encode fuel x = Some n -> encode fuel' (decode n) = Some n.
Proof. exact quantise_twice. Qed.
Print Assumptions C18_idempotent.

(** C18: angles that differ by full turns have the same encoding. *)
Theorem C18_periodic : forall f g x k n m, encode f x = Some n -> encode g (x + 2 * PI * IZR k) = Some m -> n = m.
Proof. exact encode_periodic. Qed.
Print Assumptions C18_periodic.

Example C18_ex : encode 5 (2 * PI * 1) = Some 8388608%Z /\ decode 8388608 = 0.
Proof.
  assert (D : decode 8388608 = 0) by (unfold decode; replace (Z.land 8388608 (2 ^ 24 - 1) - 2 ^ 23)%Z with 0%Z by reflexivity; lra).
  split; [|exact D]. pose proof PI_RGT_0.
  assert (E : encode 4 0 = Some 8388608%Z) by (rewrite <- D, encode_decode; reflexivity).
  unfold encode in *. rewrite wrap_down_inside in E by lra. rewrite wrap_up_inside in E by lra.
  assert (W : forall f, wrap_down (S f) (2 * PI * 1) = Some 0).
  { intros f. cbn [wrap_down]. destruct (Rle_dec PI (2 * PI * 1)); [|lra]. rewrite wrap_down_inside by lra. f_equal; lra. }
  rewrite W. rewrite wrap_up_inside by lra. exact E.
Qed.

(** The documentation says that angles are brought into [-pi/2, pi/2[; they are not. *)
Theorem C18_documented_interval_refuted : exists fuel x n, encode fuel x = Some n /\ ~ (- PI / 2 <= decode n < PI / 2).
Proof.
  exists 0%nat, (decode 0), 0%Z. split; [apply encode_decode|].
  unfold decode. replace (Z.land 0 (2 ^ 24 - 1) - 2 ^ 23)%Z with (- 2 ^ 23)%Z by reflexivity.
  rewrite opp_IZR. intros [H _]. pose proof interval_pi. pose proof PI_RGT_0. lra.
Qed.
Print Assumptions C18_documented_interval_refuted.

(** In binary64 the first loop never ends for 2^60: subtracting 2 pi does not change the number. *)
Theorem C18_float_terminates_refuted : exists x, (exists m e, x = S754_finite false m e) /\ forall fuel, f64_wrap_down fuel x = None.
Proof. exists f64_2p60. split; [unfold f64_2p60; eauto | exact f64_diverges]. Qed.
Print Assumptions C18_float_terminates_refuted.
