From Coq Require Import ZArith List Bool Ascii String Lia.
From Verif Require Import FilesModel FilesSpec.
Import ListNotations.
Local Open Scope list_scope.

(** * Formatting is injective *)
Fixpoint value (b : Z) (l : list Z) : Z := match l with [] => 0 | d :: r => d + b * value b r end%Z.
Lemma digits_value b : (2 <= b)%Z -> forall fuel n, (0 <= n < 2 ^ Z.of_nat fuel)%Z -> (1 <= fuel)%nat -> value b (digits fuel b n) = n.
Proof.
  intros B fuel. induction fuel as [|f IH]; intros n N F; [lia|]. cbn [digits value].
  pose proof (Z.div_mod n b ltac:(lia)) as DM. destruct (Z.eqb_spec (n / b) 0) as [E|E]; cbn [value].
  - rewrite E in DM. lia.
  - assert (0 <= n / b)%Z by (apply Z.div_pos; lia).
    assert (n / b < 2 ^ Z.of_nat f)%Z.
    { apply Z.div_lt_upper_bound; [lia|]. rewrite Nat2Z.inj_succ, Z.pow_succ_r in N by lia. nia. }
    destruct f as [|f']; [cbn in *; lia|]. rewrite IH; lia.
Qed.
Lemma digits_range b : (2 <= b)%Z -> forall fuel n, Forall (fun d => 0 <= d < b)%Z (digits fuel b n).
Proof.
  intros B fuel. induction fuel as [|f IH]; intros n; cbn [digits]; constructor.
  - apply Z.mod_pos_bound. lia.
  - destruct (n / b =? 0)%Z; [constructor|apply IH].
Qed.
Lemma value_app b l k : value b (l ++ repeat 0%Z k) = value b l.
Proof. induction l as [|d l IH]; cbn [app value]; [induction k as [|k IHk]; cbn [repeat value]; [reflexivity|rewrite IHk; lia]|rewrite IH; reflexivity]. Qed.
Lemma log2_fuel n : (0 <= n)%Z -> (n < 2 ^ Z.of_nat (S (Z.to_nat (Z.log2 n))))%Z.
Proof.
  intros N. rewrite Nat2Z.inj_succ, Z2Nat.id by apply Z.log2_nonneg. destruct (Z.eq_dec n 0) as [->|]; [reflexivity|].
  apply Z.log2_spec. lia.
Qed.
Lemma all_digits_value b n : (2 <= b)%Z -> (0 <= n)%Z -> value b (all_digits b n) = n.
Proof. intros B N. apply digits_value; [exact B| |lia]. split; [exact N|apply log2_fuel, N]. Qed.
Lemma all_digits_range b n : (2 <= b)%Z -> Forall (fun d => 0 <= d < b)%Z (all_digits b n).
Proof. intros B. apply digits_range, B. Qed.
Lemma pad_value b w l : value b (pad w l) = value b l.
Proof. apply value_app. Qed.
Lemma pad_range b w l : (0 < b)%Z -> Forall (fun d => 0 <= d < b)%Z l -> Forall (fun d => 0 <= d < b)%Z (pad w l).
Proof.
  intros B H. apply Forall_app. split; [exact H|]. apply Forall_forall. intros d D. apply repeat_spec in D. lia.
Qed.
Lemma digit_char_inj a b : (0 <= a < 16)%Z -> (0 <= b < 16)%Z -> digit_char a = digit_char b -> a = b.
Proof.
  intros A B H.
  assert (K : forall x y, (x < 16)%nat -> (y < 16)%nat -> nth x (lit "0123456789abcdef") "?"%char = nth y (lit "0123456789abcdef") "?"%char -> x = y).
  { intros x y X Y E. do 16 (destruct x as [|x]; [do 16 (destruct y as [|y]; [try reflexivity; discriminate E|]); lia|]). lia. }
  apply K in H; lia.
Qed.
Lemma digit_char_not a c : (0 <= a < 16)%Z -> c = "-"%char \/ c = "."%char -> digit_char a <> c.
Proof.
  intros A H E. unfold digit_char in E. assert (Z.to_nat a < 16)%nat by lia. revert E. generalize dependent (Z.to_nat a). intros x X.
  destruct H as [->| ->]; do 16 (destruct x as [|x]; [discriminate|]); lia.
Qed.
Lemma map_digit_inj l : forall l', Forall (fun d => 0 <= d < 16)%Z l -> Forall (fun d => 0 <= d < 16)%Z l' -> map digit_char l = map digit_char l' -> l = l'.
Proof.
  induction l as [|d l IH]; intros [|d' l'] H H' E; try discriminate; [reflexivity|]. cbn in E. injection E as E1 E2. inversion H; inversion H'; subst.
  f_equal; [apply digit_char_inj; assumption|apply IH; assumption].
Qed.
Lemma padded_inj b w n n' : (2 <= b <= 16)%Z -> (0 <= n)%Z -> (0 <= n')%Z ->
  map digit_char (rev (pad w (all_digits b n))) = map digit_char (rev (pad w (all_digits b n'))) -> n = n'.
Proof.
  intros B N N' E. assert (R : forall m, Forall (fun d => 0 <= d < 16)%Z (rev (pad w (all_digits b m)))).
  { intros m. apply Forall_rev. eapply Forall_impl; [|apply pad_range with (b := b); [lia|apply all_digits_range; lia]]. cbn. lia. }
  apply map_digit_inj in E; [|apply R|apply R]. apply (f_equal (@rev Z)) in E. rewrite !rev_involutive in E.
  apply (f_equal (value b)) in E. rewrite !pad_value, !all_digits_value in E by lia. exact E.
Qed.
Lemma padded_head b w n : (2 <= b <= 16)%Z -> forall r, map digit_char (rev (pad w (all_digits b n))) <> "-"%char :: r.
Proof.
  intros B r E. destruct (rev (pad w (all_digits b n))) as [|d l] eqn:D; [discriminate|]. cbn in E. injection E as E _.
  apply (digit_char_not d "-"%char); [|auto|exact E].
  assert (F : Forall (fun d => 0 <= d < b)%Z (rev (pad w (all_digits b n)))) by (apply Forall_rev, pad_range; [lia|apply all_digits_range; lia]).
  rewrite D in F. inversion F; subst. lia.
Qed.
Lemma format_d_inj w n n' : format_d w n = format_d w n' -> n = n'.
Proof.
  unfold format_d. destruct (Z.ltb_spec n 0), (Z.ltb_spec n' 0); intros E.
  - injection E as E. apply padded_inj in E; lia.
  - symmetry in E. apply padded_head in E; [contradiction|lia].
  - apply padded_head in E; [contradiction|lia].
  - apply padded_inj in E; lia.
Qed.
Lemma digits_length b : (2 <= b)%Z -> forall fuel n k, (0 <= n < b ^ Z.of_nat k)%Z -> (1 <= k)%nat -> (List.length (digits fuel b n) <= k)%nat.
Proof.
  intros B fuel. induction fuel as [|f IH]; intros n k N K; cbn [digits List.length]; [lia|]. destruct (Z.eqb_spec (n / b) 0); cbn [List.length]; [lia|].
  destruct k as [|k]; [lia|]. assert (0 <= n / b < b ^ Z.of_nat k)%Z.
  { split; [apply Z.div_pos; lia|]. apply Z.div_lt_upper_bound; [lia|]. rewrite Nat2Z.inj_succ, Z.pow_succ_r in N by lia. lia. }
  destruct k as [|k']; [cbn in *; lia|]. specialize (IH (n / b)%Z (S k') H ltac:(lia)). lia.
Qed.
Lemma format_x_length h : (0 <= h < 2 ^ 48)%Z -> List.length (format_x 12 h) = 12%nat.
Proof.
  intros H. unfold format_x. rewrite map_length, rev_length. unfold pad. rewrite app_length, repeat_length.
  assert (List.length (all_digits 16 h) <= 12)%nat; [|lia]. apply digits_length; [lia| |lia]. change (16 ^ Z.of_nat 12)%Z with (2 ^ 48)%Z. exact H.
Qed.
Lemma app_inj_length {A} (a a' b b' : list A) : List.length a = List.length a' -> a ++ b = a' ++ b' -> a = a' /\ b = b'.
Proof.
  revert a'. induction a as [|x a IH]; intros [|x' a'] L E; try discriminate; [auto|]. cbn in *. injection E as -> E. injection L as L.
  destruct (IH _ L E) as [-> ->]. auto.
Qed.
Lemma name_inj dir h h' s s' : (0 <= h < 2 ^ 48)%Z -> (0 <= h' < 2 ^ 48)%Z -> state_file_name dir h s = state_file_name dir h' s' -> h = h' /\ s = s'.
Proof.
  intros H H' E. unfold state_file_name in E. apply app_inv_head in E. apply app_inv_head in E. rewrite <- !app_assoc in E. apply app_inv_head in E.
  apply app_inj_length in E; [|rewrite !format_x_length by assumption; reflexivity]. destruct E as [E1 E2].
  split; [unfold format_x in E1; apply padded_inj in E1; lia|]. apply app_inv_head in E2. apply app_inv_tail in E2. apply format_d_inj in E2. exact E2.
Qed.
Lemma config_hash_range {F} (hash : hashed F -> Z) c : (0 <= config_hash hash c < 2 ^ 48)%Z.
Proof.
  unfold config_hash. change (2 ^ 48 - 1)%Z with (Z.ones 48). rewrite Z.land_ones by lia. apply Z.mod_pos_bound. lia.
Qed.

(** * Contents *)
Lemma readline_app v rest : Forall (fun c => is_newline c = false) v -> readline (v ++ newline :: rest) = (v ++ [newline], rest).
Proof. induction 1 as [|c v Hc Hv IH]; cbn [app readline]; [reflexivity|]. rewrite Hc, IH. reflexivity. Qed.

(** Doubling the newlines, except a last one *)
Fixpoint doubled (s : text) : text :=
  match s with
  | [] => []
  | c :: r => if is_newline c then match r with [] => [c] | _ => c :: newline :: doubled r end else c :: doubled r
  end.
Lemma readlines_nil s : readlines s = [] -> s = [].
Proof. destruct s as [|c s]; [reflexivity|]. cbn. destruct (is_newline c); [discriminate|]. destruct (readlines s); discriminate. Qed.
Lemma join_doubled s : join_newline (readlines s) = doubled s.
Proof.
  induction s as [|c s IH]; [reflexivity|]. cbn [readlines doubled]. destruct (is_newline c) eqn:C.
  - destruct s as [|c' s]; [reflexivity|]. destruct (readlines (c' :: s)) as [|l ls] eqn:L; [apply readlines_nil in L; discriminate|].
    change (join_newline ([c] :: l :: ls)) with ([c] ++ [newline] ++ join_newline (l :: ls)). rewrite IH. reflexivity.
  - destruct (readlines s) as [|l ls] eqn:L.
    + apply readlines_nil in L. subst. reflexivity.
    + rewrite <- IH. destruct ls as [|l' ls]; reflexivity.
Qed.
Definition blank (l : text) : bool := match l with [] => true | _ => false end.
Lemma is_newline_eq c : is_newline c = true -> c = newline.
Proof. apply Ascii.eqb_eq. Qed.
Lemma doubled_lines s : exists l a b, lines s = l :: a /\ lines (doubled s) = l :: b /\ filter (fun l => negb (blank l)) a = filter (fun l => negb (blank l)) b.
Proof.
  induction s as [|c s IH].
  - exists [], [], []. repeat split.
  - cbn [doubled]. destruct (is_newline c) eqn:C.
    + apply is_newline_eq in C. subst c. destruct s as [|c' s'].
      * exists [], [[]], [[]]. repeat split.
      * destruct IH as [l [a [b [E1 [E2 E3]]]]]. exists [], (l :: a), ([] :: l :: b).
        change (lines (newline :: c' :: s')) with ([] :: lines (c' :: s')). change (lines (newline :: newline :: doubled (c' :: s'))) with ([] :: [] :: lines (doubled (c' :: s'))).
        rewrite E1, E2. repeat split. cbn [filter blank negb]. rewrite E3. reflexivity.
    + destruct IH as [l [a [b [E1 [E2 E3]]]]]. exists (c :: l), a, b. unfold is_newline, newline in C. cbn [lines]. rewrite C, E1, E2. auto.
Qed.
Lemma lstrip_id s : (forall c r, s = c :: r -> is_space c = false) -> lstrip s = s.
Proof. destruct s as [|c r]; [reflexivity|]. intros H. cbn. rewrite (H c r eq_refl). reflexivity. Qed.
Lemma strip_id s : trimmed s -> strip s = s.
Proof.
  intros [H1 H2]. unfold strip. rewrite (lstrip_id s H1). rewrite lstrip_id; [apply rev_involutive|]. intros c r E.
  apply (H2 c (rev r)). rewrite <- (rev_involutive s), E. cbn. reflexivity.
Qed.
(** Removing blank characters at the ends of a text does not change its non-blank lines *)
Lemma strip_space_l c l : is_space c = true -> strip (c :: l) = strip l.
Proof. intros H. unfold strip. cbn [lstrip]. rewrite H. reflexivity. Qed.
Lemma lstrip_app_space l c : is_space c = true -> lstrip (l ++ [c]) = if existsb (fun x => negb (is_space x)) l then lstrip l ++ [c] else [].
Proof.
  intros H. induction l as [|x l IH]; cbn [app lstrip existsb]; [rewrite H; reflexivity|]. destruct (is_space x) eqn:X; cbn; [exact IH|reflexivity].
Qed.
Lemma lstrip_blank l : existsb (fun x => negb (is_space x)) l = false -> lstrip l = [].
Proof. induction l as [|x l IH]; cbn; [reflexivity|]. destruct (is_space x); cbn; [exact IH|discriminate]. Qed.
Lemma strip_space_r c l : is_space c = true -> strip (l ++ [c]) = strip l.
Proof.
  intros H. unfold strip. rewrite lstrip_app_space by exact H. destruct (existsb _ l) eqn:E.
  - rewrite rev_app_distr. cbn [rev app lstrip]. rewrite H. reflexivity.
  - rewrite (lstrip_blank l E). reflexivity.
Qed.
Lemma content_cons_space c s : is_space c = true -> content_lines (c :: s) = content_lines s.
Proof.
  intros H. unfold content_lines. cbn [lines]. destruct (Ascii.eqb c (ascii_of_nat 10)); [reflexivity|].
  destruct (lines s) as [|l ls] eqn:L; cbn [filter has_text existsb].
  - rewrite H. reflexivity.
  - unfold has_text. cbn [existsb]. rewrite H. cbn [negb orb]. destruct (existsb _ l); [|reflexivity]. cbn [map]. rewrite strip_space_l by exact H. reflexivity.
Qed.
Lemma content_app_space s c : is_space c = true -> content_lines (s ++ [c]) = content_lines s.
Proof.
  intros H. unfold content_lines.
  assert (K : exists a l, lines s = a ++ [l] /\ (lines (s ++ [c]) = a ++ [l; []] \/ lines (s ++ [c]) = a ++ [l ++ [c]])).
  { induction s as [|x s IH].
    - exists [], []. split; [reflexivity|]. change (lines ([] ++ [c])) with (if Ascii.eqb c (ascii_of_nat 10) then [[]; []] else [[c]]). destruct (Ascii.eqb c (ascii_of_nat 10)); auto.
    - destruct IH as [a [l [E1 E2]]]. cbn [app lines]. destruct (Ascii.eqb x (ascii_of_nat 10)).
      + exists ([] :: a), l. rewrite E1. split; [reflexivity|]. destruct E2 as [-> | ->]; auto.
      + rewrite E1. destruct a as [|y a]; cbn [app].
        * exists [], (x :: l). split; [reflexivity|]. destruct E2 as [-> | ->]; auto.
        * exists ((x :: y) :: a), l. split; [reflexivity|]. destruct E2 as [-> | ->]; auto. }
  destruct K as [a [l [-> [-> | ->]]]]; rewrite !filter_app, !map_app; f_equal; cbn [filter].
  - assert (T : has_text (l ++ [c]) = has_text l) by (unfold has_text; rewrite existsb_app; cbn; rewrite H; apply orb_false_r). rewrite T.
    destruct (has_text l); [|reflexivity]. cbn. rewrite strip_space_r by exact H. reflexivity.
Qed.
Lemma content_lstrip s : content_lines (lstrip s) = content_lines s.
Proof.
  induction s as [|c s IH]; [reflexivity|]. cbn [lstrip]. destruct (is_space c) eqn:C; [|reflexivity]. rewrite IH. symmetry. apply content_cons_space, C.
Qed.
Lemma content_strip s : content_lines (strip s) = content_lines s.
Proof.
  rewrite <- (content_lstrip s). unfold strip. generalize (lstrip s) as x. intros x. rewrite <- (rev_involutive x) at 2. induction (rev x) as [|c r IH]; [reflexivity|].
  cbn [lstrip]. destruct (is_space c) eqn:C; [|reflexivity]. rewrite IH. cbn [rev]. symmetry. apply content_app_space, C.
Qed.
Lemma doubled_content s : content_lines (doubled s) = content_lines s.
Proof.
  assert (D : forall a b, filter (fun l => negb (blank l)) a = filter (fun l => negb (blank l)) b -> filter has_text a = filter has_text b).
  { assert (F : forall a, filter has_text a = filter has_text (filter (fun l => negb (blank l)) a)).
    { induction a as [|l a IH]; [reflexivity|]. cbn [filter]. destruct l as [|c l]; [exact IH|]. cbn [blank negb filter]. rewrite IH. reflexivity. }
    intros a b E. rewrite (F a), (F b), E. reflexivity. }
  destruct (doubled_lines s) as [l [a [b [E1 [E2 E3]]]]]. unfold content_lines. rewrite E1, E2. cbn [filter]. rewrite (D _ _ E3). reflexivity.
Qed.

Section RoundTrip.
Context {S : Type}.
Variable npy : S -> text.
Variable npy_load : text -> option (S * text).
Hypothesis NPY : npy_ok npy npy_load.
Lemma load_save x v s : Forall (fun c => is_newline c = false) v ->
  load_state npy_load (save_state npy x v s) = Some (x, v ++ [newline], strip (doubled s)).
Proof.
  intros V. unfold load_state, save_state. rewrite NPY. change (v ++ [newline] ++ s) with (v ++ newline :: s). rewrite readline_app by exact V. rewrite join_doubled. reflexivity.
Qed.
Lemma load_save_content x v s : Forall (fun c => is_newline c = false) v ->
  exists s', load_state npy_load (save_state npy x v s) = Some (x, v ++ [newline], s') /\ content_lines s' = content_lines s.
Proof. intros V. exists (strip (doubled s)). split; [apply load_save, V|]. rewrite content_strip. apply doubled_content. Qed.
Lemma doubled_one_line s : Forall (fun c => is_newline c = false) s -> doubled s = s.
Proof. induction 1 as [|c s Hc Hs IH]; cbn; [reflexivity|]. rewrite Hc, IH. reflexivity. Qed.
Lemma load_save_one_line x v s : Forall (fun c => is_newline c = false) v -> Forall (fun c => is_newline c = false) s -> trimmed s ->
  load_state npy_load (save_state npy x v s) = Some (x, v ++ [newline], s).
Proof. intros V O T. rewrite load_save by exact V. rewrite doubled_one_line by exact O. rewrite strip_id by exact T. reflexivity. Qed.
End RoundTrip.

