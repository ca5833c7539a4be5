From Coq Require Import String Ascii Arith Bool Decimal DecimalString DecimalNat Lia.
From Verif Require Import SelModel SelSpec.
Local Open Scope string_scope.

Lemma int_acc_uint d : forall acc, int_acc (NilEmpty.string_of_uint d) acc = Nat.of_uint_acc d acc.
Proof. induction d; intro acc; simpl NilEmpty.string_of_uint; unfold Nat.of_uint_acc; fold Nat.of_uint_acc; [reflexivity|..]; cbn [int_acc]; rewrite IHd; f_equal; rewrite Nat.tail_mul_spec; cbn -[Nat.mul]; lia. Qed.
Lemma digits_uint d : all_digits (NilEmpty.string_of_uint d) = true.
Proof. induction d; simpl; auto. Qed.
Lemma uint_digits s : all_digits s = true -> exists d, s = NilEmpty.string_of_uint d.
Proof.
  induction s as [|c s IH]; intro H; [exists Nil; reflexivity|]. cbn [all_digits] in H. apply andb_prop in H. destruct H as [Hc Hs]. destruct (IH Hs) as [d ->].
  destruct c as [b0 b1 b2 b3 b4 b5 b6 b7]. destruct b7; [destruct b0, b1, b2, b3, b4, b5, b6; discriminate Hc|]. destruct b6; [destruct b0, b1, b2, b3, b4, b5; discriminate Hc|]. destruct b5; [|destruct b0, b1, b2, b3, b4; discriminate Hc]. destruct b4; [|destruct b0, b1, b2, b3; discriminate Hc].
  destruct b3, b2, b1, b0; try discriminate Hc; [exists (D9 d)|exists (D8 d)|exists (D7 d)|exists (D6 d)|exists (D5 d)|exists (D4 d)|exists (D3 d)|exists (D2 d)|exists (D1 d)|exists (D0 d)]; reflexivity.
Qed.
Lemma isdigit_stands s : isdigit s = true -> stands_for s (int s).
Proof.
  unfold isdigit. intro H. apply andb_prop in H. destruct H as [Hn Hd]. destruct (uint_digits s Hd) as [d E]. exists d. split; [|split]; [|exact E|].
  - intros ->. subst s. discriminate Hn.
  - subst s. unfold int. rewrite int_acc_uint. reflexivity.
Qed.
Lemma stands_isdigit s n : stands_for s n -> isdigit s = true /\ int s = n.
Proof.
  intros (d & N & -> & <-). split.
  - unfold isdigit. rewrite digits_uint, andb_true_r. destruct d; [congruence|..]; reflexivity.
  - unfold int. now rewrite int_acc_uint.
Qed.
Lemma decimal_stands n : stands_for (decimal n) n.
Proof.
  exists (Nat.to_uint n). split; [|split]; [|reflexivity|exact (Unsigned.of_to n)].
  destruct n as [|n]; [discriminate|]. intro E. pose proof (Unsigned.of_to (S n)) as H. rewrite E in H. discriminate H.
Qed.
Lemma take_drop k : forall s, s = take k s ++ drop k s.
Proof. induction k as [|k IH]; intros [|c s]; try reflexivity. cbn [take drop append]. now rewrite <- IH. Qed.
Lemma prefix_split k p s : (take k s =? p) = true -> s = p ++ drop k s.
Proof. intro H. apply String.eqb_eq in H. rewrite <- H. apply take_drop. Qed.
Lemma not_stiff s : isdigit s = true -> (take 9 ("epi" ++ s) =? "epi_stiff") = false.
Proof.
  intro H. destruct (take 9 ("epi" ++ s) =? "epi_stiff") eqn:E; [|reflexivity]. apply prefix_split in E. destruct s as [|c s]; [discriminate H|]. cbn in E. injection E as Ec _. subst c. discriminate H.
Qed.
Definition parts (b : bundle) (r : rhs) (name : string) (m : integrator) : Prop := exists imp exp, implicit b = Ok imp /\ explicit b = Ok exp /\ partitioned r imp exp name m.

Ltac names H := match type of H with context [if (?x =? ?y) then _ else _] => let E := fresh "E" in destruct (x =? y) eqn:E; [apply String.eqb_eq in E|] end.
Lemma create_ok b r name m : full b = Ok r -> ((exists i e, implicit b = Ok i /\ explicit b = Ok e) \/ (implicit b = Raise AttributeError /\ explicit b = Raise AttributeError)) ->
  create_time_integrator b name = Ok m <-> whole r name m \/ parts b r name m.
Proof.
  intros F P. split.
  - unfold create_time_integrator. rewrite F. cbn [bind]. 
    destruct (take 9 name =? "epi_stiff") eqn:E9.
    { destruct (isdigit (drop 9 name)) eqn:D; cbn [andb].
      - intro H. left. rewrite (prefix_split _ _ _ E9). apply isdigit_stands in D. unfold new_epi_stiff in H. destruct (int (drop 9 name) <? 2)%nat eqn:L; [discriminate|]. injection H as <-. apply W_epi_stiff; [exact D|now apply Nat.ltb_ge].
      - intro H. exfalso. rewrite (prefix_split _ _ _ E9) in H. cbn in H. discriminate H. }
    cbn [andb]. destruct ((take 3 name =? "epi") && isdigit (drop 3 name)) eqn:E3.
    { apply andb_prop in E3. destruct E3 as [E3 D]. intro H. left. rewrite (prefix_split _ _ _ E3). apply isdigit_stands in D. unfold new_epi in H. destruct ((2 <=? int (drop 3 name)) && (int (drop 3 name) <=? 6))%nat eqn:L; [|discriminate]. injection H as <-. apply andb_prop in L. destruct L as [L1 L2]. apply Nat.leb_le in L1, L2. apply W_epi; [exact D|split; assumption]. }
    destruct ((take 5 name =? "srerk") && isdigit (drop 5 name)) eqn:E5.
    { apply andb_prop in E5. destruct E5 as [E5 D]. intro H. left. rewrite (prefix_split _ _ _ E5). apply isdigit_stands in D. unfold new_srerk in H. destruct (int (drop 5 name) <? 3)%nat eqn:L; [discriminate|]. injection H as <-. apply W_srerk; [exact D|now apply Nat.ltb_ge]. }
    clear E9 E3 E5. intro H.
    repeat (names H; [subst name; first [left; injection H as <-; constructor | destruct P as [(i & e & Pi & Pe)|[Pi Pe]]; rewrite ?Pi, ?Pe in H; [|discriminate H]; cbn in H; injection H as <-; right; exists i, e; repeat split; try assumption; constructor]|]).
    discriminate H.
  - intros [W|(i & e & Pi & Pe & W)].
    + destruct W; try (unfold create_time_integrator; rewrite F; reflexivity).
      * destruct (stands_isdigit _ _ H) as [D I]. unfold create_time_integrator. rewrite (not_stiff _ D). cbn [andb]. change (take 3 ("epi" ++ s)) with "epi". change (drop 3 ("epi" ++ s)) with s. rewrite D, I, F. cbn -[Nat.leb]. unfold new_epi. destruct H0 as [L1 L2]. apply Nat.leb_le in L1, L2. now rewrite L1, L2.
      * destruct (stands_isdigit _ _ H) as [D I]. unfold create_time_integrator. change (take 9 ("epi_stiff" ++ s)) with "epi_stiff". change (drop 9 ("epi_stiff" ++ s)) with s. rewrite D, I, F. cbn -[Nat.ltb]. unfold new_epi_stiff. apply Nat.ltb_ge in H0. now rewrite H0.
      * destruct (stands_isdigit _ _ H) as [D I]. unfold create_time_integrator. change (take 3 ("srerk" ++ s)) with "sre". change (take 5 ("srerk" ++ s)) with "srerk". change (drop 5 ("srerk" ++ s)) with s. rewrite D, I, F. 
        change (take 9 ("srerk" ++ s)) with ("srerk" ++ take 4 s). cbn -[Nat.ltb]. unfold new_srerk. apply Nat.ltb_ge in H0. now rewrite H0.
    + destruct W; unfold create_time_integrator; rewrite ?F, ?Pi, ?Pe; reflexivity.
Qed.
(** an exception other than ValueError: the attributes of the bundle *)
Lemma create_raise b r name e : full b = Ok r -> ((exists i e, implicit b = Ok i /\ explicit b = Ok e) \/ (implicit b = Raise AttributeError /\ explicit b = Raise AttributeError)) ->
  create_time_integrator b name = Raise e -> e = ValueError \/ (e = AttributeError /\ implicit b = Raise AttributeError /\ split_listed name).
Proof.
  intros F P. unfold create_time_integrator. rewrite F. cbn [bind].
  destruct ((take 9 name =? "epi_stiff") && isdigit (drop 9 name)); [unfold new_epi_stiff; destruct (_ <? _)%nat; intro H; [left; congruence|discriminate]|].
  destruct ((take 3 name =? "epi") && isdigit (drop 3 name)); [unfold new_epi; destruct ((_ <=? _) && (_ <=? _))%nat; intro H; [discriminate|left; congruence]|].
  destruct ((take 5 name =? "srerk") && isdigit (drop 5 name)); [unfold new_srerk; destruct (_ <? _)%nat; intro H; [left; congruence|discriminate]|].
  intro H.
  repeat (names H; [subst name; first [discriminate H | destruct P as [(i & x & Pi & Pe)|[Pi Pe]]; rewrite ?Pi, ?Pe in H; [discriminate H|]; right; split; [cbn in H; congruence|]; split; [exact Pi|]; exists NotPorted, NotPorted, NotPorted; eexists; constructor]|]).
  left. congruence.
Qed.
