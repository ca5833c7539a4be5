From Coq Require Import List ZArith Lia FinFun.
From Verif Require Import DeviceModel DeviceSpec.
Import ListNotations.

Lemma usable_nonempty : forall count l, cuda_avail count = true -> usable count l <> [].
Proof.
  intros count l A. unfold usable, cuda_avail in *. apply Z.ltb_lt in A. destruct (filter _ _) eqn:E; [|discriminate].
  intros H. apply (f_equal (@length Z)) in H. rewrite map_length, seq_length in H. cbn in H. lia.
Qed.

(** every rank gets an element of the list *)
Lemma cuda_in : forall count lib rank l id, cuda_device count lib rank l = Ok id -> In id (usable count l).
Proof.
  intros count lib rank l id H. unfold cuda_device in H. destruct (cuda_avail count) eqn:A; [|discriminate]. destruct lib; [|discriminate]. cbn in H.
  injection H as <-. apply nth_In. apply Nat.mod_upper_bound. pose proof (usable_nonempty count l A). destruct (usable count l); [contradiction|discriminate].
Qed.

Lemma usable_exists : forall count l id, (forall x, In x l -> (0 <= x)%Z) -> In id (usable count (Some l)) -> exists_on (num_devices count) id.
Proof.
  intros count l id N H. unfold usable in H. destruct (filter _ _) eqn:E in H.
  - apply in_map_iff in H as (k & <- & K). apply in_seq in K. unfold exists_on. lia.
  - rewrite <- E in H. apply filter_In in H as [I B]. apply Z.ltb_lt in B. split; [apply N; exact I|exact B].
Qed.

Lemma usable_requested : forall count l id, (exists x, In x l /\ exists_on (num_devices count) x) -> In id (usable count (Some l)) -> In id l.
Proof.
  intros count l id (x & I & X) H. unfold usable in H. destruct (filter _ _) eqn:E in H.
  - assert (F : In x (filter (fun x => Z.ltb x (num_devices count)) l)) by (apply filter_In; split; [exact I|apply Z.ltb_lt; apply X]). rewrite E in F. destruct F.
  - rewrite <- E in H. apply filter_In in H. apply H.
Qed.

Lemma usable_all : forall count l, (forall x, In x l -> ~ (x < num_devices count)%Z) -> usable count (Some l) = map Z.of_nat (seq 0 (Z.to_nat (num_devices count))).
Proof.
  intros count l N. unfold usable. destruct (filter _ _) eqn:E; [reflexivity|]. assert (F : In z (z :: l0)) by now left. rewrite <- E in F.
  apply filter_In in F as [I B]. apply Z.ltb_lt in B. destruct (N z I B).
Qed.

Lemma usable_nodup : forall count l, NoDup l -> NoDup (usable count (Some l)).
Proof.
  intros count l N. unfold usable. pose proof (NoDup_filter (fun x => Z.ltb x (num_devices count)) N) as F. destruct (filter _ _); [|exact F].
  apply FinFun.Injective_map_NoDup; [intros a b; lia|apply seq_NoDup].
Qed.

(** how often r mod n = j for r below s *)
Lemma count_mod : forall n j s, (0 < n)%nat -> (j < n)%nat -> length (filter (fun r => Nat.eqb (r mod n) j) (seq 0 s)) = (s / n + (if Nat.ltb j (s mod n) then 1 else 0))%nat.
Proof.
  intros n j s Hn Hj. induction s as [|s IH].
  - cbn [seq filter length]. rewrite Nat.div_0_l, Nat.mod_0_l by lia. reflexivity.
  - replace (S s) with (s + 1)%nat by lia. rewrite seq_app, filter_app, app_length, IH. cbn [seq filter plus]. pose proof (Nat.div_mod s n ltac:(lia)) as D. pose proof (Nat.mod_upper_bound s n ltac:(lia)) as B.
    destruct (Nat.eq_dec (s mod n) (n - 1)) as [L|L].
    + assert (Q : ((s + 1) / n = s / n + 1)%nat) by (symmetry; apply Nat.div_unique with 0%nat; nia).
      assert (M : ((s + 1) mod n = 0)%nat) by (symmetry; apply Nat.mod_unique with (s / n + 1)%nat; nia). rewrite Q, M, L.
      destruct (Nat.ltb_spec j (n - 1)), (Nat.ltb_spec j 0), (Nat.eqb_spec (n - 1) j); cbn [length]; lia.
    + assert (Q : ((s + 1) / n = s / n)%nat) by (symmetry; apply Nat.div_unique with (s mod n + 1)%nat; nia).
      assert (M : ((s + 1) mod n = s mod n + 1)%nat) by (symmetry; apply Nat.mod_unique with (s / n)%nat; nia). rewrite Q, M.
      destruct (Nat.ltb_spec j (s mod n)), (Nat.ltb_spec j (s mod n + 1)), (Nat.eqb_spec (s mod n) j); cbn [length]; lia.
Qed.

Lemma load_bounds : forall l n id, NoDup l -> In id l -> let q := (n / length l)%nat in
  (q <= load (fun r => nth (r mod length l) l 0%Z) n id <= q + 1)%nat.
Proof.
  intros l n id N I q. destruct (In_nth l id 0%Z I) as (j & J & E). unfold load.
  rewrite (filter_ext _ (fun r => Nat.eqb (r mod length l) j)).
  - rewrite count_mod by lia. fold q. destruct (Nat.ltb j _); lia.
  - intros r. destruct (Nat.eqb_spec (r mod length l) j) as [->|D]; [rewrite E; apply Z.eqb_refl|]. apply Z.eqb_neq. intros F. apply D.
    apply (proj1 (NoDup_nth l 0%Z) N); [apply Nat.mod_upper_bound; lia|exact J|congruence].
Qed.

Lemma balanced : forall count l n a b assigned, NoDup l -> cuda_avail count = true ->
  (forall r, (r < n)%nat -> cuda_device count true r (Some l) = Ok (assigned r)) -> In a (usable count (Some l)) -> In b (usable count (Some l)) ->
  differ_by_at_most_one (load assigned n a) (load assigned n b).
Proof.
  intros count l n a b assigned N A D Ia Ib.
  assert (E : forall id, load assigned n id = load (fun r => nth (r mod length (usable count (Some l))) (usable count (Some l)) 0%Z) n id).
  { intros id. unfold load. f_equal. apply filter_ext_in. intros r R. apply in_seq in R. specialize (D r ltac:(lia)). unfold cuda_device in D. rewrite A in D. cbn in D. injection D as <-. reflexivity. }
  rewrite !E. pose proof (load_bounds _ n a (usable_nodup count l N) Ia). pose proof (load_bounds _ n b (usable_nodup count l N) Ib). cbv zeta in *. unfold differ_by_at_most_one. lia.
Qed.

Lemma avail_iff : forall count, cuda_avail count = false <-> (forall d, count = Some d -> (d <= 0)%Z).
Proof.
  intros count. unfold cuda_avail, num_devices. destruct count as [d|]; split.
  - intros H e [= <-]. destruct (Z.leb_spec d 0); [lia|]. apply Z.ltb_ge in H. lia.
  - intros H. specialize (H d eq_refl). destruct (Z.leb_spec d 0); [reflexivity|lia].
  - intros _ d [=].
  - reflexivity.
Qed.

Theorem assignment : forall d lib rank l, (0 < d)%Z -> (forall x, In x l -> (0 <= x)%Z) -> lib = true ->
  exists id, cuda_device (Some d) lib rank (Some l) = Ok id /\ exists_on d id /\ ((exists x, In x l /\ exists_on d x) -> In id l).
Proof.
  intros d lib rank l D N ->. assert (ND : num_devices (Some d) = d) by (cbn; destruct (Z.leb_spec d 0); lia).
  assert (A : cuda_avail (Some d) = true) by (unfold cuda_avail; rewrite ND; now apply Z.ltb_lt).
  assert (H : exists id, cuda_device (Some d) true rank (Some l) = Ok id) by (unfold cuda_device; rewrite A; cbn [negb]; eauto). destruct H as (id & H). exists id. split; [exact H|].
  apply cuda_in in H. split; [rewrite <- ND; now apply usable_exists with l|]. intros X. apply (usable_requested (Some d)); [|exact H]. now rewrite ND.
Qed.

Theorem loads : forall d n l assigned a b, (0 < d)%Z -> NoDup l -> (forall x, In x l -> (0 <= x)%Z) ->
  (forall r, (r < n)%nat -> cuda_device (Some d) true r (Some l) = Ok (assigned r)) ->
  exists_on d a -> exists_on d b -> ((exists x, In x l /\ exists_on d x) -> In a l /\ In b l) ->
  differ_by_at_most_one (load assigned n a) (load assigned n b).
Proof.
  intros d n l assigned a b D N P S Ea Eb R. assert (ND : num_devices (Some d) = d) by (cbn; destruct (Z.leb_spec d 0); lia).
  assert (A : cuda_avail (Some d) = true) by (unfold cuda_avail; rewrite ND; now apply Z.ltb_lt).
  assert (U : forall c, exists_on d c -> ((exists x, In x l /\ exists_on d x) -> In c l) -> In c (usable (Some d) (Some l))).
  { intros c Ec Rc. unfold usable. rewrite ND. destruct (filter (fun x => Z.ltb x d) l) eqn:E.
    - apply in_map_iff. exists (Z.to_nat c). split; [|apply in_seq]; unfold exists_on in Ec; lia.
    - rewrite <- E. apply filter_In. split; [|apply Z.ltb_lt, Ec]. apply Rc. exists z. assert (F : In z (z :: l0)) by now left. rewrite <- E in F. apply filter_In in F as [I B]. apply Z.ltb_lt in B. split; [exact I|split; [apply P; exact I|exact B]]. }
  apply (balanced (Some d) l n a b assigned N A S); apply U; auto; intros X; apply R in X; apply X.
Qed.

Theorem no_device : forall count lib rank l dl, (forall d, count = Some d -> (d <= 0)%Z) -> cuda_device count lib rank l = ValueError /\ make_device true count lib rank dl = Ok Cpu.
Proof. intros count lib rank l dl H. apply avail_iff in H. unfold make_device, cuda_device. rewrite H. now split. Qed.

Theorem requested : forall cuda count lib rank dl, (cuda = false -> make_device cuda count lib rank dl = Ok Cpu) /\
  (forall id, make_device cuda count lib rank dl = Ok (Cuda id) <-> cuda = true /\ cuda_device count lib rank (Some dl) = Ok id).
Proof.
  intros cuda count lib rank dl. split; [now intros ->|]. intros id. unfold make_device. destruct cuda; [|split; [discriminate|now intros [E _]]].
  destruct (cuda_device count lib rank (Some dl)) as [x| |]; split; try discriminate; try (now intros [_ E]); [intros E; injection E as ->; now split|intros [_ E]; now injection E as ->].
Qed.
