From Coq Require Import String Ascii Arith Bool Lia.
From Verif Require Import SelModel SelSpec SelProofs.
Local Open Scope string_scope.

Definition prepared (c : config) : res bundle :=
  bind (create_geometry c) (fun g => bind (init_state_vars g c) (fun _ => bind (create_preconditioner c) (fun _ => rhs_bundle g c))).
Definition handles (grid : string) (r : rhs) : bundle := if grid =? "cartesian2d" then Bundle (Ok r) (Ok NotPorted) (Ok NotPorted) else Bundle (Ok r) (Raise AttributeError) (Raise AttributeError).
Lemma create_prepared c : create c = bind (prepared c) (fun b => create_time_integrator b (time_integrator c)).
Proof. unfold create, prepared. destruct (create_geometry c) as [g|]; [|reflexivity]. cbn. destruct (init_state_vars g c); [|reflexivity]. cbn. now destruct (create_preconditioner c). Qed.
Ltac texts := repeat match goal with H : context [(?x =? ?y)] |- _ => match type of H with (_ =? _) = _ => fail 1 | _ => idtac end; destruct (x =? y) eqn:?; cbn in H end.
Lemma prepared_ok c b : prepared c = Ok b <-> preconditioner c = "none" /\ exists r, supported (equations c) (grid_type c) (discretization c) r /\ b = handles (grid_type c) r.
Proof.
  split.
  - intro H. unfold prepared, create_geometry, init_state_vars, create_preconditioner, rhs_bundle in H. destruct c as [q g d p t]. cbn in *.
    destruct (g =? "cubed_sphere") eqn:G; [apply String.eqb_eq in G; subst g|].
    + destruct (q =? "shallow_water") eqn:Q; [apply String.eqb_eq in Q; subst q|]; cbn in H.
      * destruct (p =? "none") eqn:P; [apply String.eqb_eq in P; subst p|discriminate H]. cbn in H. split; [reflexivity|]. exists ShallowWater.
        destruct (d =? "dfr") eqn:D1; [apply String.eqb_eq in D1; subst d; injection H as <-; split; [constructor; auto|reflexivity]|].
        destruct (d =? "dg") eqn:D2; [apply String.eqb_eq in D2; subst d; injection H as <-; split; [constructor; auto|reflexivity]|].
        destruct (d =? "fv") eqn:D3; [apply String.eqb_eq in D3; subst d; injection H as <-; split; [constructor; auto|reflexivity]|]. discriminate H.
      * destruct (q =? "euler") eqn:Q'; [apply String.eqb_eq in Q'; subst q|discriminate H]. cbn in H.
        destruct (p =? "none") eqn:P; [apply String.eqb_eq in P; subst p|discriminate H]. cbn in H. split; [reflexivity|]. exists DirectFluxReconstructionMpi.
        destruct (d =? "dfr") eqn:D1; [apply String.eqb_eq in D1; subst d; injection H as <-; split; [constructor; auto|reflexivity]|].
        destruct (d =? "dg") eqn:D2; [apply String.eqb_eq in D2; subst d; injection H as <-; split; [constructor; auto|reflexivity]|].
        destruct (d =? "fv") eqn:D3; [apply String.eqb_eq in D3; subst d; injection H as <-; split; [constructor; auto|reflexivity]|]. discriminate H.
    + destruct (g =? "cartesian2d") eqn:G'; [apply String.eqb_eq in G'; subst g|discriminate H]. cbn in H.
      destruct (q =? "euler") eqn:Q'; [apply String.eqb_eq in Q'; subst q|discriminate H]. cbn in H.
      destruct (p =? "none") eqn:P; [apply String.eqb_eq in P; subst p|discriminate H]. cbn in H. split; [reflexivity|].
      destruct (d =? "dfr") eqn:D1; [apply String.eqb_eq in D1; subst d; injection H as <-; exists DirectFluxReconstruction; split; [constructor; auto|reflexivity]|].
      destruct (d =? "dg") eqn:D2; [apply String.eqb_eq in D2; subst d; injection H as <-; exists DirectFluxReconstruction; split; [constructor; auto|reflexivity]|].
      destruct (d =? "fv") eqn:D3; [apply String.eqb_eq in D3; subst d; injection H as <-; exists FiniteVolume; split; [constructor; auto|reflexivity]|]. discriminate H.
  - intros [P (r & S & ->)]. destruct c as [q g d p t]. cbn in *. subst p. destruct S; repeat match goal with H : _ \/ _ |- _ => destruct H end; subst; reflexivity.
Qed.
Lemma prepared_raise c e : prepared c = Raise e -> e = ValueError.
Proof.
  unfold prepared, create_geometry, init_state_vars, create_preconditioner, rhs_bundle. intro H.
  repeat match type of H with context [(?x =? ?y)] => destruct (x =? y); cbn in H end; congruence.
Qed.
Lemma handles_full g r : full (handles g r) = Ok r.
Proof. unfold handles. now destruct (g =? _). Qed.
Lemma handles_parts g r : (exists i e, implicit (handles g r) = Ok i /\ explicit (handles g r) = Ok e) \/ (implicit (handles g r) = Raise AttributeError /\ explicit (handles g r) = Raise AttributeError).
Proof. unfold handles. destruct (g =? _); [left; repeat eexists|right; split; reflexivity]. Qed.
Lemma created c m : create c = Ok m <-> preconditioner c = "none" /\ exists r, supported (equations c) (grid_type c) (discretization c) r /\
  (whole r (time_integrator c) m \/ grid_type c = "cartesian2d" /\ partitioned r NotPorted NotPorted (time_integrator c) m).
Proof.
  rewrite create_prepared. split.
  - destruct (prepared c) as [b|] eqn:E; [|discriminate]. cbn. apply prepared_ok in E. destruct E as [P (r & S & ->)]. intro H. split; [exact P|]. exists r. split; [exact S|].
    apply (create_ok _ r) in H; [|apply handles_full|apply handles_parts]. destruct H as [W|(i & e & Pi & Pe & W)]; [now left|right]. unfold handles in Pi, Pe. destruct (grid_type c =? "cartesian2d") eqn:G; [|discriminate Pi]. apply String.eqb_eq in G. split; [exact G|]. cbn in Pi, Pe. injection Pi as <-. injection Pe as <-. exact W.
  - intros [P (r & S & W)]. assert (E : prepared c = Ok (handles (grid_type c) r)) by (apply prepared_ok; eauto). rewrite E. cbn. apply (create_ok _ r); [apply handles_full|apply handles_parts|].
    destruct W as [W|[G W]]; [now left|right]. unfold handles. rewrite G. exists NotPorted, NotPorted. repeat split. exact W.
Qed.
Lemma refused c e : create c = Raise e -> e = ValueError \/ (e = AttributeError /\ grid_type c = "cubed_sphere" /\ split_listed (time_integrator c)).
Proof.
  rewrite create_prepared. destruct (prepared c) as [b|x] eqn:E; cbn; intro H; [|left; injection H as <-; eapply prepared_raise; exact E].
  apply prepared_ok in E. destruct E as [P (r & S & ->)]. destruct (create_raise _ r _ _ (handles_full _ _) (handles_parts _ _) H) as [V|(V & I & L)]; [now left|right]. split; [exact V|]. split; [|exact L].
  destruct S; try reflexivity; discriminate I.
Qed.
Lemma whole_step r name m : whole r name m -> first_step m = evaluate r.
Proof. intros []; try reflexivity. cbn. now destruct (evaluate r) as [[]|]. Qed.
Lemma partitioned_step r name m : partitioned r NotPorted NotPorted name m -> first_step m <> Ok tt.
Proof. intros []; cbn; try discriminate. destruct (evaluate r) as [[]|]; discriminate. Qed.
Lemma runs c : (exists m, create c = Ok m /\ first_step m = Ok tt) <->
  preconditioner c = "none" /\ exists r m, supported (equations c) (grid_type c) (discretization c) r /\ r <> FiniteVolume /\ whole r (time_integrator c) m.
Proof.
  split.
  - intros (m & H & F). apply created in H. destruct H as [P (r & S & [W|[G W]])]; [|destruct (partitioned_step _ _ _ W F)]. split; [exact P|]. exists r, m. split; [exact S|]. split; [|exact W]. intros ->. rewrite (whole_step _ _ _ W) in F. discriminate F.
  - intros [P (r & m & S & N & W)]. exists m. split; [apply created; split; [exact P|]; exists r; split; [exact S|now left]|]. rewrite (whole_step _ _ _ W). destruct S; try reflexivity. congruence.
Qed.
Lemma split_whole r name m m' all imp exp : partitioned all imp exp name m -> whole r name m' -> False.
Proof. intros P W. inversion P; subst; inversion W as [s n D L E|s n D L E|s n D L E| | | | | | |]. Qed.
Lemma never_partitioned c : split_listed (time_integrator c) -> ~ exists m, create c = Ok m /\ first_step m = Ok tt.
Proof. intros (all & imp & exp & m & P) H. apply runs in H. destruct H as [_ (r & m' & _ & _ & W)]. exact (split_whole _ _ _ _ _ _ _ P W). Qed.
Lemma discretization_ignored q p t : create (Config q "cubed_sphere" "fv" p t) = create (Config q "cubed_sphere" "dg" p t).
Proof. unfold create, create_geometry, init_state_vars, rhs_bundle. cbn. destruct (q =? "shallow_water"), (q =? "euler"); reflexivity. Qed.
Lemma raised c : (forall m, create c <> Ok m) -> ~ split_listed (time_integrator c) -> create c = Raise ValueError.
Proof. intros N L. destruct (create c) as [m|e] eqn:E; [destruct (N m eq_refl)|]. apply refused in E. destruct E as [->|(_ & _ & H)]; [reflexivity|destruct (L H)]. Qed.
Lemma supported_unique q g d r r' : supported q g d r -> supported q g d r' -> r = r'.
Proof. intros S S'. destruct S; inversion S'; subst; try reflexivity; repeat match goal with H : _ \/ _ |- _ => destruct H end; congruence. Qed.
Ltac order_of W := inversion W as [s n' D L E|s n' D L E|s n' D L E| | | | | | |].
Lemma orders n q g d r : supported q g d r ->
  create (Config q g d "none" ("epi" ++ decimal n)) = (if (Nat.leb 2 n && Nat.leb n 6)%bool then Ok (Epi n r) else Raise ValueError) /\
  create (Config q g d "none" ("epi_stiff" ++ decimal n)) = (if Nat.leb 2 n then Ok (EpiStiff n r) else Raise ValueError) /\
  create (Config q g d "none" ("srerk" ++ decimal n)) = (if Nat.leb 3 n then Ok (Srerk n r) else Raise ValueError).
Proof.
  intro S. assert (E : forall t, create (Config q g d "none" t) = create_time_integrator (handles g r) t).
  { intro t. rewrite create_prepared. assert (P : prepared (Config q g d "none" t) = Ok (handles g r)) by (apply prepared_ok; split; [reflexivity|]; exists r; split; [exact S|reflexivity]). now rewrite P. }
  rewrite !E. destruct (stands_isdigit _ _ (decimal_stands n)) as [D I]. set (s := decimal n) in *. unfold create_time_integrator. rewrite handles_full. cbn [bind]. rewrite (not_stiff _ D).
  change (take 3 ("epi" ++ s)) with "epi". change (drop 3 ("epi" ++ s)) with s. change (take 9 ("epi_stiff" ++ s)) with "epi_stiff". change (drop 9 ("epi_stiff" ++ s)) with s.
  change (take 9 ("srerk" ++ s)) with ("srerk" ++ take 4 s). change (take 3 ("srerk" ++ s)) with "sre". change (take 5 ("srerk" ++ s)) with "srerk". change (drop 5 ("srerk" ++ s)) with s.
  rewrite D, I. split; [|split].
  - reflexivity.
  - change (new_epi_stiff n r = if Nat.leb 2 n then Ok (EpiStiff n r) else Raise ValueError). unfold new_epi_stiff. rewrite Nat.ltb_antisym. now destruct (Nat.leb 2 n).
  - change (new_srerk n r = if Nat.leb 3 n then Ok (Srerk n r) else Raise ValueError). unfold new_srerk. rewrite Nat.ltb_antisym. now destruct (Nat.leb 3 n).
Qed.
Lemma partitioned_refuted : ~ (forall name, (exists r m, whole r name m) \/ split_listed name -> exists c m, time_integrator c = name /\ create c = Ok m /\ first_step m = Ok tt).
Proof.
  intro H. assert (L : split_listed "imex2") by (exists NotPorted, NotPorted, NotPorted; eexists; constructor). destruct (H "imex2" (or_intror L)) as (c & m & E & C & F). apply (never_partitioned c); [rewrite E; exact L|eauto].
Qed.
Lemma discretization_refuted : ~ (forall q g p t m m', create (Config q g "fv" p t) = Ok m -> create (Config q g "dg" p t) = Ok m' -> m <> m').
Proof. intro H. exact (H "euler" "cubed_sphere" "none" "epi2" _ _ eq_refl eq_refl eq_refl). Qed.
