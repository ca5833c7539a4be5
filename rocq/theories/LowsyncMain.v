(** The statements of C82 *)
From Coq Require Import Reals ZArith List Arith Lra Lia.
From Coquelicot Require Import Coquelicot.
From Verif Require Import InnerSpec FgmresModel KiopsModel PmexSpec PmexModel PmexKrylov KiopsLinear LowsyncModel LowsyncSpec LowsyncProofs LowsyncFacts LowsyncFiles LowsyncPairs LowsyncCases LowsyncGs.
Import ListNotations.
Local Open Scope R_scope.

Section Main.
Context (X : ModuleSpace R_Ring) (dot : X -> X -> R) (A : X -> X) (u : nat -> X) (p : nat) (ex : Z) (P : nat) (f : file) (t : R) (mmax : nat) (ms : list nat) (S : @arrays (@row X)) (x : X) (now : R).
Notation At := (augmented_product A u p ex).
Notation lp := (loop_product dot p P f).
Notation x0 := (start_row p ex x now).
Notation result := (build dot A u p ex P f t mmax ms S x now).
Lemma basis_main : forall K h, scalar_product dot -> linear_map A -> (1 <= p)%nat -> (1 <= P)%nat -> (f = pmex_1s \/ f = cwy_1s -> P = 1%nat) -> 0 < t -> unit_lower (at_ S) -> strictly_upper (an S) -> ms <> [] -> growing mmax 0 ms ->
  result = Some (K, h, false) -> h = largest ms /\ decomposition lp At x0 h (ab K) (av K) (ah K).
Proof. intros K h D L Hp HP C T U1 U2 N G E. pose proof (build_ok dot D A L u p Hp ex P f t mmax ms S x now (conj HP C) T (conj U1 U2) N G) as O. rewrite E in O. exact O. Qed.
Lemma polynomials_main : forall K h, scalar_product dot -> linear_map A -> (1 <= p)%nat -> (1 <= P)%nat -> (f = pmex_1s \/ f = cwy_1s -> P = 1%nat) -> 0 < t -> unit_lower (at_ S) -> strictly_upper (an S) -> ms <> [] -> growing mmax 0 ms ->
  result = Some (K, h, false) -> forall d, (1 <= d <= h + 1)%nat -> reproduces At x0 d (ab K) d (ah K) d (av K).
Proof.
  intros K h D L Hp HP C T U1 U2 N G E d I. destruct (basis_main K h D L Hp HP C T U1 U2 N G E) as [_ (O1 & O2 & O3 & O4 & O5 & O6)].
  apply (dec_reproduces At (PmexKrylov.At_linear A L u p ex) lp); [lia|]. split; [exact O1|]. split; [exact O2|]. split; [intros i k I1 I2; apply O3; lia|]. split; [intros k I1; apply O4; lia|].
  split; [intros k I1; apply O5; lia|intros i k I1 I2; apply O6; lia].
Qed.
Lemma breakdown_main : forall K h, scalar_product dot -> linear_map A -> (1 <= p)%nat -> (1 <= P)%nat -> (f = pmex_1s \/ f = cwy_1s -> P = 1%nat) -> 0 < t -> unit_lower (at_ S) -> strictly_upper (an S) -> ms <> [] -> growing mmax 0 ms ->
  result = Some (K, h, true) -> (1 <= h <= largest ms)%nat /\ decomposition lp At x0 (h - 1) (ab K) (av K) (ah K) /\
  (if match f with pmex_1s | icwy_1s | cwy_1s => true | _ => false end
   then (if Nat.eqb h 1 then ab K else ah K (h - 1)%nat (h - 2)%nat) < t \/ 1 < t
   else exists c r, At (av K (h - 1)%nat) = plus (vec_sum h (fun i => scal (V := row) (c i) (av K i))) r /\ sqrt (lp r r) < t).
Proof.
  intros K h D L Hp HP C T U1 U2 N G E. pose proof (build_ok dot D A L u p Hp ex P f t mmax ms S x now (conj HP C) T (conj U1 U2) N G) as O. rewrite E in O. destruct O as (O1 & O2 & O3). split; [exact O1|]. split; [exact O2|].
  destruct f; cbn [scheme_of broken] in O3; try exact O3; destruct O3 as (r & [R1 _] & R2); exists (fun i => ah K i (h - 1)%nat), r; exact (conj R1 R2).
Qed.
Lemma failure_main : scalar_product dot -> linear_map A -> (1 <= p)%nat -> (1 <= P)%nat -> (f = pmex_1s \/ f = cwy_1s -> P = 1%nat) -> 0 < t -> unit_lower (at_ S) -> strictly_upper (an S) -> ms <> [] -> growing mmax 0 ms ->
  result = None -> f <> pmex /\ f <> icwy_ne /\ f <> cwy_ne /\ exists h b V H r, (1 <= h <= largest ms)%nat /\ decomposition lp At x0 (h - 1) b V H /\ remainder lp At h V H r /\ lp r r = 0.
Proof.
  intros D L Hp HP C T U1 U2 N G E. pose proof (build_ok dot D A L u p Hp ex P f t mmax ms S x now (conj HP C) T (conj U1 U2) N G) as O. rewrite E in O. destruct O as (O1 & O2).
  split; [intros ->; exact (O1 _ eq_refl)|]. split; [intros ->; exact (O1 _ eq_refl)|]. split; [intros ->; exact (O1 _ eq_refl)|exact O2].
Qed.
Lemma shapes_main : forall K h b, (unit_lower (at_ (@fresh (@row X))) /\ strictly_upper (an (@fresh (@row X)))) /\ (unit_lower (at_ S) -> strictly_upper (an S) -> result = Some (K, h, b) -> unit_lower (at_ K) /\ strictly_upper (an K)).
Proof. intros K h b. split; [apply fresh_shape|]. intros U1 U2 E. unfold build in E. exact (substep_shape _ _ _ _ _ _ _ _ _ _ _ _ (conj U1 U2) E). Qed.
End Main.
Lemma product_once : forall (X : ModuleSpace R_Ring) (dot : X -> X -> R) p P f, P = 1%nat \/ ((1 <= P)%nat /\ (f = pmex \/ f = icwy_ne \/ f = cwy_ne)) -> consistent P f /\ loop_product dot p P f = once dot p.
Proof.
  intros X dot p P f [->|[HP F]].
  - split; [split; [lia|reflexivity]|]. destruct f; cbn [loop_product]; try reflexivity; apply each_one.
  - split; [split; [exact HP|intros [-> | ->]; destruct F as [F|[F|F]]; discriminate]|]. destruct F as [->|[->| ->]]; reflexivity.
Qed.
Lemma same_main : forall (X : ModuleSpace R_Ring) (dot : X -> X -> R) A u p ex P f P' f' t t' mmax mmax' ms ms' S S' x now K K' h h', scalar_product dot -> linear_map A -> (1 <= p)%nat ->
  P = 1%nat \/ ((1 <= P)%nat /\ (f = pmex \/ f = icwy_ne \/ f = cwy_ne)) -> P' = 1%nat \/ ((1 <= P')%nat /\ (f' = pmex \/ f' = icwy_ne \/ f' = cwy_ne)) ->
  0 < t -> 0 < t' -> unit_lower (at_ S) -> strictly_upper (an S) -> unit_lower (at_ S') -> strictly_upper (an S') -> ms <> [] -> ms' <> [] -> growing mmax 0 ms -> growing mmax' 0 ms' -> largest ms = largest ms' ->
  build dot A u p ex P f t mmax ms S x now = Some (K, h, false) -> build dot A u p ex P' f' t' mmax' ms' S' x now = Some (K', h', false) ->
  h = h' /\ ab K = ab K' /\ (forall i, (i <= h)%nat -> av K i = av K' i) /\ (forall i k, (i <= h)%nat -> (k < h)%nat -> ah K i k = ah K' i k).
Proof.
  intros X dot A u p ex P f P' f' t t' mmax mmax' ms ms' S S' x now K K' h h' D L Hp HP HP' T T' U1 U2 U1' U2' N N' G G' EL B B'.
  destruct (product_once X dot p P f HP) as [C E], (product_once X dot p P' f' HP') as [C' E'].
  apply (build_same dot D A L u p Hp ex P f P' f' t t' mmax ms mmax' ms' S S' x now K h K' h'); auto; [congruence|split; assumption|split; assumption].
Qed.
Lemma incomplete_main : forall (X : ModuleSpace R_Ring) (dot : X -> X -> R) A u p ex t m S x now, scalar_product dot -> (1 <= p)%nat -> 0 < t ->
  let K := Basis (pv S) (fun _ _ => 0) 0 in
  (exists S1 K1 h b, pairs_loop (step_neiop (augmented_product A u p ex) (once dot p) t) m (pairs_begin (once dot p) S (start_row p ex x now)) 0 = (S1, h, b) /\
     k_orths dot A u p ex 2 t m (k_first dot p ex K x now) 0 = (K1, h, b) /\ pv S1 = bv K1 /\ pb S1 = bb K1 /\ forall i k, b = false \/ (k <> h - 1)%nat -> ph S1 i k = bh K1 i k) /\
  (exists S1 K1 h b, pairs_loop (step_nest (augmented_product A u p ex) (each dot p 1) (once dot p) t) m (pairs_begin (once dot p) S (start_row p ex x now)) 0 = (S1, h, b) /\
     k_orths dot A u p ex 2 t m (k_first dot p ex K x now) 0 = (K1, h, b) /\ pv S1 = bv K1 /\ ph S1 = bh K1 /\ pb S1 = bb K1).
Proof. intros X dot A u p ex t m S x now D Hp T. split; [exact (neiop_ok dot D A u p Hp ex t m S x now T)|exact (nest_ok dot D A u p Hp ex t m S x now T)]. Qed.
Lemma rest_main : forall (X : ModuleSpace R_Ring) (dot : X -> X -> R) A ex P f t mmax ms S, scalar_product dot -> linear_map A -> (1 <= P)%nat -> (f = pmex_1s \/ f = cwy_1s -> P = 1%nat) -> f = pmex_1s \/ f = icwy_1s \/ f = cwy_1s ->
  0 < t -> t <= 1 -> t <= mu ex -> unit_lower (at_ S) -> strictly_upper (an S) -> ms <> [] -> growing mmax 0 ms -> build dot A (fun _ => zero) 1 ex P f t mmax ms S zero 0 = None.
Proof. intros X dot A ex P f t mmax ms S D L HP C F T1 T2 T3 U1 U2 N G. apply (rest_lagged dot D A L); auto; [split; assumption|split; assumption]. Qed.
Lemma rest_ne_main : forall (X : ModuleSpace R_Ring) (dot : X -> X -> R) A ex P f t mmax ms S, scalar_product dot -> linear_map A -> (1 <= P)%nat -> f = pmex \/ f = icwy_ne \/ f = cwy_ne ->
  0 < t -> unit_lower (at_ S) -> strictly_upper (an S) -> ms <> [] -> growing mmax 0 ms -> exists K, build dot A (fun _ => zero) 1 ex P f t mmax ms S zero 0 = Some (K, 1%nat, true) /\ scal (V := row) (ab K) (av K 0%nat) = start_row 1 ex zero 0.
Proof. intros X dot A ex P f t mmax ms S D L HP F T U1 U2 N G. apply (rest_ne dot D A L); auto. split; assumption. Qed.
Lemma line_main : scalar_product ldot /\ linear_map still /\ forall f, exists K, build ldot still (push 1) 1 0 1 f lone 128 [1%nat] fresh 1 0 = Some (K, 1%nat, false).
Proof.
  split; [exact ldot_ok|]. split; [exact still_linear|]. intros f. destruct (line_build 1 f 128 fresh (or_introl eq_refl)) as (K & E & _); [split; [lia|reflexivity]|lia|apply fresh_shape|]. exists K. exact E.
Qed.
Lemma growing_main : growing 128 0 [10; 14; 19; 128; 128]%nat /\ largest [10; 14; 19; 128; 128]%nat = 128%nat.
Proof. split; [cbn [growing]; repeat split; lia|reflexivity]. Qed.

Lemma compact_main : forall (W : ModuleSpace R_Ring) (lp : W -> W -> R) (V : nat -> W) j N I, (forall x y, lp x y = lp y x) -> (forall x y z, lp (plus x y) z = lp x z + lp y z) -> (forall a x z, lp (scal (V := W) a x) z = a * lp x z) ->
  let left := reduce V j (coefficients Compact (rows_of lp V Compact j) N I j (fun i => lp (V i) (V j))) in left = swept lp V (V j) j /\ ((0 < j)%nat -> lp (V (j - 1)%nat) (V (j - 1)%nat) = 1 -> lp (V (j - 1)%nat) left = 0).
Proof.
  intros W lp V j N I H1 H2 H3 left. assert (E : left = swept lp V (V j) j) by exact (compact_left lp H1 H2 H3 V (V j) V j N I (fun _ _ => eq_refl) eq_refl). split; [exact E|].
  intros Hj U. rewrite E. destruct j as [|j]; [lia|]. replace (S j - 1)%nat with j in * by lia. exact (swept_last lp H1 H2 H3 V _ j U).
Qed.
Lemma inverse_main : forall (W : ModuleSpace R_Ring) (lp : W -> W -> R) (V : nat -> W) w j N I i, (forall x y, lp x y = lp y x) -> (forall x y z, lp (plus x y) z = lp x z + lp y z) -> (forall a x z, lp (scal (V := W) a x) z = a * lp x z) -> (i < j)%nat ->
  coefficients Inverse_compact (rows_of lp V Inverse_compact j) N I j (fun i => lp (V i) w) i = sweep lp V w i - rsum i (fun q => lp (V i) (V q) * rsum q (fun r => lp (V q) (V r) * sweep lp V w r)).
Proof. intros W lp V w j N I i H1 H2 H3. exact (inverse_ok lp H1 H2 H3 V w j N I i). Qed.
Lemma triangular_main : forall (W : ModuleSpace R_Ring) (lp : W -> W -> R) (V : nat -> W) j T, (forall x y, lp x y = lp y x) -> (forall x y z, lp (plus x y) z = lp x z + lp y z) -> (forall a x z, lp (scal (V := W) a x) z = a * lp x z) -> lp (V j) (V j) = 1 ->
  let a := coefficients Gauss_Seidel T (cols_of lp V (j + 1)) (rows_of lp V Gauss_Seidel (j + 1)) (j + 1) (fun i => lp (V i) (V (j + 1)%nat)) in
  lp (V j) (reduce V (j + 1) a) = - rsum j (fun i => lp (V j) (V i) * a i) /\ forall i, (i <= j)%nat -> a i = lp (V i) (V (j + 1)%nat) - rsum (j + 1) (fun r => if Nat.ltb i r then lp (V i) (V r) * sweep lp V (V (j + 1)%nat) r else 0).
Proof.
  intros W lp V j T H1 H2 H3 U. rewrite Nat.add_1_r. cbv zeta. split; [exact (gauss_left lp H1 H2 H3 V (V (S j)) V j T (fun _ _ => eq_refl) eq_refl U)|]. intros i Hi. apply (gauss_ok lp H1 H2 H3). lia.
Qed.
Lemma triangular_case : forall e, e ^ 2 <= 1 -> let V := nearly e in pdot (V 0%nat) (V 0%nat) = 1 /\ pdot (V 1%nat) (V 1%nat) = 1 /\ pdot (V 1%nat) (V 0%nat) = e /\
  pdot (V 1%nat) (reduce V 2 (coefficients Gauss_Seidel (fun _ _ => 0) (cols_of pdot V 2) (rows_of pdot V Gauss_Seidel 2) 2 (fun i => pdot (V i) (V 2%nat)))) = - e /\
  pdot (V 1%nat) (reduce V 2 (coefficients Compact (rows_of pdot V Compact 2) (fun _ _ => 0) (fun _ _ => 0) 2 (fun i => pdot (V i) (V 2%nat)))) = 0.
Proof. intros e H V. destruct (nearly_unit e H) as (A & B & C), (nearly_left e H) as (D & E). exact (conj A (conj B (conj C (conj D E)))). Qed.
