(** The compiled fluxes: loops over flat memory. *)
From Coq Require Import Reals Arith List Bool Lia Lra Psatz.
From Verif Require Import FluxModel FluxSpec FluxProofs.
Import ListNotations.
Open Scope R_scope.

(** ** loops *)
Lemma loop_keep n (body : nat -> memory -> memory) s x : (forall k s, (k < n)%nat -> body k s x = s x) -> for_loop n body s x = s x.
Proof. induction n as [|n IH]; intros H; [reflexivity|]. cbn [for_loop]. rewrite H by lia. apply IH. intros; apply H; lia. Qed.
Lemma loop_one n (body : nat -> memory -> memory) s x V k0 : (k0 < n)%nat -> (forall k s, (k < n)%nat -> k <> k0 -> body k s x = s x) -> (forall s, body k0 s x = V) -> for_loop n body s x = V.
Proof.
  induction n as [|n IH]; intros Hk H1 H2; [lia|]. cbn [for_loop]. destruct (Nat.eq_dec n k0) as [->|N]; [apply H2|].
  rewrite H1 by lia. apply IH; [lia| |assumption]. intros; apply H1; lia.
Qed.
Lemma loop_fst {A B} n (body : nat -> A * B -> A * B) (body1 : nat -> A -> A) s : (forall k s, fst (body k s) = body1 k (fst s)) -> fst (for_loop n body s) = for_loop n body1 (fst s).
Proof. intros H. induction n as [|n IH]; [reflexivity|]. cbn [for_loop]. rewrite H, IH. reflexivity. Qed.
Lemma loop_snd {A B} n (body : nat -> A * B -> A * B) (body2 : nat -> B -> B) s : (forall k s, snd (body k s) = body2 k (snd s)) -> snd (for_loop n body s) = for_loop n body2 (snd s).
Proof. intros H. induction n as [|n IH]; [reflexivity|]. cbn [for_loop]. rewrite H, IH. reflexivity. Qed.

(** ** addresses *)
Lemma pair_inj n e k e' k' : (k < n)%nat -> (k' < n)%nat -> (e * n + k = e' * n + k')%nat -> e = e' /\ k = k'.
Proof. intros. assert (e = e') by nia. subst. lia. Qed.
Lemma index_eq i j k n2 n1 nr : get_c_index 0 i j k n2 n1 nr = ((i * n1 + j) * nr + k)%nat.
Proof. unfold get_c_index. nia. Qed.
Lemma index_inj i j k i' j' k' n2 n1 nr : (j < n1)%nat -> (j' < n1)%nat -> (k < nr)%nat -> (k' < nr)%nat -> get_c_index 0 i j k n2 n1 nr = get_c_index 0 i' j' k' n2 n1 nr -> i = i' /\ j = j' /\ k = k'.
Proof. rewrite !index_eq. intros ? ? ? ? H. apply pair_inj in H; [|assumption..]. destruct H as [H ->]. apply pair_inj in H; [|assumption..]. destruct H. auto. Qed.
Lemma index_lt i j k n2 n1 nr : (i < n2)%nat -> (j < n1)%nat -> (k < nr)%nat -> (get_c_index 0 i j k n2 n1 nr < n1 * n2 * nr)%nat.
Proof. intros. rewrite index_eq. assert (i * n1 + j < n1 * n2)%nat by nia. nia. Qed.
Lemma store_at m a x b : store m a x b = if (b =? a)%nat then x else m b.
Proof. reflexivity. Qed.
Lemma state_same m ind stride x v : (ind < stride)%nat -> (v < 4)%nat -> store_state m ind stride x (v * stride + ind)%nat = x v.
Proof.
  intros H Hv. unfold store_state. rewrite !store_at.
  destruct v as [|[|[|[|v]]]]; [| | | |lia]; repeat match goal with |- context [(?a =? ?b)%nat] => destruct (Nat.eqb_spec a b); [try reflexivity; exfalso; lia|try (exfalso; lia)] end.
Qed.
Lemma state_other m ind ind' stride x v : (ind < stride)%nat -> (ind' < stride)%nat -> (v < 4)%nat -> ind' <> ind -> store_state m ind stride x (v * stride + ind')%nat = m (v * stride + ind')%nat.
Proof.
  intros H H' Hv N. unfold store_state. rewrite !store_at.
  destruct v as [|[|[|[|v]]]]; [| | | |lia]; repeat match goal with |- context [(?a =? ?b)%nat] => destruct (Nat.eqb_spec a b); [exfalso; lia|] end; reflexivity.
Qed.

(** ** kernels *)
Lemma cpp_pressure x : p0 * Rpower (x * Rd * inp0) heat_capacity_ratio = pressure_faces x.
Proof. unfold pressure_faces, heat_capacity_ratio. do 2 f_equal. unfold inp0. field. unfold p0. lra. Qed.
Lemma cpp_riemann l r dir v : (v < 4)%nat -> riemann_kernel l r dir v = plane_ausm (if dir then 2 else 1) l r v.
Proof.
  intros Hv. unfold riemann_kernel, plane_ausm. cbv zeta. rewrite !cpp_pressure.
  assert (S : forall p rho, sqrt (heat_capacity_ratio * p * (1 / rho)) = sqrt (heat_capacity_ratio * p / rho)) by (intros; f_equal; unfold Rdiv; ring).
  assert (D : forall x rho a, x * (1 / rho) / a = x / (rho * a)) by (intros; unfold Rdiv; rewrite Rinv_mult; ring).
  assert (Q : forall a b, 1 / 4 * ((a + 1) * (a + 1) - (b - 1) * (b - 1)) = 1 / 4 * ((a + 1) ^ 2 - (b - 1) ^ 2)) by (intros; ring).
  destruct dir; rewrite !S, !D, !Q; destruct v as [|[|[|[|v]]]]; try lia; cbn [Nat.eqb]; ring.
Qed.
Lemma cpp_boundary q dir v : (v < 4)%nat -> boundary_kernel q dir v = wall_flux (if dir then 2 else 1) q v.
Proof.
  intros Hv. unfold boundary_kernel, wall_flux. cbv zeta. rewrite cpp_pressure.
  destruct dir; destruct v as [|[|[|[|v]]]]; try lia; reflexivity.
Qed.

(** ** the Riemann problems of a grid of n2 rows of n1 elements *)
Section Grid.
Variables (n1 n2 ns : nat) (q1 q2 : memory) (f : memory * memory).
Let nr := (2 * ns)%nat.
Let stride := (n1 * n2 * nr)%nat.
Let index i j k := get_c_index 0 i j k n2 n1 nr.
(** value of a variable at a face *)
Definition addr (v i j k : nat) : nat := (v * stride + index i j k)%nat.
Let state (q : memory) i j k : nat -> R := fun v => q (addr v i j k).
Let wall q dir i j k (s : memory) : memory := store_state s (index i j k) stride (boundary_kernel (load q (index i j k) stride) dir).

Lemma pair_left q dir s i j k i' j' k' v : (i < n2)%nat -> (j < n1)%nat -> (k < nr)%nat -> (i' < n2)%nat -> (j' < n1)%nat -> (k' < nr)%nat -> (v < 4)%nat -> (i, j, k) <> (i', j', k') ->
  riemann_pair q (index i j k) (index i' j' k') stride dir s (addr v i j k) = riemann_kernel (state q i j k) (state q i' j' k') dir v.
Proof.
  intros ? ? ? ? ? ? ? N. unfold riemann_pair, addr. rewrite state_other.
  - apply state_same; [apply index_lt; assumption|assumption].
  - apply index_lt; assumption.
  - apply index_lt; assumption.
  - assumption.
  - intros E. apply index_inj in E; [|assumption..]. destruct E as (-> & -> & ->). apply N. reflexivity.
Qed.
Lemma pair_right q dir s i j k i' j' k' v : (i < n2)%nat -> (j < n1)%nat -> (k < nr)%nat -> (i' < n2)%nat -> (j' < n1)%nat -> (k' < nr)%nat -> (v < 4)%nat ->
  riemann_pair q (index i j k) (index i' j' k') stride dir s (addr v i' j' k') = riemann_kernel (state q i j k) (state q i' j' k') dir v.
Proof. intros. unfold riemann_pair, addr. apply state_same; [apply index_lt; assumption|assumption]. Qed.
Lemma pair_other q dir s i j k i' j' k' a b c v : (i < n2)%nat -> (j < n1)%nat -> (k < nr)%nat -> (i' < n2)%nat -> (j' < n1)%nat -> (k' < nr)%nat -> (a < n2)%nat -> (b < n1)%nat -> (c < nr)%nat -> (v < 4)%nat ->
  (a, b, c) <> (i, j, k) -> (a, b, c) <> (i', j', k') -> riemann_pair q (index i j k) (index i' j' k') stride dir s (addr v a b c) = s (addr v a b c).
Proof.
  intros ? ? ? ? ? ? ? ? ? ? N1 N2. unfold riemann_pair, addr. rewrite !state_other; try reflexivity; try assumption; try (apply index_lt; assumption).
  - intros E. apply index_inj in E; [|assumption..]. destruct E as (-> & -> & ->). apply N1. reflexivity.
  - intros E. apply index_inj in E; [|assumption..]. destruct E as (-> & -> & ->). apply N2. reflexivity.
Qed.
Lemma wall_same q dir s i j k v : (i < n2)%nat -> (j < n1)%nat -> (k < nr)%nat -> (v < 4)%nat -> wall q dir i j k s (addr v i j k) = boundary_kernel (state q i j k) dir v.
Proof. intros. unfold wall, addr. apply state_same; [apply index_lt; assumption|assumption]. Qed.
Lemma wall_other q dir s i j k a b c v : (i < n2)%nat -> (j < n1)%nat -> (k < nr)%nat -> (a < n2)%nat -> (b < n1)%nat -> (c < nr)%nat -> (v < 4)%nat -> (a, b, c) <> (i, j, k) -> wall q dir i j k s (addr v a b c) = s (addr v a b c).
Proof.
  intros ? ? ? ? ? ? ? N. unfold wall, addr. apply state_other; try assumption; try (apply index_lt; assumption).
  intros E. apply index_inj in E; [|assumption..]. destruct E as (-> & -> & ->). apply N. reflexivity.
Qed.

(** the two memories separately *)
Definition interior1 : memory := for_loop n2 (fun i => for_loop n1 (fun j s => if (j + 1 <? n1)%nat then for_loop ns (fun k => riemann_pair q1 (index i j (ns + k)%nat) (index i (j + 1)%nat k) stride false) s else s)) (fst f).
Definition interior2 : memory := for_loop n2 (fun i => for_loop n1 (fun j s => if (i + 1 <? n2)%nat then for_loop ns (fun k => riemann_pair q2 (index i j (ns + k)%nat) (index (i + 1)%nat j k) stride true) s else s)) (snd f).
Lemma riemann_split : riemann_eulercartesian_ausm_2d q1 q2 n1 n2 ns f =
  (for_loop n2 (fun i => for_loop ns (fun j s => wall q1 false i (n1 - 1)%nat (j + ns)%nat (wall q1 false i 0%nat j s))) interior1,
   for_loop n1 (fun i => for_loop ns (fun j s => wall q2 true (n2 - 1)%nat i (j + ns)%nat (wall q2 true 0%nat i j s))) interior2).
Proof.
  unfold riemann_eulercartesian_ausm_2d. cbv zeta. f_equal.
  - match goal with |- for_loop _ _ (fst ?X) = _ => replace (fst X) with interior1; [reflexivity|] end.
    symmetry. unfold interior1. apply loop_fst. intros i s. apply loop_fst. clear s. intros j s.
    destruct (i + 1 <? n2)%nat, (j + 1 <? n1)%nat; reflexivity.
  - match goal with |- for_loop _ _ (snd ?X) = _ => replace (snd X) with interior2; [reflexivity|] end.
    symmetry. unfold interior2. apply loop_snd. intros i s. apply loop_snd. clear s. intros j s.
    destruct (i + 1 <? n2)%nat, (j + 1 <? n1)%nat; reflexivity.
Qed.
Ltac differ := let E := fresh in intros E; injection E; intros; lia.

Lemma x1_low_wall i k v : (i < n2)%nat -> (0 < n1)%nat -> (k < ns)%nat -> (v < 4)%nat ->
  fst (riemann_eulercartesian_ausm_2d q1 q2 n1 n2 ns f) (addr v i 0 k) = boundary_kernel (state q1 i 0 k) false v.
Proof.
  intros Hi Hn Hk Hv. rewrite riemann_split. cbn [fst]. apply (loop_one _ _ _ _ _ i); [assumption| |].
  - intros i' s Hi' N. apply loop_keep. intros j s' Hj. rewrite !wall_other; try lia; try differ. reflexivity.
  - intros s. apply (loop_one _ _ _ _ _ k); [assumption| |].
    + intros j s' Hj N. rewrite !wall_other; try lia; try differ. reflexivity.
    + intros s'. rewrite wall_other; try lia; try differ. apply wall_same; lia.
Qed.
Lemma x1_high_wall i k v : (i < n2)%nat -> (0 < n1)%nat -> (k < ns)%nat -> (v < 4)%nat ->
  fst (riemann_eulercartesian_ausm_2d q1 q2 n1 n2 ns f) (addr v i (n1 - 1) (ns + k)) = boundary_kernel (state q1 i (n1 - 1) (ns + k)) false v.
Proof.
  intros Hi Hn Hk Hv. rewrite riemann_split. cbn [fst]. apply (loop_one _ _ _ _ _ i); [assumption| |].
  - intros i' s Hi' N. apply loop_keep. intros j s' Hj. rewrite !wall_other; try lia; try differ. reflexivity.
  - intros s. apply (loop_one _ _ _ _ _ k); [assumption| |].
    + intros j s' Hj N. rewrite !wall_other; try lia; try differ. reflexivity.
    + intros s'. replace (k + ns)%nat with (ns + k)%nat by lia. apply wall_same; lia.
Qed.
Lemma x1_inner i j k v : (i < n2)%nat -> (j + 1 < n1)%nat -> (k < ns)%nat -> (v < 4)%nat ->
  let x := riemann_kernel (state q1 i j (ns + k)) (state q1 i (j + 1) k) false v in
  fst (riemann_eulercartesian_ausm_2d q1 q2 n1 n2 ns f) (addr v i j (ns + k)) = x /\ fst (riemann_eulercartesian_ausm_2d q1 q2 n1 n2 ns f) (addr v i (j + 1) k) = x.
Proof.
  intros Hi Hj Hk Hv. cbv zeta. rewrite riemann_split. cbn [fst].
  assert (K : forall a b c, (a < n2)%nat -> (b < n1)%nat -> (c < nr)%nat -> ((c < ns)%nat -> (0 < b)%nat) -> ((ns <= c)%nat -> (b + 1 < n1)%nat) -> forall s,
    for_loop n2 (fun i => for_loop ns (fun j s => wall q1 false i (n1 - 1)%nat (j + ns)%nat (wall q1 false i 0%nat j s))) s (addr v a b c) = s (addr v a b c)).
  { intros a b c Ha Hb Hc H1 H2 s. apply loop_keep. intros i' s' Hi'. apply loop_keep. intros j' s'' Hj'. rewrite !wall_other; try lia; try reflexivity; intros E; injection E; intros; lia. }
  split; rewrite K by lia; unfold interior1; apply (loop_one _ _ _ _ _ i); try assumption.
  - intros i' s Hi' N. apply loop_keep. intros j' s' Hj'. destruct (Nat.ltb_spec (j' + 1) n1); [|reflexivity].
    apply loop_keep. intros k' s'' Hk'. apply pair_other; try lia; differ.
  - intros s. apply (loop_one _ _ _ _ _ j); [lia| |].
    + intros j' s' Hj' N. destruct (Nat.ltb_spec (j' + 1) n1); [|reflexivity]. apply loop_keep. intros k' s'' Hk'. apply pair_other; try lia; differ.
    + intros s'. destruct (Nat.ltb_spec (j + 1) n1); [|lia]. apply (loop_one _ _ _ _ _ k); [assumption| |].
      * intros k' s'' Hk' N. apply pair_other; try lia; differ.
      * intros s''. apply pair_left; try lia; differ.
  - intros i' s Hi' N. apply loop_keep. intros j' s' Hj'. destruct (Nat.ltb_spec (j' + 1) n1); [|reflexivity].
    apply loop_keep. intros k' s'' Hk'. apply pair_other; try lia; differ.
  - intros s. apply (loop_one _ _ _ _ _ j); [lia| |].
    + intros j' s' Hj' N. destruct (Nat.ltb_spec (j' + 1) n1); [|reflexivity]. apply loop_keep. intros k' s'' Hk'. apply pair_other; try lia; differ.
    + intros s'. destruct (Nat.ltb_spec (j + 1) n1); [|lia]. apply (loop_one _ _ _ _ _ k); [assumption| |].
      * intros k' s'' Hk' N. apply pair_other; try lia; differ.
      * intros s''. apply pair_right; lia.
Qed.
Lemma x2_low_wall j k v : (0 < n2)%nat -> (j < n1)%nat -> (k < ns)%nat -> (v < 4)%nat ->
  snd (riemann_eulercartesian_ausm_2d q1 q2 n1 n2 ns f) (addr v 0 j k) = boundary_kernel (state q2 0 j k) true v.
Proof.
  intros Hi Hn Hk Hv. rewrite riemann_split. cbn [snd]. apply (loop_one _ _ _ _ _ j); [assumption| |].
  - intros i' s Hi' N. apply loop_keep. intros j' s' Hj. rewrite !wall_other; try lia; try differ. reflexivity.
  - intros s. apply (loop_one _ _ _ _ _ k); [assumption| |].
    + intros j' s' Hj N. rewrite !wall_other; try lia; try differ. reflexivity.
    + intros s'. rewrite wall_other; try lia; try differ. apply wall_same; lia.
Qed.
Lemma x2_high_wall j k v : (0 < n2)%nat -> (j < n1)%nat -> (k < ns)%nat -> (v < 4)%nat ->
  snd (riemann_eulercartesian_ausm_2d q1 q2 n1 n2 ns f) (addr v (n2 - 1) j (ns + k)) = boundary_kernel (state q2 (n2 - 1) j (ns + k)) true v.
Proof.
  intros Hi Hn Hk Hv. rewrite riemann_split. cbn [snd]. apply (loop_one _ _ _ _ _ j); [assumption| |].
  - intros i' s Hi' N. apply loop_keep. intros j' s' Hj. rewrite !wall_other; try lia; try differ. reflexivity.
  - intros s. apply (loop_one _ _ _ _ _ k); [assumption| |].
    + intros j' s' Hj N. rewrite !wall_other; try lia; try differ. reflexivity.
    + intros s'. replace (k + ns)%nat with (ns + k)%nat by lia. apply wall_same; lia.
Qed.
Lemma x2_inner i j k v : (i + 1 < n2)%nat -> (j < n1)%nat -> (k < ns)%nat -> (v < 4)%nat ->
  let x := riemann_kernel (state q2 i j (ns + k)) (state q2 (i + 1) j k) true v in
  snd (riemann_eulercartesian_ausm_2d q1 q2 n1 n2 ns f) (addr v i j (ns + k)) = x /\ snd (riemann_eulercartesian_ausm_2d q1 q2 n1 n2 ns f) (addr v (i + 1) j k) = x.
Proof.
  intros Hi Hj Hk Hv. cbv zeta. rewrite riemann_split. cbn [snd].
  assert (K : forall a b c, (a < n2)%nat -> (b < n1)%nat -> (c < nr)%nat -> ((c < ns)%nat -> (0 < a)%nat) -> ((ns <= c)%nat -> (a + 1 < n2)%nat) -> forall s,
    for_loop n1 (fun i => for_loop ns (fun j s => wall q2 true (n2 - 1)%nat i (j + ns)%nat (wall q2 true 0%nat i j s))) s (addr v a b c) = s (addr v a b c)).
  { intros a b c Ha Hb Hc H1 H2 s. apply loop_keep. intros i' s' Hi'. apply loop_keep. intros j' s'' Hj'. rewrite !wall_other; try lia; try reflexivity; intros E; injection E; intros; lia. }
  split; rewrite K by lia; unfold interior2; apply (loop_one _ _ _ _ _ i); try lia.
  - intros i' s Hi' N. apply loop_keep. intros j' s' Hj'. destruct (Nat.ltb_spec (i' + 1) n2); [|reflexivity].
    apply loop_keep. intros k' s'' Hk'. apply pair_other; try lia; differ.
  - intros s. apply (loop_one _ _ _ _ _ j); [lia| |].
    + intros j' s' Hj' N. destruct (Nat.ltb_spec (i + 1) n2); [|reflexivity]. apply loop_keep. intros k' s'' Hk'. apply pair_other; try lia; differ.
    + intros s'. destruct (Nat.ltb_spec (i + 1) n2); [|lia]. apply (loop_one _ _ _ _ _ k); [assumption| |].
      * intros k' s'' Hk' N. apply pair_other; try lia; differ.
      * intros s''. apply pair_left; try lia; differ.
  - intros i' s Hi' N. apply loop_keep. intros j' s' Hj'. destruct (Nat.ltb_spec (i' + 1) n2); [|reflexivity].
    apply loop_keep. intros k' s'' Hk'. apply pair_other; try lia; differ.
  - intros s. apply (loop_one _ _ _ _ _ j); [lia| |].
    + intros j' s' Hj' N. destruct (Nat.ltb_spec (i + 1) n2); [|reflexivity]. apply loop_keep. intros k' s'' Hk'. apply pair_other; try lia; differ.
    + intros s'. destruct (Nat.ltb_spec (i + 1) n2); [|lia]. apply (loop_one _ _ _ _ _ k); [assumption| |].
      * intros k' s'' Hk' N. apply pair_other; try lia; differ.
      * intros s''. apply pair_right; lia.
Qed.
End Grid.

(** ** agreement with the Python version *)
(** the arrays of the Python version hold the same values *)
Definition in_memory (n1 n2 np : nat) (q : memory) : nat -> face := fun v e p => q (v * (n1 * n2 * np) + (e * np + p))%nat.
Lemma addr_memory n1 n2 ns (q : memory) v i j k : q (addr n1 n2 ns v i j k) = in_memory n1 n2 (2 * ns) q v (i * n1 + j)%nat k.
Proof. unfold addr, in_memory. rewrite index_eq. reflexivity. Qed.
Lemma cpp_python_x1 n1 n2 ns q1 q2 f empty v e p : (e < n1 * n2)%nat -> (p < 2 * ns)%nat -> (v < 4)%nat ->
  in_memory n1 n2 (2 * ns) (fst (riemann_eulercartesian_ausm_2d q1 q2 n1 n2 ns f)) v e p = bubble_common_flux_x n1 n2 ns (in_memory n1 n2 (2 * ns) q1) empty v e p.
Proof.
  intros He Hp Hv. assert (Hn : (0 < n1)%nat) by nia.
  pose proof (Nat.div_mod e n1 ltac:(lia)) as Dm. pose proof (Nat.mod_upper_bound e n1 ltac:(lia)) as Hj. assert (Hi : (e / n1 < n2)%nat) by (apply Nat.div_lt_upper_bound; lia).
  set (i := (e / n1)%nat) in *. set (j := (e mod n1)%nat) in *. assert (E : e = (i * n1 + j)%nat) by lia. clearbody i j. clear Dm. subst e.
  rewrite <- addr_memory. destruct (Nat.lt_ge_cases p ns) as [Hlo|Hhi].
  - destruct j as [|j].
    + rewrite x1_low_wall by lia. rewrite Nat.add_0_r, bubble_x_west, cpp_boundary by lia.
      unfold wall_flux. rewrite addr_memory, Nat.add_0_r. reflexivity.
    + replace (S j) with (j + 1)%nat in * by lia. destruct (x1_inner n1 n2 ns q1 q2 f i j p v) as [_ ->]; try lia.
      destruct (bubble_x_inner n1 n2 ns (in_memory n1 n2 (2 * ns) q1) empty i j p v) as [_ ->]; try lia. rewrite cpp_riemann by assumption.
      unfold plane_ausm. rewrite !addr_memory. reflexivity.
  - replace p with (ns + (p - ns))%nat by lia. set (k := (p - ns)%nat). assert (Hk : (k < ns)%nat) by lia. clearbody k. clear p Hp Hhi.
    destruct (Nat.eq_dec j (n1 - 1)) as [->|Nj].
    + rewrite x1_high_wall by lia. rewrite bubble_x_east, cpp_boundary by lia. unfold wall_flux. rewrite addr_memory. reflexivity.
    + destruct (x1_inner n1 n2 ns q1 q2 f i j k v) as [-> _]; try lia.
      destruct (bubble_x_inner n1 n2 ns (in_memory n1 n2 (2 * ns) q1) empty i j k v) as [-> _]; try lia. rewrite cpp_riemann by assumption.
      unfold plane_ausm. rewrite !addr_memory. reflexivity.
Qed.
Lemma cpp_python_x2 n1 n2 ns q1 q2 f empty v e p : (e < n1 * n2)%nat -> (p < 2 * ns)%nat -> (v < 4)%nat ->
  in_memory n1 n2 (2 * ns) (snd (riemann_eulercartesian_ausm_2d q1 q2 n1 n2 ns f)) v e p = bubble_common_flux_z n1 n2 ns (in_memory n1 n2 (2 * ns) q2) empty v e p.
Proof.
  intros He Hp Hv. assert (Hn : (0 < n1)%nat) by nia.
  pose proof (Nat.div_mod e n1 ltac:(lia)) as Dm. pose proof (Nat.mod_upper_bound e n1 ltac:(lia)) as Hj. assert (Hi : (e / n1 < n2)%nat) by (apply Nat.div_lt_upper_bound; lia).
  set (i := (e / n1)%nat) in *. set (j := (e mod n1)%nat) in *. assert (E : e = (i * n1 + j)%nat) by lia. clearbody i j. clear Dm. subst e.
  rewrite <- addr_memory. destruct (Nat.lt_ge_cases p ns) as [Hlo|Hhi].
  - destruct i as [|i].
    + rewrite x2_low_wall by lia. cbn [Nat.mul Nat.add]. rewrite bubble_z_ground, cpp_boundary by lia. unfold wall_flux. rewrite addr_memory. reflexivity.
    + replace (S i) with (i + 1)%nat in * by lia. destruct (x2_inner n1 n2 ns q1 q2 f i j p v) as [_ ->]; try lia.
      destruct (bubble_z_inner n1 n2 ns (in_memory n1 n2 (2 * ns) q2) empty i j p v) as [_ ->]; try lia. rewrite cpp_riemann by assumption.
      unfold plane_ausm. rewrite !addr_memory. reflexivity.
  - replace p with (ns + (p - ns))%nat by lia. set (k := (p - ns)%nat). assert (Hk : (k < ns)%nat) by lia. clearbody k. clear p Hp Hhi.
    destruct (Nat.eq_dec i (n2 - 1)) as [->|Nj].
    + rewrite x2_high_wall by lia. rewrite bubble_z_lid, cpp_boundary by lia. unfold wall_flux. rewrite addr_memory. reflexivity.
    + destruct (x2_inner n1 n2 ns q1 q2 f i j k v) as [-> _]; try lia.
      destruct (bubble_z_inner n1 n2 ns (in_memory n1 n2 (2 * ns) q2) empty i j k v) as [-> _]; try lia. rewrite cpp_riemann by assumption.
      unfold plane_ausm. rewrite !addr_memory. reflexivity.
Qed.
(** the fluxes at the points *)
Lemma cpp_pointwise_kernel q dir v : (v < 4)%nat -> pointwise_kernel q dir v = (if dir then bubble_flux_x3 else bubble_flux_x1) (q 0%nat) (q 1%nat) (q 2%nat) (q 3%nat) v.
Proof.
  intros Hv. unfold pointwise_kernel, bubble_flux_x1, bubble_flux_x3, pressure_points, heat_capacity_ratio. cbv zeta.
  replace Rdinp0 with (Rd / p0) by (unfold Rdinp0, inp0; field; unfold p0; lra).
  destruct dir; destruct v as [|[|[|[|v]]]]; try lia; unfold Rdiv; ring.
Qed.
Lemma cpp_python_points n1 n2 np q f v e p : (e < n1 * n2)%nat -> (p < np)%nat -> (v < 4)%nat ->
  let Q := fun c => in_memory n1 n2 np q c e p in
  in_memory n1 n2 np (fst (pointwise_eulercartesian_2d q n1 n2 np f)) v e p = bubble_flux_x1 (Q 0%nat) (Q 1%nat) (Q 2%nat) (Q 3%nat) v /\
  in_memory n1 n2 np (snd (pointwise_eulercartesian_2d q n1 n2 np f)) v e p = bubble_flux_x3 (Q 0%nat) (Q 1%nat) (Q 2%nat) (Q 3%nat) v.
Proof.
  intros He Hp Hv. cbv zeta. assert (Hn : (0 < n1)%nat) by nia.
  pose proof (Nat.div_mod e n1 ltac:(lia)) as Dm. pose proof (Nat.mod_upper_bound e n1 ltac:(lia)) as Hj. assert (Hi : (e / n1 < n2)%nat) by (apply Nat.div_lt_upper_bound; lia).
  set (i := (e / n1)%nat) in *. set (j := (e mod n1)%nat) in *. assert (E : e = (i * n1 + j)%nat) by lia. clearbody i j. clear Dm. subst e.
  assert (G : forall dir, (fun i => for_loop n1 (fun j => for_loop np (fun k (s : memory) => store_state s (get_c_index 0 i j k n2 n1 np) (n1 * n2 * np) (pointwise_kernel (load q (get_c_index 0 i j k n2 n1 np) (n1 * n2 * np)) dir)))) = (fun i => for_loop n1 (fun j => for_loop np (fun k (s : memory) => store_state s (get_c_index 0 i j k n2 n1 np) (n1 * n2 * np) (pointwise_kernel (load q (get_c_index 0 i j k n2 n1 np) (n1 * n2 * np)) dir))))) by reflexivity.
  assert (W : forall dir s, for_loop n2 (fun i => for_loop n1 (fun j => for_loop np (fun k (s : memory) => store_state s (get_c_index 0 i j k n2 n1 np) (n1 * n2 * np) (pointwise_kernel (load q (get_c_index 0 i j k n2 n1 np) (n1 * n2 * np)) dir)))) s (v * (n1 * n2 * np) + get_c_index 0 i j p n2 n1 np)%nat = pointwise_kernel (load q (get_c_index 0 i j p n2 n1 np) (n1 * n2 * np)) dir v).
  { intros dir s.
    assert (O : forall i' j' k' (s : memory), (i' < n2)%nat -> (j' < n1)%nat -> (k' < np)%nat -> (i, j, p) <> (i', j', k') ->
      store_state s (get_c_index 0 i' j' k' n2 n1 np) (n1 * n2 * np) (pointwise_kernel (load q (get_c_index 0 i' j' k' n2 n1 np) (n1 * n2 * np)) dir) (v * (n1 * n2 * np) + get_c_index 0 i j p n2 n1 np)%nat = s (v * (n1 * n2 * np) + get_c_index 0 i j p n2 n1 np)%nat).
    { intros i' j' k' s' ? ? ? N. apply state_other; try assumption; try (apply index_lt; assumption). intros E. apply index_inj in E; [|assumption..]. destruct E as (-> & -> & ->). apply N. reflexivity. }
    apply (loop_one _ _ _ _ _ i); [assumption| |].
    - intros i' s' Hi' N. apply loop_keep. intros j' s'' Hj'. apply loop_keep. intros k' s3 Hk'. apply O; try assumption. intros E. injection E; intros; lia.
    - intros s'. apply (loop_one _ _ _ _ _ j); [assumption| |].
      + intros j' s'' Hj' N. apply loop_keep. intros k' s3 Hk'. apply O; try assumption. intros E. injection E; intros; lia.
      + intros s''. apply (loop_one _ _ _ _ _ p); [assumption| |].
        * intros k' s3 Hk' N. apply O; try assumption. intros E. injection E; intros; lia.
        * intros s3. apply state_same; [apply index_lt; assumption|assumption]. }
  unfold in_memory at 1 6. rewrite <- (index_eq i j p n2 n1 np). unfold pointwise_eulercartesian_2d. cbv zeta. split.
  - rewrite (loop_fst n2 _ (fun i => for_loop n1 (fun j => for_loop np (fun k (s : memory) => store_state s (get_c_index 0 i j k n2 n1 np) (n1 * n2 * np) (pointwise_kernel (load q (get_c_index 0 i j k n2 n1 np) (n1 * n2 * np)) false))))).
    + rewrite W, cpp_pointwise_kernel by assumption. unfold load, in_memory. rewrite index_eq. reflexivity.
    + intros i' s. apply loop_fst. clear s. intros j' s. apply loop_fst. clear s. intros k' s. reflexivity.
  - rewrite (loop_snd n2 _ (fun i => for_loop n1 (fun j => for_loop np (fun k (s : memory) => store_state s (get_c_index 0 i j k n2 n1 np) (n1 * n2 * np) (pointwise_kernel (load q (get_c_index 0 i j k n2 n1 np) (n1 * n2 * np)) true))))).
    + rewrite W, cpp_pointwise_kernel by assumption. unfold load, in_memory. rewrite index_eq. reflexivity.
    + intros i' s. apply loop_snd. clear s. intros j' s. apply loop_snd. clear s. intros k' s. reflexivity.
Qed.
