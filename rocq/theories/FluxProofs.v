(** Fluxes at interfaces: proofs. *)
From Coq Require Import Reals Arith List Bool Lia Lra Psatz.
From Verif Require Import FluxModel FluxSpec.
Import ListNotations.
Open Scope R_scope.

(** ** slices *)
Lemma inside_range a b i : inside (range a b) i = (a <=? i)%nat && (i <? b)%nat.
Proof. unfold inside, range. cbn [sl_start sl_stop sl_step]. rewrite Nat.mod_1_r, Nat.eqb_refl, andb_true_r. reflexivity. Qed.
Lemma position_range a b i : position (range a b) i = (i - a)%nat.
Proof. unfold position, range. cbn [sl_start sl_stop sl_step]. apply Nat.div_1_r. Qed.
Lemma element_range a b k : element_of (range a b) k = (a + k)%nat.
Proof. unfold element_of, range. cbn [sl_start sl_stop sl_step]. lia. Qed.
Lemma inside_iff a b i : inside (range a b) i = true <-> (a <= i < b)%nat.
Proof. rewrite inside_range, andb_true_iff, Nat.leb_le, Nat.ltb_lt. reflexivity. Qed.
Lemma put_in se sp v a e p : inside se e = true -> inside sp p = true -> put (se, sp) v a e p = v (position se e) (position sp p).
Proof. intros H1 H2. unfold put. cbn [fst snd]. rewrite H1, H2. reflexivity. Qed.
Lemma put_out se sp v a e p : inside se e = false \/ inside sp p = false -> put (se, sp) v a e p = a e p.
Proof. intros [H|H]; unfold put; cbn [fst snd]; rewrite H; [|rewrite andb_false_r]; reflexivity. Qed.
Lemma put_in_range a b c d v f e p : (a <= e < b)%nat -> (c <= p < d)%nat -> put (range a b, range c d) v f e p = v (e - a)%nat (p - c)%nat.
Proof. intros H1 H2. rewrite put_in by (apply inside_iff; assumption). rewrite !position_range. reflexivity. Qed.
Lemma put_out_range a b c d v f e p : ~ (a <= e < b)%nat \/ ~ (c <= p < d)%nat -> put (range a b, range c d) v f e p = f e p.
Proof. intros H. apply put_out. destruct H as [H|H]; [left|right]; apply not_true_is_false; rewrite inside_iff; assumption. Qed.
Lemma get_range a b c d f i j : get (range a b, range c d) f i j = f (a + i)%nat (c + j)%nat.
Proof. unfold get. cbn [fst snd]. rewrite !element_range. reflexivity. Qed.

(** ** a line of elements *)
Section Line.
Variables n m : nat.
Lemma put_hi v f e p : (S e < n)%nat -> (p < m)%nat -> put (hi n m) v f e (m + p)%nat = v e p.
Proof. intros. unfold hi. rewrite put_in_range by lia. f_equal; lia. Qed.
Lemma get_hi f e p : get (hi n m) f e p = f e (m + p)%nat.
Proof. unfold hi. rewrite get_range. reflexivity. Qed.
Lemma get_lo f e p : get (lo n m) f e p = f (S e) p.
Proof. unfold lo. rewrite get_range. reflexivity. Qed.
Lemma put_lo_hi v f e p : (S e < n)%nat -> (p < m)%nat -> put (lo n m) v f e (m + p)%nat = f e (m + p)%nat.
Proof. intros. unfold lo. apply put_out_range. right. lia. Qed.
Lemma put_lo_lo v f e p : (S e < n)%nat -> (p < m)%nat -> put (lo n m) v f (S e) p = v e p.
Proof. intros. unfold lo. rewrite put_in_range by lia. f_equal; lia. Qed.
Lemma copied_single f : single_valued n m (put (lo n m) (get (hi n m) f) f).
Proof. intros e p He Hp. rewrite put_lo_hi, put_lo_lo by assumption. rewrite get_hi. reflexivity. Qed.
End Line.

(** ** shallow water *)
Lemma sw_single_x1 n m q sqrtG H11 H21 v : single_valued n m (sw_flux_x1_itf n m q sqrtG H11 H21 v).
Proof. apply copied_single. Qed.
Lemma sw_single_x2 n m q sqrtG H12 H22 v : single_valued n m (sw_flux_x2_itf n m q sqrtG H12 H22 v).
Proof. apply copied_single. Qed.

(** the formula both directions share *)
Definition mach_of (h a hu : R) : R := if Req_EM_T (h * a) 0 then 0 else hu / (h * a).
Definition ausm (ml mr al ar sq ql qr ppl ppr : R) : R :=
  let M := 1 / 4 * ((ml + 1) ^ 2 - (mr - 1) ^ 2) in
  sq * (Rmax 0 M * al * ql + Rmin 0 M * ar * qr) + 1 / 2 * ((1 + ml) * ppl + (1 - mr) * ppr).
Lemma max_min_sum x c d : Rmax 0 x * c * d + Rmin 0 x * c * d = x * c * d.
Proof. unfold Rmax, Rmin. destruct (Rle_dec 0 x); ring. Qed.
Lemma ausm_same m a sq q pp : ausm m m a a sq q q pp pp = sq * (m * a * q) + pp.
Proof. unfold ausm. rewrite max_min_sum. field. Qed.
Lemma sw_value_x1 n m q sqrtG H11 H21 v e p : (S e < n)%nat -> (p < m)%nat -> (v < 3)%nat ->
  let a := fun e p => sqrt (gravity * q 0%nat e p * H11 e p) in
  let mach := fun e p => mach_of (q 0%nat e p) (a e p) (q 1%nat e p) in
  let pr := fun e p => match v with 1%nat => sqrtG e p * (1 / 2 * gravity) * H11 e p * q 0%nat e p ^ 2 | 2%nat => sqrtG e p * (1 / 2 * gravity) * H21 e p * q 0%nat e p ^ 2 | _ => 0 end in
  sw_flux_x1_itf n m q sqrtG H11 H21 v e (m + p)%nat = ausm (mach e (m + p)%nat) (mach (S e) p) (a e (m + p)%nat) (a (S e) p) (sqrtG e (m + p)%nat) (q v e (m + p)%nat) (q v (S e) p) (pr e (m + p)%nat) (pr (S e) p).
Proof.
  intros He Hp Hv. cbv zeta. unfold sw_flux_x1_itf. rewrite put_lo_hi by assumption.
  destruct v as [|[|[|v]]]; [| | |lia]; cbv beta iota; rewrite ?put_hi by assumption; rewrite ?get_hi, ?get_lo; rewrite ?put_hi by assumption; rewrite ?get_hi, ?get_lo; unfold ausm, mach_of; ring.
Qed.
Lemma sw_value_x2 n m q sqrtG H12 H22 v e p : (S e < n)%nat -> (p < m)%nat -> (v < 3)%nat ->
  let a := fun e p => sqrt (gravity * q 0%nat e p * H22 e p) in
  let mach := fun e p => mach_of (q 0%nat e p) (a e p) (q 2%nat e p) in
  let pr := fun e p => match v with 1%nat => sqrtG e p * (1 / 2 * gravity) * H12 e p * q 0%nat e p ^ 2 | 2%nat => sqrtG e p * (1 / 2 * gravity) * H22 e p * q 0%nat e p ^ 2 | _ => 0 end in
  sw_flux_x2_itf n m q sqrtG H12 H22 v e (m + p)%nat = ausm (mach e (m + p)%nat) (mach (S e) p) (a e (m + p)%nat) (a (S e) p) (sqrtG e (m + p)%nat) (q v e (m + p)%nat) (q v (S e) p) (pr e (m + p)%nat) (pr (S e) p).
Proof.
  intros He Hp Hv. cbv zeta. unfold sw_flux_x2_itf. rewrite put_lo_hi by assumption.
  destruct v as [|[|[|v]]]; [| | |lia]; cbv beta iota; rewrite ?put_hi by assumption; rewrite ?get_hi, ?get_lo; rewrite ?put_hi by assumption; rewrite ?get_hi, ?get_lo; unfold ausm, mach_of; ring.
Qed.
Lemma gravity_pos : 0 < gravity.
Proof. unfold gravity. lra. Qed.
Lemma mach_speed h H hu : 0 < h -> 0 < H -> mach_of h (sqrt (gravity * h * H)) hu * sqrt (gravity * h * H) = hu / h.
Proof.
  intros Hh HH. pose proof gravity_pos. assert (0 < sqrt (gravity * h * H)) by (apply sqrt_lt_R0; repeat (apply Rmult_lt_0_compat); lra).
  unfold mach_of. destruct (Req_EM_T (h * sqrt (gravity * h * H)) 0) as [E|E].
  - exfalso. apply Rmult_integral in E. lra.
  - field. split; lra.
Qed.
(** states and metric agree on both sides of the interface *)
Definition same_at (m e p : nat) (f : face) : Prop := f e (m + p)%nat = f (S e) p.
Lemma sw_consistent_x1 n m q sqrtG H11 H21 v e p : (S e < n)%nat -> (p < m)%nat -> (v < 3)%nat ->
  (forall c, (c < 3)%nat -> same_at m e p (q c)) -> same_at m e p sqrtG -> same_at m e p H11 -> same_at m e p H21 -> 0 < q 0%nat (S e) p -> 0 < H11 (S e) p ->
  sw_flux_x1_itf n m q sqrtG H11 H21 v e (m + p)%nat = sw_flux_x1 (sqrtG (S e) p) (H11 (S e) p) (H21 (S e) p) (q 0%nat (S e) p) (q 1%nat (S e) p) (q 2%nat (S e) p) v.
Proof.
  intros He Hp Hv Eq Eg E1 E2 Hh HH. rewrite sw_value_x1 by assumption. cbv zeta. unfold same_at in *.
  rewrite (Eq v) by assumption. rewrite (Eq 0%nat), (Eq 1%nat), Eg, E1, E2 by lia. rewrite ausm_same.
  pose proof (mach_speed (q 0%nat (S e) p) (H11 (S e) p) (q 1%nat (S e) p) Hh HH) as K. rewrite K. unfold sw_flux_x1.
  destruct v as [|[|[|v]]]; [| | |lia]; field; lra.
Qed.
Lemma sw_consistent_x2 n m q sqrtG H12 H22 v e p : (S e < n)%nat -> (p < m)%nat -> (v < 3)%nat ->
  (forall c, (c < 3)%nat -> same_at m e p (q c)) -> same_at m e p sqrtG -> same_at m e p H12 -> same_at m e p H22 -> 0 < q 0%nat (S e) p -> 0 < H22 (S e) p ->
  sw_flux_x2_itf n m q sqrtG H12 H22 v e (m + p)%nat = sw_flux_x2 (sqrtG (S e) p) (H12 (S e) p) (H22 (S e) p) (q 0%nat (S e) p) (q 1%nat (S e) p) (q 2%nat (S e) p) v.
Proof.
  intros He Hp Hv Eq Eg E1 E2 Hh HH. rewrite sw_value_x2 by assumption. cbv zeta. unfold same_at in *.
  rewrite (Eq v) by assumption. rewrite (Eq 0%nat), (Eq 2%nat), Eg, E1, E2 by lia. rewrite ausm_same.
  pose proof (mach_speed (q 0%nat (S e) p) (H22 (S e) p) (q 2%nat (S e) p) Hh HH) as K. rewrite K. unfold sw_flux_x2.
  destruct v as [|[|[|v]]]; [| | |lia]; field; lra.
Qed.
(** fluxes at the points are the physical ones *)
Lemma sw_points sqrtG (H : nat -> nat -> R) h hu v : (v < 3)%nat ->
  sw_flux_x1 sqrtG (H 0 0)%nat (H 1 0)%nat h (hu 0%nat) (hu 1%nat) v = shallow_water_flux gravity sqrtG H 0 h hu v /\
  sw_flux_x2 sqrtG (H 0 1)%nat (H 1 1)%nat h (hu 0%nat) (hu 1%nat) v = shallow_water_flux gravity sqrtG H 1 h hu v.
Proof. intros Hv. destruct v as [|[|[|v]]]; [| | |lia]; split; reflexivity. Qed.

(** ** Euler on a plane: Python *)
Lemma all_vars_at f a v : all_vars f a v = f v (a v).
Proof. reflexivity. Qed.
Lemma one_var_same w f a : one_var w f a w = f (a w).
Proof. unfold one_var. rewrite Nat.eqb_refl. reflexivity. Qed.
Lemma one_var_other w f a v : v <> w -> one_var w f a v = a v.
Proof. intros H. unfold one_var. apply Nat.eqb_neq in H. rewrite H. reflexivity. Qed.
Lemma one_var_eq w f a v : one_var w f a v = if (v =? w)%nat then f (a v) else a v.
Proof. reflexivity. Qed.

(** the flux between two states: left, right; d is the variable of the normal momentum *)
Definition plane_ausm (d : nat) (l r : nat -> R) (v : nat) : R :=
  let pl := pressure_faces (l 3%nat) in let pr := pressure_faces (r 3%nat) in
  let al := sqrt (heat_capacity_ratio * pl / l 0%nat) in let ar := sqrt (heat_capacity_ratio * pr / r 0%nat) in
  let ml := l d / (l 0%nat * al) in let mr := r d / (r 0%nat * ar) in
  let M := 1 / 4 * ((ml + 1) ^ 2 - (mr - 1) ^ 2) in
  if (v =? d)%nat then 1 / 2 * ((1 + ml) * pl + (1 - mr) * pr) else l v * Rmax 0 M * al + r v * Rmin 0 M * ar.
(** at a wall *)
Definition wall_flux (d : nat) (q : nat -> R) (v : nat) : R := if (v =? d)%nat then pressure_faces (q 3%nat) else 0.

Ltac dead := first [rewrite put_out_range by lia | rewrite put_in_range by lia].
Lemma bubble_z_inner nx nz ns q empty i j k v : (i + 1 < nz)%nat -> (j < nx)%nat -> (k < ns)%nat ->
  bubble_common_flux_z nx nz ns q empty v (i * nx + j)%nat (ns + k)%nat = plane_ausm 2 (fun c => q c (i * nx + j)%nat (ns + k)%nat) (fun c => q c ((i + 1) * nx + j)%nat k) v /\
  bubble_common_flux_z nx nz ns q empty v ((i + 1) * nx + j)%nat k = plane_ausm 2 (fun c => q c (i * nx + j)%nat (ns + k)%nat) (fun c => q c ((i + 1) * nx + j)%nat k) v.
Proof.
  intros Hi Hj Hk. assert (B : (i * nx + j < nx * nz - nx)%nat) by nia. assert (B0 : (nx * nz - nx <= nx * nz)%nat) by lia.
  assert (E : ((i + 1) * nx + j = nx + (i * nx + j))%nat) by lia. rewrite E. generalize (i * nx + j)%nat B. clear Hi Hj E B. intros e B.
  unfold bubble_common_flux_z, plane_ausm. rewrite !one_var_eq, !all_vars_at, !one_var_eq, !all_vars_at.
  destruct (Nat.eqb_spec v 2) as [->|Nv]; cbv beta iota; split; repeat dead; rewrite ?get_range; repeat dead; rewrite ?get_range;
    repeat match goal with |- context [(?a - ?b)%nat] => first [replace (a - b)%nat with e by lia | replace (a - b)%nat with k by lia] end;
    replace (0 + e)%nat with e by lia; replace (0 + k)%nat with k by lia; try (replace (nx + e - nx)%nat with e by lia); try reflexivity.
Qed.
Lemma bubble_z_ground nx nz ns q empty j k v : (0 < nz)%nat -> (j < nx)%nat -> (k < ns)%nat ->
  bubble_common_flux_z nx nz ns q empty v j k = wall_flux 2 (fun c => q c j k) v.
Proof.
  intros Hz Hj Hk. assert (B : (nx <= nx * nz)%nat) by nia.
  unfold bubble_common_flux_z, wall_flux. rewrite !one_var_eq, !all_vars_at, !one_var_eq, !all_vars_at.
  destruct (Nat.eqb_spec v 2) as [->|Nv]; cbv beta iota; repeat dead; rewrite ?get_range.
  - replace (0 + (j - 0))%nat with j by lia. replace (0 + (k - 0))%nat with k by lia. reflexivity.
  - reflexivity.
Qed.
Lemma bubble_z_lid nx nz ns q empty j k v : (0 < nz)%nat -> (j < nx)%nat -> (k < ns)%nat ->
  bubble_common_flux_z nx nz ns q empty v ((nz - 1) * nx + j)%nat (ns + k)%nat = wall_flux 2 (fun c => q c ((nz - 1) * nx + j)%nat (ns + k)%nat) v.
Proof.
  intros Hz Hj Hk. assert (B : ((nz - 1) * nx = nx * nz - nx)%nat) by nia. assert (B1 : (nx <= nx * nz)%nat) by nia. rewrite B. clear B.
  unfold bubble_common_flux_z, wall_flux. rewrite !one_var_eq, !all_vars_at, !one_var_eq, !all_vars_at.
  destruct (Nat.eqb_spec v 2) as [->|Nv]; cbv beta iota; repeat dead; rewrite ?get_range.
  - replace (nx * nz - nx + (nx * nz - nx + j - (nx * nz - nx)))%nat with (nx * nz - nx + j)%nat by lia. replace (ns + (ns + k - ns))%nat with (ns + k)%nat by lia. reflexivity.
  - reflexivity.
Qed.

(** strides *)
Lemma inside_step s N nx e : (0 < nx)%nat -> inside (Slice s N nx) e = true <-> (s <= e < N)%nat /\ ((e - s) mod nx = 0)%nat.
Proof. intros H. unfold inside. cbn [sl_start sl_stop sl_step]. rewrite !andb_true_iff, Nat.leb_le, Nat.ltb_lt, Nat.eqb_eq. tauto. Qed.
Lemma mod_row nx i j : (j < nx)%nat -> ((i * nx + j) mod nx = j)%nat.
Proof. intros H. rewrite Nat.add_comm, Nat.mod_add by lia. apply Nat.mod_small. assumption. Qed.
Lemma inside_first nx nz i j : (i < nz)%nat -> (j < nx)%nat -> inside (Slice 0 (nx * nz) nx) (i * nx + j) = (j =? 0)%nat.
Proof.
  intros Hi Hj. apply eq_true_iff_eq. rewrite inside_step by lia. rewrite Nat.sub_0_r, mod_row by assumption. rewrite Nat.eqb_eq.
  split; [tauto|]. intros ->. repeat split; try lia; nia.
Qed.
Lemma inside_last nx nz i j : (i < nz)%nat -> (j < nx)%nat -> inside (Slice (nx - 1) (nx * nz) nx) (i * nx + j) = (j =? nx - 1)%nat.
Proof.
  intros Hi Hj. apply eq_true_iff_eq. rewrite inside_step by lia. rewrite Nat.eqb_eq. split.
  - intros [[H1 _] H2]. apply Nat.mod_divides in H2; [|lia]. destruct H2 as [c Hc].
    assert (K : (i * nx + j = c * nx + (nx - 1))%nat) by nia. pose proof (f_equal (fun x => Nat.modulo x nx) K) as K'. cbv beta in K'.
    rewrite !mod_row in K' by lia. exact K'.
  - intros ->. assert (E : (i * nx + (nx - 1) - (nx - 1) = i * nx)%nat) by lia. rewrite E, Nat.mod_mul by lia. repeat split; try lia; nia.
Qed.
Lemma element_position s N nx e : (0 < nx)%nat -> inside (Slice s N nx) e = true -> element_of (Slice s N nx) (position (Slice s N nx) e) = e.
Proof.
  intros H K. apply inside_step in K; [|assumption]. destruct K as [K1 K2]. unfold element_of, position. cbn [sl_start sl_step].
  pose proof (Nat.div_mod (e - s) nx). lia.
Qed.
Lemma get_same se sp (f : face) e p : element_of se (position se e) = e -> element_of sp (position sp p) = p -> get (se, sp) f (position se e) (position sp p) = f e p.
Proof. intros H1 H2. unfold get. cbn [fst snd]. rewrite H1, H2. reflexivity. Qed.
Lemma element_position_range a b e : inside (range a b) e = true -> element_of (range a b) (position (range a b) e) = e.
Proof. intros K. apply inside_iff in K. rewrite element_range, position_range. lia. Qed.
Lemma put_get s f a e p : (0 < sl_step (fst s))%nat -> (exists x y, snd s = range x y) -> put s (get s f) a e p = if inside (fst s) e && inside (snd s) p then f e p else a e p.
Proof.
  intros H (x & y & E). destruct s as [[s N nx] sp]. cbn [snd fst sl_step] in *. subst sp.
  unfold put. cbn [fst snd]. destruct (inside _ e) eqn:H1; [|reflexivity]. destruct (inside _ p) eqn:H2; [|reflexivity]. cbn [andb].
  apply get_same; [apply element_position; assumption|apply element_position_range; assumption].
Qed.
Lemma put_zeros s a e p : put s zeros a e p = if inside (fst s) e && inside (snd s) p then 0 else a e p.
Proof. reflexivity. Qed.
Lemma inside_no a b i : ~ (a <= i < b)%nat -> inside (range a b) i = false.
Proof. intros H. apply not_true_is_false. rewrite inside_iff. assumption. Qed.
Lemma inside_yes a b i : (a <= i < b)%nat -> inside (range a b) i = true.
Proof. intros H. apply inside_iff. assumption. Qed.
Section BubbleX.
Variables (nx nz ns : nat) (q empty : nat -> face).
(** the last four assignments *)
Lemma bubble_x_end (f3 : nat -> face) v i j p : (i < nz)%nat -> (j < nx)%nat -> (p < 2 * ns)%nat ->
  let N := (nx * nz)%nat in
  let pressure := fun e p => pressure_faces (q 3%nat e p) in
  let first := (Slice 0 N nx, range 0 ns) in let last := (Slice (nx - 1) N nx, range ns (ns * 2)) in
  one_var 1 (put last (get last pressure)) (one_var 1 (put first (get first pressure)) (all_vars (fun _ => put last zeros) (all_vars (fun _ => put first zeros) f3))) v (i * nx + j)%nat p =
  if ((j =? 0)%nat && (p <? ns)%nat) || ((j =? nx - 1)%nat && (ns <=? p)%nat) then wall_flux 1 (fun c => q c (i * nx + j)%nat p) v else f3 v (i * nx + j)%nat p.
Proof.
  intros Hi Hj Hp. cbv zeta. rewrite !one_var_eq, !all_vars_at. unfold wall_flux.
  assert (Hnx : (0 < nx)%nat) by lia.
  assert (PG : forall s f a e p, (fst s = Slice 0 (nx * nz) nx \/ fst s = Slice (nx - 1) (nx * nz) nx) -> (exists x y, snd s = range x y) -> put s (get s f) a e p = if inside (fst s) e && inside (snd s) p then f e p else a e p).
  { intros s f a e p' [E|E] H; apply put_get; try assumption; rewrite E; cbn [sl_step]; assumption. }
  assert (Z : forall s f e p, put s zeros f e p = if inside (fst s) e && inside (snd s) p then 0 else f e p) by reflexivity.
  assert (E1 : inside (range 0 ns) p = (p <? ns)%nat). { rewrite inside_range. reflexivity. }
  assert (E2 : inside (range ns (ns * 2)) p = (ns <=? p)%nat). { rewrite inside_range. replace (p <? ns * 2)%nat with true by (symmetry; apply Nat.ltb_lt; lia). apply andb_true_r. }
  assert (EP : (ns <=? p)%nat = negb (p <? ns)%nat) by (rewrite Nat.leb_antisym; reflexivity).
  destruct (v =? 1)%nat eqn:Ev.
  - rewrite !PG by (first [left; reflexivity|right; reflexivity|eexists _, _; reflexivity]). rewrite !Z. cbn [fst snd].
    rewrite E1, E2, inside_first, inside_last, EP by assumption.
    destruct (j =? 0)%nat, (j =? nx - 1)%nat, (p <? ns)%nat; reflexivity.
  - rewrite !Z. cbn [fst snd]. rewrite E1, E2, inside_first, inside_last, EP by assumption.
    destruct (j =? 0)%nat, (j =? nx - 1)%nat, (p <? ns)%nat; reflexivity.
Qed.
Lemma bubble_x_inner i j k v : (i < nz)%nat -> (j + 1 < nx)%nat -> (k < ns)%nat ->
  bubble_common_flux_x nx nz ns q empty v (i * nx + j)%nat (ns + k)%nat = plane_ausm 1 (fun c => q c (i * nx + j)%nat (ns + k)%nat) (fun c => q c (i * nx + (j + 1))%nat k) v /\
  bubble_common_flux_x nx nz ns q empty v (i * nx + (j + 1))%nat k = plane_ausm 1 (fun c => q c (i * nx + j)%nat (ns + k)%nat) (fun c => q c (i * nx + (j + 1))%nat k) v.
Proof.
  intros Hi Hj Hk. assert (B : (i * nx + j < nx * nz - 1)%nat) by nia.
  unfold bubble_common_flux_x. cbv zeta. rewrite !bubble_x_end by lia.
  replace (j =? nx - 1)%nat with false by (symmetry; apply Nat.eqb_neq; lia). replace (j + 1 =? 0)%nat with false by (symmetry; apply Nat.eqb_neq; lia).
  replace (ns + k <? ns)%nat with false by (symmetry; apply Nat.ltb_ge; lia). replace (ns <=? k)%nat with false by (symmetry; apply Nat.leb_gt; lia).
  rewrite !andb_false_r. cbn [andb orb]. unfold plane_ausm.
  replace (i * nx + (j + 1))%nat with (1 + (i * nx + j))%nat by lia. generalize (i * nx + j)%nat B. clear Hi Hj B. intros e B.
  rewrite !all_vars_at, !one_var_eq, !all_vars_at.
  destruct (v =? 1)%nat eqn:Ev; cbv beta iota; split; repeat dead; rewrite ?get_range; repeat dead; rewrite ?get_range;
    repeat match goal with |- context [(?a - ?b)%nat] => first [replace (a - b)%nat with e by lia | replace (a - b)%nat with k by lia] end;
    replace (0 + e)%nat with e by lia; replace (0 + k)%nat with k by lia; reflexivity.
Qed.
Lemma bubble_x_west i k v : (i < nz)%nat -> (0 < nx)%nat -> (k < ns)%nat ->
  bubble_common_flux_x nx nz ns q empty v (i * nx)%nat k = wall_flux 1 (fun c => q c (i * nx)%nat k) v.
Proof.
  intros Hi Hj Hk. replace (i * nx)%nat with (i * nx + 0)%nat by lia. unfold bubble_common_flux_x. cbv zeta. rewrite bubble_x_end by lia.
  replace (k <? ns)%nat with true by (symmetry; apply Nat.ltb_lt; lia). reflexivity.
Qed.
Lemma bubble_x_east i k v : (i < nz)%nat -> (0 < nx)%nat -> (k < ns)%nat ->
  bubble_common_flux_x nx nz ns q empty v (i * nx + (nx - 1))%nat (ns + k)%nat = wall_flux 1 (fun c => q c (i * nx + (nx - 1))%nat (ns + k)%nat) v.
Proof.
  intros Hi Hj Hk. unfold bubble_common_flux_x. cbv zeta. rewrite bubble_x_end by lia.
  replace (ns <=? ns + k)%nat with true by (symmetry; apply Nat.leb_le; lia). rewrite Nat.eqb_refl, orb_true_r. reflexivity.
Qed.
End BubbleX.
