(** What leaves a tile enters its neighbour. *)
From Coq Require Import Reals ZArith Arith List Bool Lia Lra ZifyBool Permutation.
From Verif Require Import TopologyModel TopologySpec TopologyProofs ExchangeProofs GeoModel GeoProofs GeoArea GeoTiles FluxModel FluxProofs SwModel SwSpec.
Import ListNotations.
Local Open Scope R_scope.

(** mass flux towards the right of an interface *)
Definition speed (H h : R) : R := sqrt (gravity * h * H).
Definition mach (H h u : R) : R := if Req_EM_T (h * speed H h) 0 then 0 else u / (h * speed H h).
Definition mass (sg H hl ul hr ur : R) : R :=
  let M := 1 / 4 * ((mach H hl ul + 1) ^ 2 - (mach H hr ur - 1) ^ 2) in
  sg * (Rmax 0 M * speed H hl * hl + Rmin 0 M * speed H hr * hr).
Lemma mach_opp H h u : mach H h (- u) = - mach H h u.
Proof. unfold mach. destruct (Req_EM_T _ 0); [ring|]. unfold Rdiv. ring. Qed.
Lemma mass_mirror sg H hl ul hr ur : mass sg H hl ul hr ur = - mass sg H hr (- ur) hl (- ul).
Proof.
  unfold mass. rewrite !mach_opp. set (x := mach H hl ul). set (y := mach H hr ur). cbv zeta.
  replace (1 / 4 * ((- y + 1) ^ 2 - (- x - 1) ^ 2)) with (- (1 / 4 * ((x + 1) ^ 2 - (y - 1) ^ 2))) by field.
  set (M := 1 / 4 * ((x + 1) ^ 2 - (y - 1) ^ 2)). clearbody M.
  assert (Rmax 0 (- M) = - Rmin 0 M) as -> by (unfold Rmax, Rmin; destruct (Rle_dec 0 (- M)), (Rle_dec 0 M); lra).
  assert (Rmin 0 (- M) = - Rmax 0 M) as -> by (unfold Rmax, Rmin; destruct (Rle_dec 0 (- M)), (Rle_dec 0 M); lra).
  ring.
Qed.
Definition normal (d : side) (u : R * R) : R := match d with East => fst u | West => - fst u | North => snd u | South => - snd u end.
Lemma table_normal p d x a1 a2 : (0 <= p < 6)%Z -> let k := 1%Z in
  normal (back_side 1 (Tile p 0 0) d) (lookup2 convert_contras p d convert_default a1 a2 x) = - normal d (a1, a2).
Proof.
  intros Hp k. split_panel p Hp; destruct d; cbv [normal back_side at_edge panel row col Z.eqb lookup2 nth side_index Z.to_nat Pos.to_nat Pos.iter_op Init.Nat.add convert_contras fst snd Z.sub Z.add Z.opp Z.pos_sub Pos.eqb Pos.pred_double]; ring.
Qed.
Lemma back_side_edge k p r c d : (0 <= p < 6)%Z -> at_edge k (Tile p r c) d = true -> back_side k (Tile p r c) d = back_side 1 (Tile p 0 0) d.
Proof. intros Hp E. unfold back_side. rewrite E. replace (at_edge 1 (Tile p 0 0) d) with true by (destruct d; reflexivity). reflexivity. Qed.
Lemma conv_normal k s e y a1 a2 : tile_ok k s -> normal (back_side k s e) ((if at_edge k s e then lookup2 convert_contras (panel s) e convert_default else convert_default) a1 a2 y) = - normal e (a1, a2).
Proof.
  intros (Hp & _ & _). destruct s as [p r c]. cbn [panel] in *. destruct (at_edge k (Tile p r c) e) eqn:E.
  - rewrite (back_side_edge k p r c e Hp E). apply table_normal. exact Hp.
  - unfold back_side. rewrite E. unfold convert_default, normal, opposite. destruct e; cbn [fst snd]; ring.
Qed.

Section Lists.
Context {A : Type}.
Lemma nth_flip (f : nat -> A) n b x d : (x < n)%nat -> nth x (flip_if b flip_line (map f (seq 0 n))) d = f (back_index n b x).
Proof.
  intro H. unfold flip_if, flip_line, back_index. destruct b.
  - rewrite rev_map_seq. rewrite (nth_indep _ d (f (n - 1 - 0)%nat)) by (rewrite map_length, seq_length; exact H). rewrite (map_nth (fun i => f (n - 1 - i)%nat)). rewrite seq_nth by exact H. reflexivity.
  - rewrite (nth_indep _ d (f 0%nat)) by (rewrite map_length, seq_length; exact H). rewrite map_nth, seq_nth by exact H. reflexivity.
Qed.
End Lists.
Lemma convert_seq (f : conversion) (b g1 g2 : nat -> R) (l : list nat) :
  convert_line f (map b l) (map (fun '(a, c) => (a, c, tt)) (combine (map g1 l) (map g2 l))) = map (fun i => (fst (f (g1 i) (g2 i) (b i)), snd (f (g1 i) (g2 i) (b i)), tt)) l.
Proof. unfold convert_line. induction l as [|i l IH]; [reflexivity|]. cbn [map combine]. now rewrite IH. Qed.

Section Sphere.
Variables (k N ns : nat) (pts : nat -> R) (radius : R) (ext_i ext_j : Z -> nat -> nat -> face) (topo_i topo_j : Z -> nat -> face).
Hypothesis Hk : (1 <= k)%nat.
Hypothesis HN : (1 <= N)%nat.
Hypothesis Hns : (1 <= ns)%nat.
Hypothesis sym : forall i, (i < ns)%nat -> pts (ns - 1 - i)%nat = - pts i.
Let K := Z.of_nat k.
Let n := (N * ns)%nat.
Definition grid : grid_coords := {| edge := fun c => tan (tile_start k (Z.to_nat c)); pt := fun c i => line k N ns pts (Z.to_nat c) i |}.
Lemma div_flip i : (i < n)%nat -> ((n - 1 - i) / ns = N - 1 - i / ns /\ (n - 1 - i) mod ns = ns - 1 - i mod ns /\ i / ns < N /\ i mod ns < ns)%nat.
Proof.
  intro H. unfold n in *. pose proof (Nat.div_mod i ns ltac:(lia)) as E. pose proof (Nat.mod_upper_bound i ns ltac:(lia)) as B.
  assert (D : (i / ns < N)%nat) by (apply Nat.div_lt_upper_bound; lia).
  set (q := (i / ns)%nat) in *. set (s := (i mod ns)%nat) in *.
  assert (E2 : (N * ns - 1 - i = (N - 1 - q) * ns + (ns - 1 - s))%nat) by nia.
  rewrite E2. rewrite Nat.div_add_l by lia. rewrite (Nat.div_small (ns - 1 - s)) by lia.
  rewrite (Nat.add_comm _ (ns - 1 - s)). rewrite Nat.mod_add by lia. rewrite Nat.mod_small by lia. lia.
Qed.
Lemma solpt_mirror c e s : (c < k)%nat -> (e < N)%nat -> x_solpt k (k - 1 - c) N (N - 1 - e) (- s) = - x_solpt k c N e s.
Proof.
  intros Hc He. rewrite !x_solpt_centre. rewrite !delta_x_value by lia. unfold tile_start.
  rewrite !minus_INR by lia. cbn [INR]. assert (INR k <> 0) by (apply not_0_INR; lia). assert (INR N <> 0) by (apply not_0_INR; lia). field. auto.
Qed.
Lemma grid_sym : grid_symmetric K n grid.
Proof.
  unfold grid_symmetric, grid, K. cbn [edge pt]. split; [|split].
  - change (Z.to_nat 0) with 0%nat. rewrite tile_start_0. replace (- PI / 4) with (- (PI / 4)) by field. rewrite tan_neg, tan_PI4. reflexivity.
  - rewrite Nat2Z.id, tile_last by lia. exact tan_PI4.
  - intros c i Hc Hi. destruct (div_flip i Hi) as (E1 & E2 & E3 & E4). unfold line. rewrite E1, E2. clear E1 E2.
    replace (Z.to_nat (Z.of_nat k - 1 - c)) with (k - 1 - Z.to_nat c)%nat by lia. rewrite sym by exact E4.
    rewrite solpt_mirror by lia. apply tan_neg.
Qed.

(** ** Metric at a shared point *)
Definition across_along (d : side) (xy : R * R) : R * R := match d with East | West => (fst xy ^ 2, snd xy ^ 2) | _ => (snd xy ^ 2, fst xy ^ 2) end.
Lemma across_along_nb t d i : tile_ok K t -> (i < n)%nat ->
  across_along (back_side K t d) (boundary_xy grid (nb K t d) (back_side K t d) (back_index n (nb_flip K t d) i)) = across_along d (boundary_xy grid t d i).
Proof.
  intros (Hp & Hr & Hc) Hi. destruct grid_sym as (G0 & G1 & Gs). destruct t as [p r c]; cbn [panel row col] in *.
  pose proof (Gs c i Hc Hi) as Gc. pose proof (Gs r i Hr Hi) as Gr. assert (HK : (1 <= K)%Z) by (unfold K; lia). clearbody K.
  generalize dependent grid. intros g G0 G1 Gs Gc Gr. clear Gs.
  nb_cases K p r c d Hp; unfold across_along, boundary_xy, back_index; tbl;
    repeat match goal with
           | |- context [pt g (- ?x - 1 + K)%Z _] => replace (- x - 1 + K)%Z with (K - 1 - x)%Z by lia
           | |- context [edge g (-1 + K + 1)%Z] => replace (-1 + K + 1)%Z with K by lia
           | |- context [edge g (?x - 1 + 1)%Z] => replace (x - 1 + 1)%Z with x by lia
           end;
    rewrite ?Gc, ?Gr;
    try replace (edge g r) with (-1) by (rewrite <- G0; f_equal; lia);
    try replace (edge g c) with (-1) by (rewrite <- G0; f_equal; lia);
    try replace (edge g (r + 1)) with 1 by (rewrite <- G1; f_equal; lia);
    try replace (edge g (c + 1)) with 1 by (rewrite <- G1; f_equal; lia);
    rewrite ?G0, ?G1; f_equal; try ring; repeat f_equal; lia.
Qed.
Definition metric_H (d : side) (xy : R * R) : R := let H := H_contra radius (dx k N) (dx k N) (fst xy) (snd xy) in match d with East | West => s11 H | _ => s22 H end.
Definition metric_G (xy : R * R) : R := sqrtG radius (dx k N) (dx k N) (fst xy) (snd xy).
Lemma metric_H_even d e xy xy' : across_along d xy = across_along e xy' -> metric_H d xy = metric_H e xy'.
Proof.
  destruct xy as [a b], xy' as [a' b']. unfold across_along, metric_H, H_contra, delta2. cbn [fst snd s11 s22].
  destruct d, e; intro E; apply pair_equal_spec in E; destruct E as [E1 E2]; rewrite E1, E2; rewrite ?(Rplus_assoc 1), ?(Rplus_comm (a' ^ 2)); reflexivity.
Qed.
Lemma metric_G_even d e xy xy' : across_along d xy = across_along e xy' -> metric_G xy = metric_G xy'.
Proof.
  destruct xy as [a b], xy' as [a' b']. unfold across_along, metric_G, sqrtG, delta, delta2. cbn [fst snd].
  destruct d, e; intro E; apply pair_equal_spec in E; destruct E as [E1 E2]; rewrite E1, E2; rewrite ?(Rplus_assoc 1), ?(Rplus_comm (a' ^ 2)); rewrite ?(Rmult_assoc (radius ^ 2)), ?(Rmult_comm (1 + a' ^ 2)); reflexivity.
Qed.

(** ** What leaves a tile through a side *)
Definition fi := flux_i k N ns pts radius ext_i ext_j topo_i.
Definition fj := flux_j k N ns pts radius ext_i ext_j topo_j.
Definition out (r : Z) (v : nat) (d : side) (x : nat) : R :=
  match d with
  | East => fi r v (x / ns) N (ns + x mod ns) | West => - fi r v (x / ns) 1 (x mod ns)
  | North => fj r v (x / ns) N (ns + x mod ns) | South => - fj r v (x / ns) 1 (x mod ns)
  end%nat.
Definition at_side (i j : nat -> face) (d : side) (x : nat) : R :=
  match d with
  | South => j (x / ns) 1 (x mod ns) | North => j (x / ns) N (ns + x mod ns)
  | West => i (x / ns) 1 (x mod ns) | East => i (x / ns) N (ns + x mod ns) end%nat.
Definition beyond (i j : nat -> face) (d : side) (x : nat) : R :=
  match d with
  | South => j (x / ns) 0 (ns + x mod ns) | North => j (x / ns) (N + 1) (x mod ns)
  | West => i (x / ns) 0 (ns + x mod ns) | East => i (x / ns) (N + 1) (x mod ns) end%nat.
Definition own (r : Z) (v : nat) (d : side) (x : nat) : R := at_side (ext_i r v) (ext_j r v) d x.
Definition topo_own (r : Z) (d : side) (x : nat) : R := at_side (topo_i r) (topo_j r) d x.
Definition topo_halo (r : Z) (d : side) (x : nat) : R := beyond (topo_i r) (topo_j r) d x.
Definition hal := halo k N ns pts ext_i ext_j.
Lemma size_K : size k = (6 * K * K)%Z.
Proof. reflexivity. Qed.
Lemma HK : (1 <= K)%Z.
Proof. unfold K. lia. Qed.
Lemma rows t : tile_ok K t -> my_row k (rank_of_tile K t) = Z.to_nat (row t) /\ my_col k (rank_of_tile K t) = Z.to_nat (col t).
Proof. intro Ht. destruct (built_fields K HK t Ht) as (_ & Er & Ec & _). unfold my_row, my_col. rewrite size_K, Er, Ec. split; reflexivity. Qed.
Lemma itf_first c : (0 <= c < K)%Z -> itf k N (Z.to_nat c) 0 = edge grid c.
Proof. intro Hc. unfold itf, grid. cbn [edge]. destruct (x_itf_ends k (Z.to_nat c) N ltac:(lia)) as [-> _]. reflexivity. Qed.
Lemma itf_last c : (0 <= c < K)%Z -> itf k N (Z.to_nat c) N = edge grid (c + 1).
Proof. intro Hc. unfold itf, grid. cbn [edge]. destruct (x_itf_ends k (Z.to_nat c) N ltac:(lia)) as [_ ->]. rewrite tile_next. do 3 f_equal. lia. Qed.
Lemma split_x x : (x < n)%nat -> (x / ns * ns + x mod ns = x /\ x mod ns < ns)%nat.
Proof. intro Hx. pose proof (Nat.div_mod x ns ltac:(lia)). pose proof (Nat.mod_upper_bound x ns ltac:(lia)). lia. Qed.
Lemma mod_plus p : (p < ns)%nat -> ((ns + p) mod ns = p)%nat.
Proof. intro H. rewrite Nat.add_comm. rewrite <- (Nat.mul_1_l ns) at 1. rewrite Nat.mod_add by lia. apply Nat.mod_small, H. Qed.
Ltac test :=
  repeat match goal with
  | |- context [(?a =? ?b)%nat] => first [replace (a =? b)%nat with true by lia | replace (a =? b)%nat with false by lia]
  | |- context [(?a <? ?b)%nat] => first [replace (a <? b)%nat with true by lia | replace (a <? b)%nat with false by lia]
  | |- context [(?a <=? ?b)%nat] => first [replace (a <=? b)%nat with true by lia | replace (a <=? b)%nat with false by lia]
  end; cbn [andb orb].
Lemma across_hi c p e : (p < ns)%nat -> (e <= N)%nat -> across k N ns c e (ns + p) = itf k N c e.
Proof. intros. unfold across, outer. test. destruct (e =? 0)%nat; reflexivity. Qed.
Lemma across_lo c p e : (p < ns)%nat -> (1 <= e <= N + 1)%nat -> across k N ns c e p = itf k N c (e - 1).
Proof. intros. unfold across, outer. test. destruct (e =? N + 1)%nat; reflexivity. Qed.
Lemma along_hi c x p e : (p < ns)%nat -> (e <= N)%nat -> along k N ns pts c x e (ns + p) = line k N ns pts c (x * ns + p).
Proof. intros. unfold along, outer. test. rewrite mod_plus by assumption. destruct (e =? 0)%nat; reflexivity. Qed.
Lemma along_lo c x p e : (p < ns)%nat -> (1 <= e <= N + 1)%nat -> along k N ns pts c x e p = line k N ns pts c (x * ns + p).
Proof. intros. unfold along, outer. test. rewrite Nat.mod_small by assumption. destruct (e =? N + 1)%nat; reflexivity. Qed.
Lemma halo_lo r v lo_ hi_ f x p : (p < ns)%nat -> with_halo k N ns pts ext_i ext_j r v lo_ hi_ f x 0 (ns + p) = hal r v lo_ (x * ns + p).
Proof. intros. unfold with_halo. test. replace (ns + p - ns)%nat with p by lia. reflexivity. Qed.
Lemma halo_hi r v lo_ hi_ f x p : (p < ns)%nat -> with_halo k N ns pts ext_i ext_j r v lo_ hi_ f x (N + 1) p = hal r v hi_ (x * ns + p).
Proof. intros. unfold with_halo. test. reflexivity. Qed.
Lemma no_halo r v lo_ hi_ f x e p : (1 <= e <= N)%nat -> with_halo k N ns pts ext_i ext_j r v lo_ hi_ f x e p = f x e p.
Proof. intros. unfold with_halo. test. reflexivity. Qed.
Definition own_depth r d x := own r 0 d x - topo_own r d x.
Definition halo_depth r d x := hal r 0%nat d x - topo_halo r d x.
Definition own_u r d x := normal d (own r 1 d x, own r 2 d x).
Definition halo_u_n r d x := normal d (hal r 1%nat d x, hal r 2%nat d x).
Definition vi := var_itf_i k N ns pts ext_i ext_j topo_i.
Definition vj := var_itf_j k N ns pts ext_i ext_j topo_j.
Lemma fi_value r row_ e p : (p < ns)%nat -> (e <= N)%nat -> let xy := (itf k N (my_col k r) e, line k N ns pts (my_row k r) (row_ * ns + p)) in
  fi r 0 row_ e (ns + p)%nat = mass (metric_G xy) (metric_H East xy) (vi r 0%nat row_ e (ns + p)%nat) (vi r 1%nat row_ e (ns + p)%nat) (vi r 0%nat row_ (S e) p) (vi r 1%nat row_ (S e) p).
Proof.
  intros Hp He xy. unfold fi, flux_i. rewrite sw_value_x1 by lia. cbv zeta. unfold sqrtG_itf_i, H_itf_i, X_itf_i, Y_itf_i.
  rewrite across_hi, along_hi, across_lo, along_lo by lia. replace (S e - 1)%nat with e by lia.
  unfold mass, ausm. change (mach_of ?h (sqrt (gravity * ?h * ?H)) ?u) with (mach H h u).
  unfold metric_G, metric_H, speed. cbn [fst snd xy]. cbv zeta. fold vi. ring.
Qed.
Lemma fj_value r col_ e p : (p < ns)%nat -> (e <= N)%nat -> let xy := (line k N ns pts (my_col k r) (col_ * ns + p), itf k N (my_row k r) e) in
  fj r 0 col_ e (ns + p)%nat = mass (metric_G xy) (metric_H North xy) (vj r 0%nat col_ e (ns + p)%nat) (vj r 2%nat col_ e (ns + p)%nat) (vj r 0%nat col_ (S e) p) (vj r 2%nat col_ (S e) p).
Proof.
  intros Hp He xy. unfold fj, flux_j. rewrite sw_value_x2 by lia. cbv zeta. unfold sqrtG_itf_j, H_itf_j, X_itf_j, Y_itf_j.
  rewrite across_hi, along_hi, across_lo, along_lo by lia. replace (S e - 1)%nat with e by lia.
  unfold mass, ausm. change (mach_of ?h (sqrt (gravity * ?h * ?H)) ?u) with (mach H h u).
  unfold metric_G, metric_H, speed. cbn [fst snd xy]. cbv zeta. fold vj. ring.
Qed.
Lemma out_value t d x : tile_ok K t -> (x < n)%nat -> let r := rank_of_tile K t in
  out r 0 d x = mass (metric_G (boundary_xy grid t d x)) (metric_H d (boundary_xy grid t d x)) (own_depth r d x) (own_u r d x) (halo_depth r d x) (halo_u_n r d x).
Proof.
  intros Ht Hx r. destruct (rows t Ht) as [Er Ec]. fold r in Er, Ec. destruct (split_x x Hx) as [Ex Hp].
  assert (Hq : (x / ns < N)%nat) by (apply Nat.div_lt_upper_bound; unfold n in Hx; lia).
  destruct Ht as (_ & Hr & Hc). unfold out, own_depth, own_u, halo_depth, halo_u_n, own, topo_own, topo_halo, normal, at_side, beyond.
  destruct d.
  - assert (fj r 0 (x / ns) 1%nat (x mod ns)%nat = fj r 0 (x / ns) 0%nat (ns + x mod ns)%nat) as -> by (symmetry; apply (sw_single_x2 (N + 2) ns); lia).
    rewrite fj_value by lia. rewrite mass_mirror, Ropp_involutive. rewrite Er, Ec, Ex.
    unfold vj, var_itf_j. rewrite !halo_lo, !no_halo by lia. rewrite Ex. cbn [Nat.eqb fst snd]. rewrite !Rminus_0_r.
    rewrite itf_first by assumption. reflexivity.
  - rewrite fj_value by lia. rewrite Er, Ec, Ex.
    unfold vj, var_itf_j. replace (S N) with (N + 1)%nat by lia. rewrite !halo_hi, !no_halo by lia. rewrite Ex. cbn [Nat.eqb fst snd]. rewrite !Rminus_0_r.
    rewrite itf_last by assumption. reflexivity.
  - assert (fi r 0 (x / ns) 1%nat (x mod ns)%nat = fi r 0 (x / ns) 0%nat (ns + x mod ns)%nat) as -> by (symmetry; apply (sw_single_x1 (N + 2) ns); lia).
    rewrite fi_value by lia. rewrite mass_mirror, Ropp_involutive. rewrite Er, Ec, Ex.
    unfold vi, var_itf_i. rewrite !halo_lo, !no_halo by lia. rewrite Ex. cbn [Nat.eqb fst snd]. rewrite !Rminus_0_r.
    rewrite itf_first by assumption. reflexivity.
  - rewrite fi_value by lia. rewrite Er, Ec, Ex.
    unfold vi, var_itf_i. replace (S N) with (N + 1)%nat by lia. rewrite !halo_hi, !no_halo by lia. rewrite Ex. cbn [Nat.eqb fst snd]. rewrite !Rminus_0_r.
    rewrite itf_last by assumption. reflexivity.
Qed.

(** ** The halo holds what the neighbour has *)
Section Pair.
Variables (t : tile) (d : side).
Hypothesis Ht : tile_ok K t.
Let s := nb K t d.
Let e := back_side K t d.
Let r := rank_of_tile K t.
Let rs := rank_of_tile K s.
Definition back (x : nat) : nat := back_index n (nb_flip K t d) x.
Lemma Hs : tile_ok K s.
Proof. apply nb_ok; [apply HK|exact Ht]. Qed.
Lemma back_in x : (x < n)%nat -> (back x < n)%nat.
Proof. unfold back, back_index. destruct (nb_flip K t d); lia. Qed.
Lemma halo_h_value x : (x < n)%nat -> hal r 0%nat d x = own rs 0%nat e (back x).
Proof.
  intro Hx. unfold hal, halo, halo_h, exchange_scalars, r. rewrite size_K. rewrite alltoall_spec by (apply HK || exact Ht). cbn [received].
  fold s e. rewrite built_flip by (exact HK || exact Hs). unfold s at 1, e at 1. rewrite (proj2 (nb_back K t d HK Ht)).
  unfold sent_h, sent. rewrite nth_flip by exact Hx. reflexivity.
Qed.
Lemma halo_u_value x : (x < n)%nat -> exists y,
  (hal r 1%nat d x, hal r 2%nat d x) = (if at_edge K s e then lookup2 convert_contras (panel s) e convert_default else convert_default) (own rs 1%nat e (back x)) (own rs 2%nat e (back x)) y.
Proof.
  intro Hx. unfold hal, halo, halo_u, exchange_vectors, r. rewrite size_K. rewrite alltoall_spec by (apply HK || exact Ht). cbn [received].
  fold s e. cbv zeta. rewrite built_flip, built_contra by (exact HK || exact Hs). assert (F : nb_flip K s e = nb_flip K t d) by (exact (proj2 (nb_back K t d HK Ht))). rewrite F. set (cv := if at_edge K s e then _ else _).
  unfold sent_u, sent.
  assert (exists b, boundary_of (boundary_sn k N ns pts (rank_of_tile K s)) (boundary_we k N ns pts (rank_of_tile K s)) e = map b (seq 0 (N * ns))) as [b ->].
  { unfold boundary_of, boundary_sn, boundary_we. destruct e; eexists; reflexivity. }
  rewrite convert_seq. rewrite !nth_flip by exact Hx. cbn [fst snd]. exists (b (back x)). 
  unfold own, at_side. fold rs. symmetry. apply surjective_pairing.
Qed.
Lemma back_back : back_side K s e = d /\ nb K s e = t.
Proof.
  destruct (nb_back K t d HK Ht) as [B _]. fold s e in B. split; [|exact B].
  destruct (nb_back K s e HK Hs) as [B2 _]. rewrite B in B2.
  apply (nb_distinct K t); [apply HK|exact Ht|]. exact B2.
Qed.
Lemma halo_normal x : (x < n)%nat -> halo_u_n r d x = - own_u rs e (back x).
Proof.
  intro Hx. unfold halo_u_n, own_u. destruct (halo_u_value x Hx) as [y Ey].
  pose proof (conv_normal K s e y (own rs 1%nat e (back x)) (own rs 2%nat e (back x)) Hs) as C. rewrite <- Ey, (proj1 back_back) in C. exact C.
Qed.
End Pair.
(** points and lines of the grid are those of the specification *)
Lemma grid_line c i : (0 <= c)%Z -> pt grid c i = pt (sphere_grid k N ns pts) c i.
Proof.
  intro Hc. unfold grid, sphere_grid, line. cbn [pt]. f_equal. unfold x_solpt. rewrite delta_x_value by lia. unfold tile_start. rewrite INR_IZR_INZ, Z2Nat.id by exact Hc.
  assert (INR k <> 0) by (apply not_0_INR; lia). assert (INR N <> 0) by (apply not_0_INR; lia). field. auto.
Qed.
Lemma grid_edge c : (0 <= c)%Z -> edge grid c = edge (sphere_grid k N ns pts) c.
Proof.
  intro Hc. unfold grid, sphere_grid. cbn [edge]. f_equal. unfold tile_start. rewrite INR_IZR_INZ, Z2Nat.id by exact Hc.
  assert (INR k <> 0) by (apply not_0_INR; lia). field. auto.
Qed.
Lemma grid_point t d x : tile_ok K t -> boundary_point grid t d x = boundary_point (sphere_grid k N ns pts) t d x.
Proof.
  intros (_ & Hr & Hc). unfold boundary_point, boundary_xy. destruct d; cbn [fst snd]; rewrite grid_line, grid_edge by lia; reflexivity.
Qed.
Lemma surface_sides : one_surface k N ns pts topo_i topo_j -> exists B : R * R * R -> R, forall t d x, tile_ok K t -> (x < n)%nat ->
  topo_own (rank_of_tile K t) d x = B (boundary_point grid t d x) /\ topo_halo (rank_of_tile K t) d x = B (boundary_point grid t d x).
Proof.
  intros [B HB]. exists B. intros t d x Ht Hx. rewrite grid_point by exact Ht. destruct (HB t x Ht Hx) as (W0 & W1 & E0 & E1 & S0 & S1 & N0 & N1).
  unfold topo_own, topo_halo, at_side, beyond. destruct d; split; assumption.
Qed.
Lemma out_cancels t d x : one_surface k N ns pts topo_i topo_j -> tile_ok K t -> (x < n)%nat ->
  out (rank_of_tile K (nb K t d)) 0 (back_side K t d) (back_index n (nb_flip K t d) x) = - out (rank_of_tile K t) 0 d x.
Proof.
  intros S Ht Hx. destruct (surface_sides S) as [B HB]. set (y := back_index n (nb_flip K t d) x). assert (Hy : (y < n)%nat) by (apply (back_in t d x Hx)).
  pose proof (Hs t d Ht) as Hs_. 
  rewrite !out_value by assumption. cbv zeta.
  rewrite (mass_mirror _ _ (own_depth (rank_of_tile K t) d x)). rewrite Ropp_involutive.
  pose proof (across_along_nb t d x Ht Hx) as A. fold y in A. rewrite (metric_G_even _ _ _ _ A), (metric_H_even _ _ _ _ A).
  destruct (back_back t d Ht) as [E1 E2].
  assert (E3 : back_index n (nb_flip K (nb K t d) (back_side K t d)) y = x).
  { rewrite (proj2 (nb_back K t d HK Ht)). unfold y, back_index. destruct (nb_flip K t d); [|reflexivity]. unfold n in *. lia. }
  pose proof (halo_normal t d Ht x Hx) as U. pose proof (halo_normal (nb K t d) (back_side K t d) Hs_ y Hy) as U'.
  pose proof (halo_h_value t d Ht x Hx) as V. pose proof (halo_h_value (nb K t d) (back_side K t d) Hs_ y Hy) as V'.
  unfold back in *. fold y in U, V. rewrite E3 in U', V'. rewrite E1, E2 in U', V'.
  rewrite U, U', Ropp_involutive. unfold own_depth, halo_depth. rewrite V, V'.
  destruct (HB t d x Ht Hx) as [-> ->]. destruct (HB (nb K t d) (back_side K t d) y Hs_ Hy) as [-> ->].
  unfold y. rewrite (point_nb K n grid t d x HK Ht grid_sym Hx). reflexivity.
Qed.
End Sphere.
