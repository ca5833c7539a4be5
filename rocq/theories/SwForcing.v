(** The source terms of rhs_sw.py. *)
From Coq Require Import Reals ZArith Arith Lia Lra.
From Verif Require Import TopologyModel TopologySpec TopologyProofs GeoModel GeoTiles FluxModel SwModel SwSpec SwTotal.
Local Open Scope R_scope.

Definition sym_at (H : sym2) (i j : nat) : R := match i, j with 0%nat, 0%nat => s11 H | 1%nat, 1%nat => s22 H | _, _ => s12 H end.
Lemma pressure_terms R0 d X Y : R0 <> 0 -> d <> 0 -> let H := H_contra R0 d d X Y in let G1 := christoffel_1 d d X Y in let G2 := christoffel_2 d d X Y in
  s11 G1 * s11 H + 2 * s12 G1 * s12 H + s22 G1 * s22 H = 0 /\ s11 G2 * s11 H + 2 * s12 G2 * s12 H + s22 G2 * s22 H = 0.
Proof.
  intros HR Hd. cbv zeta. unfold H_contra, christoffel_1, christoffel_2, delta2. cbn [s11 s12 s22].
  assert (1 + X ^ 2 <> 0) by nra. assert (1 + Y ^ 2 <> 0) by nra. assert (1 + X ^ 2 + Y ^ 2 <> 0) by nra. split; field; auto.
Qed.
Lemma forcing_source k N ns pts radius q Omega rot dz1 dz2 r a row col p : (1 <= k)%nat -> (1 <= N)%nat -> radius <> 0 -> (a < 2)%nat ->
  let X := X_pt k N ns pts r row col p in let Y := Y_pt k N ns pts r row col p in
  let G := fun i j => sym_at (if (a =? 0)%nat then christoffel_1 (dx k N) (dx k N) X Y else christoffel_2 (dx k N) (dx k N) X Y) i j in
  let G0 := fun j => match a, j with 0%nat, 0%nat => christoffel_1_01 (rot r) Omega X Y | 0%nat, _ => christoffel_1_02 (rot r) Omega X Y | _, 0%nat => christoffel_2_01 (rot r) Omega X Y | _, _ => christoffel_2_02 (rot r) Omega X Y end in
  forcing k N ns pts radius q Omega rot dz1 dz2 r (S a) row col p =
  covariant_source gravity (q r 0%nat row col p) (fun j => q r (S j) row col p) (fun j => match j with 0%nat => dz1 r row col p | _ => dz2 r row col p end) (sym_at (H_contra radius (dx k N) (dx k N) X Y)) G0 G a.
Proof.
  intros Hk HN HR Ha X Y G G0. assert (Hd : dx k N <> 0) by (pose proof (dx_pos k N Hk HN); lra).
  destruct (pressure_terms radius (dx k N) X Y HR Hd) as [P1 P2]. cbv zeta in P1, P2.
  unfold forcing, covariant_source, sum2, H_pt. fold X Y. set (H := H_contra _ _ _ _ _) in *.
  set (h := q r 0%nat row col p). set (hu1 := q r 1%nat row col p). set (hu2 := q r 2%nat row col p). clearbody h hu1 hu2. cbv zeta.
  destruct a as [|[|a]]; [| |lia]; unfold G, G0; cbn [Nat.eqb sym_at].
  - set (G1 := christoffel_1 (dx k N) (dx k N) X Y) in *. assert (Z : s22 G1 = 0) by (unfold G1, christoffel_1; cbn [s22]; ring).
    transitivity (2 * (christoffel_1_01 (rot r) Omega X Y * hu1 + christoffel_1_02 (rot r) Omega X Y * hu2) + s11 G1 * hu1 * (hu1 / h) + 2 * s12 G1 * hu1 * (hu2 / h) + gravity * h * (s11 H * dz1 r row col p + s12 H * dz2 r row col p) + (s11 G1 * s11 H + 2 * s12 G1 * s12 H + s22 G1 * s22 H) * (gravity * h ^ 2 / 2)); [rewrite P1; ring|]. rewrite Z. unfold Rdiv. ring.
  - set (G2 := christoffel_2 (dx k N) (dx k N) X Y) in *. assert (Z : s11 G2 = 0) by (unfold G2, christoffel_2; cbn [s11]; ring).
    transitivity (2 * (christoffel_2_01 (rot r) Omega X Y * hu1 + christoffel_2_02 (rot r) Omega X Y * hu2) + 2 * s12 G2 * hu1 * (hu2 / h) + s22 G2 * hu2 * (hu2 / h) + gravity * h * (s12 H * dz1 r row col p + s22 H * dz2 r row col p) + (s11 G2 * s11 H + 2 * s12 G2 * s12 H + s22 G2 * s22 H) * (gravity * h ^ 2 / 2)); [rewrite P2; ring|]. rewrite Z. unfold Rdiv. ring.
Qed.
(** the points of the elements are those of the grid *)
Lemma line_place k N ns pts c i : (1 <= k)%nat -> (1 <= N)%nat -> (0 <= c)%Z -> line k N ns pts (Z.to_nat c) i = pt (sphere_grid k N ns pts) c i.
Proof.
  intros Hk HN Hc. unfold sphere_grid, line. cbn [pt]. f_equal. unfold x_solpt. rewrite delta_x_value by lia. unfold tile_start. rewrite INR_IZR_INZ, Z2Nat.id by exact Hc.
  assert (INR k <> 0) by (apply not_0_INR; lia). assert (INR N <> 0) by (apply not_0_INR; lia). field. auto.
Qed.
Lemma point_place k N ns pts t row_ col_ i j : (1 <= k)%nat -> (1 <= N)%nat -> tile_ok (Z.of_nat k) t -> (i < ns)%nat ->
  X_pt k N ns pts (rank_of_tile (Z.of_nat k) t) row_ col_ (j * ns + i) = pt (sphere_grid k N ns pts) (col t) (col_ * ns + i) /\
  Y_pt k N ns pts (rank_of_tile (Z.of_nat k) t) row_ col_ (j * ns + i) = pt (sphere_grid k N ns pts) (row t) (row_ * ns + j).
Proof.
  intros Hk HN Ht Hi. destruct (built_fields (Z.of_nat k) ltac:(lia) t Ht) as (_ & Er & Ec & _). unfold X_pt, Y_pt, my_row, my_col, SwModel.size. rewrite Er, Ec.
  destruct Ht as (_ & Hr & Hc). rewrite !line_place by lia.
  rewrite Nat.div_add_l by lia. rewrite (Nat.div_small i) by exact Hi. rewrite (Nat.add_comm (j * ns)), Nat.mod_add by lia. rewrite Nat.mod_small by exact Hi. rewrite Nat.add_0_r. split; reflexivity.
Qed.
