(** Euler on the cubed sphere: what leaves a tile enters its neighbour. *)
From Coq Require Import Reals ZArith Arith List Bool Lia Lra ZifyBool Permutation.
From Verif Require Import TopologyModel TopologySpec TopologyProofs ExchangeProofs GeoModel FluxModel FluxProofs FluxFaces SwModel SwSpec SwEdges SwTotal EulModel EulSpec.
Import ListNotations.
Local Open Scope R_scope.

(** flux of a density towards the right of an interface; q: the density, r: rho, u: momentum across, t: rho_theta *)
Definition wave (adv : bool) (h r u t : R) : R := if adv then Rabs (u / r) else Rabs (u / r) + sqrt (h * heat_capacity_ratio * pressure_itf t / r).
Definition rus (adv : bool) (sg h ql rl ul tl qr rr ur tr : R) : R :=
  1 / 2 * (sg * (ul / rl) * ql + sg * (ur / rr) * qr - Rmax (wave adv h rl ul tl) (wave adv h rr ur tr) * sg * (qr - ql)).
Lemma wave_opp adv h r u t : wave adv h r (- u) t = wave adv h r u t.
Proof. unfold wave, Rdiv. rewrite Ropp_mult_distr_l_reverse, Rabs_Ropp. reflexivity. Qed.
Lemma rus_mirror adv sg h ql rl ul tl qr rr ur tr : rus adv sg h ql rl ul tl qr rr ur tr = - rus adv sg h qr rr (- ur) tr ql rl (- ul) tl.
Proof. unfold rus. rewrite !wave_opp, (Rmax_comm (wave adv h rr ur tr)). unfold Rdiv. ring. Qed.

Ltac test :=
  repeat match goal with
  | |- context [(?a =? ?b)%nat] => first [replace (a =? b)%nat with true by lia | replace (a =? b)%nat with false by lia]
  | |- context [(?a <? ?b)%nat] => first [replace (a <? b)%nat with true by lia | replace (a <? b)%nat with false by lia]
  | |- context [(?a <=? ?b)%nat] => first [replace (a <=? b)%nat with true by lia | replace (a <=? b)%nat with false by lia]
  end; cbn [andb orb].
Lemma new_high ns n f e p : (p < itf_size ns)%nat -> (e <= n)%nat -> to_new_itf ns n f e (itf_size ns + p)%nat = f e p.
Proof. intros. unfold to_new_itf. replace (itf_size ns + p - itf_size ns)%nat with p by lia. test. destruct (e =? 0)%nat; cbn [andb orb]; reflexivity. Qed.
Lemma new_low ns n f e p : (p < itf_size ns)%nat -> (e <= n)%nat -> to_new_itf ns n f (S e) p = f e p.
Proof. intros. unfold to_new_itf. test. replace (S e - 1)%nat with e by lia. destruct (S e =? n + 1)%nat; reflexivity. Qed.

Section Sphere.
Variables (k N ns : nat) (pts : nat -> R) (A deta : R) (deep : bool) (geo : layers).
Variables (dR_i dR_j : Z -> nat -> nat -> face) (adv : bool) (ext_i ext_j : Z -> nat -> nat -> nat -> face).
Hypothesis Hk : (1 <= k)%nat.
Hypothesis HN : (1 <= N)%nat.
Hypothesis Hns : (1 <= ns)%nat.
Hypothesis sym : forall i, (i < ns)%nat -> pts (ns - 1 - i)%nat = - pts i.
Let K := Z.of_nat k.
Let n := (N * ns)%nat.
Let m := (ns * ns)%nat.
Let no4 : Z -> nat -> nat -> face := fun _ _ _ _ _ => 0.
Let no3 : Z -> nat -> face := fun _ _ _ _ => 0.
Let G := grid k N ns pts.
Lemma point_in z x : (z < ns)%nat -> (x < ns)%nat -> (z * ns + x < m /\ (z * ns + x) / ns = z /\ (z * ns + x) mod ns = x)%nat.
Proof.
  intros Hz Hx. split; [unfold m; nia|]. rewrite Nat.div_add_l by lia. rewrite Nat.div_small by exact Hx. split; [lia|].
  rewrite Nat.add_comm, Nat.mod_add by lia. apply Nat.mod_small, Hx.
Qed.
Lemma new_hi nn f e p : (p < m)%nat -> (e <= nn)%nat -> to_new_itf ns nn f e (m + p)%nat = f e p.
Proof. apply new_high. Qed.
Lemma new_lo nn f e p : (p < m)%nat -> (e <= nn)%nat -> to_new_itf ns nn f (S e) p = f e p.
Proof. apply new_low. Qed.

(** ** Fluxes at the faces *)
Definition fi (r : Z) (v l row_ : nat) : face := fst (fst (itf_i k N ns pts A deta deep geo dR_i dR_j adv ext_i ext_j r l row_)) v.
Definition fj (r : Z) (v l col_ : nat) : face := fst (fst (itf_j k N ns pts A deta deep geo dR_i dR_j adv ext_i ext_j r l col_)) v.
Definition qi := full_i k N ns pts ext_i ext_j.
Definition qj := full_j k N ns pts ext_i ext_j.
Definition root (h d3 : R) (xy : R * R) : R := metric3_rootG (dx k N) (dx k N) deta (radius0 A deep h) (fst xy) (snd xy) d3.
Definition contra (d : side) (h : R) (xy : R * R) : R := let H := metric3_contra (dx k N) (dx k N) deta (radius0 A deep h) (fst xy) (snd xy) 0 0 1 in match d with East | West => t11 H | _ => t22 H end.
Lemma fi_value r v l row_ e p : v = 0%nat \/ v = 4%nat -> (p < m)%nat -> (e <= N)%nat ->
  let xy := (itf k N (my_col k r) e, line k N ns pts (my_row k r) (row_ * ns + p mod ns)) in let h := z_i geo r l row_ e p in
  fi r v l row_ e (m + p)%nat = rus adv (root h (dRdeta_itf_i k N ns dR_i dR_j r l row_ e p) xy) (contra East h xy)
    (qi r v l row_ e (m + p)%nat) (qi r 0 l row_ e (m + p)%nat) (qi r 1 l row_ e (m + p)%nat) (qi r 4 l row_ e (m + p)%nat)
    (qi r v l row_ (S e) p) (qi r 0 l row_ (S e) p) (qi r 1 l row_ (S e) p) (qi r 4 l row_ (S e) p).
Proof.
  intros Hv Hp He xy h. unfold fi, itf_i. change (itf_size ns) with m. rewrite sphere_value by lia.
  assert (S : forall s i j, side_flux 0 (fun e p => full_i k N ns pts ext_i ext_j r 1 l row_ e p / full_i k N ns pts ext_i ext_j r 0 l row_ e p) (fun v => full_i k N ns pts ext_i ext_j r v l row_) (fun e p => pressure_itf (full_i k N ns pts ext_i ext_j r 4 l row_ e p)) (sqrtG_i k N ns pts A deta deep geo dR_i dR_j r l row_) (h_i k N ns pts A deta deep geo dR_i dR_j r l row_) s v i j
    = get s (sqrtG_i k N ns pts A deta deep geo dR_i dR_j r l row_) i j * (get s (qi r 1 l row_) i j / get s (qi r 0 l row_) i j) * get s (qi r v l row_) i j) by (intros; destruct Hv as [-> | ->]; reflexivity).
  rewrite !S. clear S. unfold eig_3d. rewrite !get_low, !get_high. unfold sqrtG_i, h_i. rewrite !new_hi, !new_lo by assumption.
  unfold rus, wave, root, contra. subst xy h. cbn [fst snd entry]. fold qi. destruct adv; reflexivity.
Qed.
Lemma fj_value r v l col_ e p : v = 0%nat \/ v = 4%nat -> (p < m)%nat -> (e <= N)%nat ->
  let xy := (line k N ns pts (my_col k r) (col_ * ns + p mod ns), itf k N (my_row k r) e) in let h := z_j geo r l col_ e p in
  fj r v l col_ e (m + p)%nat = rus adv (root h (dRdeta_itf_j k N ns dR_i dR_j r l col_ e p) xy) (contra North h xy)
    (qj r v l col_ e (m + p)%nat) (qj r 0 l col_ e (m + p)%nat) (qj r 2 l col_ e (m + p)%nat) (qj r 4 l col_ e (m + p)%nat)
    (qj r v l col_ (S e) p) (qj r 0 l col_ (S e) p) (qj r 2 l col_ (S e) p) (qj r 4 l col_ (S e) p).
Proof.
  intros Hv Hp He xy h. unfold fj, itf_j. change (itf_size ns) with m. rewrite sphere_value by lia.
  assert (S : forall s i j, side_flux 1 (fun e p => full_j k N ns pts ext_i ext_j r 2 l col_ e p / full_j k N ns pts ext_i ext_j r 0 l col_ e p) (fun v => full_j k N ns pts ext_i ext_j r v l col_) (fun e p => pressure_itf (full_j k N ns pts ext_i ext_j r 4 l col_ e p)) (sqrtG_j k N ns pts A deta deep geo dR_i dR_j r l col_) (h_j k N ns pts A deta deep geo dR_i dR_j r l col_) s v i j
    = get s (sqrtG_j k N ns pts A deta deep geo dR_i dR_j r l col_) i j * (get s (qj r 2 l col_) i j / get s (qj r 0 l col_) i j) * get s (qj r v l col_) i j) by (intros; destruct Hv as [-> | ->]; reflexivity).
  rewrite !S. clear S. unfold eig_3d. rewrite !get_low, !get_high. unfold sqrtG_j, h_j. rewrite !new_hi, !new_lo by assumption.
  unfold rus, wave, root, contra. subst xy h. cbn [fst snd entry]. fold qj. destruct adv; reflexivity.
Qed.
Lemma fi_single r v l row_ e p : (S e < N + 2)%nat -> (p < m)%nat -> fi r v l row_ e (m + p)%nat = fi r v l row_ (S e) p.
Proof. intros He Hp. apply (sphere_single (N + 2) m 0 adv); assumption. Qed.
Lemma fj_single r v l col_ e p : (S e < N + 2)%nat -> (p < m)%nat -> fj r v l col_ e (m + p)%nat = fj r v l col_ (S e) p.
Proof. intros He Hp. apply (sphere_single (N + 2) m 1 adv); assumption. Qed.

(** ** What leaves a tile *)
Definition at_slab {A} (f : slab A) (l x z : nat) : A := f l (x / ns)%nat z (x mod ns)%nat.
Definition out (r : Z) (v : nat) (d : side) (l x z : nat) : R :=
  match d with
  | East => fi r v l (x / ns) N (m + (z * ns + x mod ns)) | West => - fi r v l (x / ns) 1 (z * ns + x mod ns)
  | North => fj r v l (x / ns) N (m + (z * ns + x mod ns)) | South => - fj r v l (x / ns) 1 (z * ns + x mod ns)
  end%nat.
Definition own (r : Z) (v : nat) (d : side) (l x z : nat) : R := at_slab (sent_slab N ns (ext_i r v) (ext_j r v) d) l x z.
Definition hal (r : Z) (v : nat) (d : side) (l x z : nat) : R := at_slab (halo_q k N ns pts ext_i ext_j r v d) l x z.
Definition own_eta (r : Z) (d : side) (l x z : nat) : R := at_slab (sent_slab N ns (dR_i r) (dR_j r) d) l x z.
Definition hal_eta (r : Z) (d : side) (l x z : nat) : R := at_slab (halo_dR k N ns dR_i dR_j r d) l x z.
Definition height (r : Z) (d : side) (l x z : nat) : R :=
  match d with
  | East => z_i geo r l (x / ns) N (z * ns + x mod ns) | West => z_i geo r l (x / ns) 0 (z * ns + x mod ns)
  | North => z_j geo r l (x / ns) N (z * ns + x mod ns) | South => z_j geo r l (x / ns) 0 (z * ns + x mod ns)
  end%nat.
Definition edge_eta r d l x z := 1 / 2 * own_eta r d l x z + 1 / 2 * hal_eta r d l x z.
Definition own_u r d l x z := normal d (own r 1 d l x z, own r 2 d l x z).
Definition hal_u r d l x z := normal d (hal r 1 d l x z, hal r 2 d l x z).
Lemma fill_lo fill lo_ hi_ f l x p : (p < m)%nat -> fill_halo N ns fill lo_ hi_ f l x 0%nat (m + p)%nat = lo_ l x (p / ns)%nat (p mod ns)%nat.
Proof. intros. unfold fill_halo, itf_size. fold m. test. replace (m + p - m)%nat with p by lia. reflexivity. Qed.
Lemma fill_hi fill lo_ hi_ f l x p : (p < m)%nat -> fill_halo N ns fill lo_ hi_ f l x (N + 1)%nat p = hi_ l x (p / ns)%nat (p mod ns)%nat.
Proof. intros. unfold fill_halo, itf_size. fold m. test. reflexivity. Qed.
Lemma fill_in fill lo_ hi_ f l x e p : (1 <= e <= N)%nat -> fill_halo N ns fill lo_ hi_ f l x e p = f l x e p.
Proof. intros. unfold fill_halo. test. reflexivity. Qed.
Lemma out_value t v d l x z : v = 0%nat \/ v = 4%nat -> tile_ok K t -> (x < n)%nat -> (z < ns)%nat -> let r := rank_of_tile K t in
  out r v d l x z = rus adv (root (height r d l x z) (edge_eta r d l x z) (boundary_xy G t d x)) (contra d (height r d l x z) (boundary_xy G t d x))
    (own r v d l x z) (own r 0 d l x z) (own_u r d l x z) (own r 4 d l x z) (hal r v d l x z) (hal r 0 d l x z) (hal_u r d l x z) (hal r 4 d l x z).
Proof.
  intros Hv Ht Hx Hz r. destruct (rows k N ns pts no4 no4 no3 no3 Hk HN Hns sym t Ht) as [Er Ec]. fold K in Er, Ec. fold r in Er, Ec.
  destruct (split_x k N ns pts no4 no4 no3 no3 Hk HN Hns sym x Hx) as [Ex Hp].
  destruct (point_in z (x mod ns) Hz Hp) as (Pm & Pd & Pr). set (p := (z * ns + x mod ns)%nat) in *.
  destruct Ht as (_ & Hr & Hc).
  pose proof (itf_first k N ns pts no4 no4 no3 no3 Hk HN Hns sym) as I0. pose proof (itf_last k N ns pts no4 no4 no3 no3 Hk HN Hns sym) as I1. fold K G in I0, I1.
  unfold out, own_u, hal_u, edge_eta, normal, own, hal, own_eta, hal_eta, height, at_slab, sent_slab. change (itf_size ns) with m. fold p.
  destruct d.
  - rewrite <- (fj_single r v l (x / ns) 0 p) by lia. rewrite fj_value by (assumption || lia). rewrite rus_mirror, Ropp_involutive.
    unfold dRdeta_itf_j, full_dR_j, qj, full_j. change (itf_size ns) with m. rewrite !fill_lo, !fill_in by lia. rewrite Pd, Pr, Er, Ec, Ex, I0 by assumption.
    cbn [fst snd]. rewrite (Rplus_comm (1 / 2 * halo_dR _ _ _ _ _ _ _ _ _ _ _)). unfold contra, boundary_xy. cbn [fst snd]. reflexivity.
  - rewrite fj_value by (assumption || lia).
    unfold dRdeta_itf_j, full_dR_j, qj, full_j. change (itf_size ns) with m. replace (S N) with (N + 1)%nat by lia. rewrite !fill_hi, !fill_in by lia. rewrite Pd, Pr, Er, Ec, Ex, I1 by assumption.
    unfold contra, boundary_xy. cbn [fst snd]. reflexivity.
  - rewrite <- (fi_single r v l (x / ns) 0 p) by lia. rewrite fi_value by (assumption || lia). rewrite rus_mirror, Ropp_involutive.
    unfold dRdeta_itf_i, full_dR_i, qi, full_i. change (itf_size ns) with m. rewrite !fill_lo, !fill_in by lia. rewrite Pd, Pr, Er, Ec, Ex, I0 by assumption.
    cbn [fst snd]. rewrite (Rplus_comm (1 / 2 * halo_dR _ _ _ _ _ _ _ _ _ _ _)). unfold contra, boundary_xy. cbn [fst snd]. reflexivity.
  - rewrite fi_value by (assumption || lia).
    unfold dRdeta_itf_i, full_dR_i, qi, full_i. change (itf_size ns) with m. replace (S N) with (N + 1)%nat by lia. rewrite !fill_hi, !fill_in by lia. rewrite Pd, Pr, Er, Ec, Ex, I1 by assumption.
    unfold contra, boundary_xy. cbn [fst snd]. reflexivity.
Qed.

(** ** The halo holds what the neighbour has *)
Lemma HK1 : (1 <= K)%Z.
Proof. unfold K. lia. Qed.
Section Pair.
Variables (t : tile) (d : side).
Hypothesis Ht : tile_ok K t.
Let s := nb K t d.
Let e := back_side K t d.
Let r := rank_of_tile K t.
Let rs := rank_of_tile K s.
Let back x := back_index n (nb_flip K t d) x.
Lemma Hs' : tile_ok K s.
Proof. apply nb_ok; [apply HK1|exact Ht]. Qed.
Lemma flip_at {T} b (f : slab T) l x z : (x < n)%nat -> at_slab (flip_if b (flip_slab N ns) f) l x z = at_slab f l (back_index n b x) z.
Proof.
  intro Hx. destruct (div_flip k N ns pts no4 no4 no3 no3 Hk HN Hns sym x Hx) as (E1 & E2 & _). fold n in E1, E2.
  unfold at_slab, flip_if, flip_slab, back_index. destruct b; [|reflexivity]. rewrite E1, E2. reflexivity.
Qed.
Lemma flip_lines_at {T} b (f : slab T) l x z : (x < n)%nat -> at_slab (flip_if b (flip_lines N ns) f) l x z = at_slab f l (back_index n b x) z.
Proof.
  intro Hx. destruct (split_x k N ns pts no4 no4 no3 no3 Hk HN Hns sym x Hx) as [Ex _].
  unfold at_slab, flip_if, flip_lines, back_index. destruct b; [|reflexivity]. rewrite Ex. reflexivity.
Qed.
Lemma hal_scalar v l x z : v = 0%nat \/ v = 4%nat -> (x < n)%nat -> hal r v d l x z = own rs v e l (back x) z.
Proof.
  intros Hv Hx. unfold hal. assert (halo_q k N ns pts ext_i ext_j r v d = halo_scalar k N ns ext_i ext_j v r d) as -> by (destruct Hv as [-> | ->]; reflexivity).
  unfold halo_scalar, exchange_scalars, r. change (size k) with (6 * K * K)%Z. rewrite alltoall_spec by (apply HK1 || exact Ht). cbn [received_slab].
  fold s e. rewrite flip_at by exact Hx. rewrite built_flip by (exact HK1 || exact Hs'). pose proof (proj2 (nb_back K t d HK1 Ht)) as F. fold s e in F. rewrite F. reflexivity.
Qed.
Lemma hal_eta_value l x z : (x < n)%nat -> hal_eta r d l x z = own_eta rs e l (back x) z.
Proof.
  intros Hx. unfold hal_eta, halo_dR, exchange_scalars, r. change (size k) with (6 * K * K)%Z. rewrite alltoall_spec by (apply HK1 || exact Ht). cbn [received_slab].
  fold s e. rewrite flip_lines_at by exact Hx. rewrite built_flip by (exact HK1 || exact Hs'). pose proof (proj2 (nb_back K t d HK1 Ht)) as F. fold s e in F. rewrite F. reflexivity.
Qed.
Lemma hal_vector l x z : (x < n)%nat -> exists y,
  (hal r 1 d l x z, hal r 2 d l x z) = (if at_edge K s e then lookup2 convert_contras (panel s) e convert_default else convert_default) (own rs 1 e l (back x) z) (own rs 2 e l (back x) z) y.
Proof.
  intro Hx. unfold hal. cbn [halo_q]. 
  change (at_slab (fun l x z y => fst (fst (halo_vector k N ns pts ext_i ext_j r d l x z y))) l x z) with (fst (fst (at_slab (halo_vector k N ns pts ext_i ext_j r d) l x z))).
  change (at_slab (fun l x z y => snd (fst (halo_vector k N ns pts ext_i ext_j r d l x z y))) l x z) with (snd (fst (at_slab (halo_vector k N ns pts ext_i ext_j r d) l x z))).
  unfold halo_vector, r. change (size k) with (6 * K * K)%Z. rewrite alltoall_spec by (apply HK1 || exact Ht). cbn [received_slab].
  fold s e. rewrite flip_at by exact Hx. rewrite built_flip by (exact HK1 || exact Hs'). rewrite built_contra by (exact HK1 || exact Hs').
  assert (F : nb_flip K s e = nb_flip K t d) by (exact (proj2 (nb_back K t d HK1 Ht))). rewrite F. fold (back x). set (cv := if at_edge K s e then _ else _).
  exists (boundary_new k N ns pts rs e (back x / ns) z (back x mod ns)). unfold at_slab at 1 2, convert_slab. cbn [fst snd]. symmetry. apply surjective_pairing.
Qed.
Lemma back_back' : back_side K s e = d /\ nb K s e = t.
Proof. exact (back_back k N ns pts no4 no4 no3 no3 Hk HN Hns sym t d Ht). Qed.
Lemma hal_normal l x z : (x < n)%nat -> hal_u r d l x z = - own_u rs e l (back x) z.
Proof.
  intro Hx. unfold hal_u, own_u. destruct (hal_vector l x z Hx) as [y Ey].
  pose proof (conv_normal K s e y (own rs 1 e l (back x) z) (own rs 2 e l (back x) z) Hs') as C. rewrite <- Ey, (proj1 back_back') in C. exact C.
Qed.
End Pair.

(** ** Metric at a shared point *)
Lemma root_even d e h d3 xy xy' : across_along d xy = across_along e xy' -> root h d3 xy = root h d3 xy'.
Proof.
  destruct xy as [a b], xy' as [a' b']. unfold across_along, root, metric3_rootG. cbn [fst snd].
  destruct d, e; intro E; apply pair_equal_spec in E; destruct E as [E1 E2]; rewrite E1, E2; try reflexivity;
    rewrite (Rplus_assoc 1 (b' ^ 2)), (Rplus_comm (b' ^ 2)), <- (Rplus_assoc 1); set (w := 1 + a' ^ 2 + b' ^ 2); unfold Rdiv; ring.
Qed.
Lemma contra_even d e h xy xy' : across_along d xy = across_along e xy' -> contra d h xy = contra e h xy'.
Proof.
  destruct xy as [a b], xy' as [a' b']. unfold across_along, contra, metric3_contra. cbn [fst snd t11 t22].
  destruct d, e; intro E; apply pair_equal_spec in E; destruct E as [E1 E2]; rewrite E1, E2; rewrite ?(Rplus_assoc 1), ?(Rplus_comm (a' ^ 2)); reflexivity.
Qed.
Lemma heights t d l x z : (deep = true -> one_height k N ns pts geo) -> tile_ok K t -> (x < n)%nat -> (z < ns)%nat ->
  radius0 A deep (height (rank_of_tile K (nb K t d)) (back_side K t d) l (back_index n (nb_flip K t d) x) z) = radius0 A deep (height (rank_of_tile K t) d l x z).
Proof.
  intros S Ht Hx Hz. unfold radius0. destruct deep; [|reflexivity]. f_equal. destruct (S eq_refl) as [B HB].
  assert (V : forall t d x, tile_ok K t -> (x < n)%nat -> height (rank_of_tile K t) d l x z = B l z (boundary_point G t d x)).
  { intros t' d' x' Ht' Hx'. unfold G. rewrite (grid_point k N ns pts no4 no4 no3 no3 Hk HN Hns sym t' d' x' Ht').
    destruct (HB t' l x' z Ht' Hx' Hz) as (W & E & So & No). unfold height. destruct d'; assumption. }
  pose proof (Hs' t d Ht) as Hs_. 
  assert (Hy : (back_index n (nb_flip K t d) x < n)%nat) by (unfold back_index; destruct (nb_flip K t d); lia).
  rewrite !V by assumption. f_equal. apply (point_nb K n G t d x HK1 Ht); [|exact Hx]. exact (grid_sym k N ns pts no4 no4 no3 no3 Hk HN Hns sym).
Qed.
Lemma out_cancels t v d l x z : v = 0%nat \/ v = 4%nat -> (deep = true -> one_height k N ns pts geo) -> tile_ok K t -> (x < n)%nat -> (z < ns)%nat ->
  out (rank_of_tile K (nb K t d)) v (back_side K t d) l (back_index n (nb_flip K t d) x) z = - out (rank_of_tile K t) v d l x z.
Proof.
  intros Hv S Ht Hx Hz. set (y := back_index n (nb_flip K t d) x). assert (Hy : (y < n)%nat) by (unfold y, back_index; destruct (nb_flip K t d); lia).
  pose proof (Hs' t d Ht) as Hs_. rewrite !out_value by assumption. cbv zeta.
  rewrite (rus_mirror _ _ _ (own (rank_of_tile K t) v d l x z)). rewrite Ropp_involutive.
  pose proof (across_along_nb k N ns pts no4 no4 no3 no3 Hk HN Hns sym t d x Ht Hx) as Al. fold K n G in Al. fold y in Al.
  pose proof (heights t d l x z S Ht Hx Hz) as Eh. fold y in Eh.
  destruct (back_back' t d Ht) as [E1 E2].
  assert (E3 : back_index n (nb_flip K (nb K t d) (back_side K t d)) y = x).
  { rewrite (proj2 (nb_back K t d HK1 Ht)). unfold y, back_index. destruct (nb_flip K t d); [|reflexivity]. lia. }
  pose proof (hal_normal t d Ht l x z Hx) as U. pose proof (hal_normal (nb K t d) (back_side K t d) Hs_ l y z Hy) as U'.
  pose proof (fun v Hv => hal_scalar t d Ht v l x z Hv Hx) as V. pose proof (fun v Hv => hal_scalar (nb K t d) (back_side K t d) Hs_ v l y z Hv Hy) as V'.
  pose proof (hal_eta_value t d Ht l x z Hx) as W. pose proof (hal_eta_value (nb K t d) (back_side K t d) Hs_ l y z Hy) as W'.
  cbv beta in U, U', V, V', W, W'. fold y in U, V, W. rewrite E3 in U', V', W'. rewrite E1, E2 in U', V', W'.
  rewrite U, U', Ropp_involutive. rewrite !V, !V' by (assumption || (left; reflexivity) || (right; reflexivity)).
  f_equal.
  - unfold edge_eta. rewrite W, W'. rewrite (Rplus_comm (1 / 2 * own_eta (rank_of_tile K (nb K t d)) _ _ _ _)).
    rewrite (root_even _ _ _ _ _ _ Al). unfold root. rewrite Eh. reflexivity.
  - rewrite (contra_even _ _ _ _ _ Al). unfold contra. rewrite Eh. reflexivity.
Qed.
End Sphere.

(** ** The sum over all sides of all tiles, for anything that cancels at each edge *)
Section Total.
Variables (k N ns : nat) (pts ws : nat -> R).
Hypothesis Hk : (1 <= k)%nat.
Hypothesis HN : (1 <= N)%nat.
Hypothesis Hns : (1 <= ns)%nat.
Hypothesis sym : forall i, (i < ns)%nat -> pts (ns - 1 - i)%nat = - pts i.
Hypothesis symw : forall i, (i < ns)%nat -> ws (ns - 1 - i)%nat = ws i.
Let K := Z.of_nat k.
Let n := (N * ns)%nat.
Variable leaves : Z -> side -> nat -> R.
Hypothesis cancels : forall t d x, tile_ok K t -> (x < n)%nat -> leaves (rank_of_tile K (nb K t d)) (back_side K t d) (back_index n (nb_flip K t d) x) = - leaves (rank_of_tile K t) d x.
Let no4 : Z -> nat -> nat -> face := fun _ _ _ _ _ => 0.
Let no3 : Z -> nat -> face := fun _ _ _ _ => 0.
Lemma all_sides_cancel : total (fun r => total (fun d => total (fun x => ws (x mod ns) * leaves r d x) (seq 0 n)) all_sides) (ranks k) = 0.
Proof.
  rewrite (total_ext _ (fun r => total (fun c => (fun d x => ws (x mod ns) * leaves r d x) (fst c) (snd c)) (list_prod all_sides (seq 0 n)))) by (intros r _; apply (total_prod (fun d x => ws (x mod ns) * leaves r d x))).
  rewrite (total_prod (fun r c => ws (snd c mod ns) * leaves r (fst c) (snd c))).
  assert (HK : (1 <= K)%Z) by (unfold K; lia).
  pose proof (in_ranks k N ns pts ws no4 no4 Hk HN Hns sym symw) as IR. fold K in IR.
  apply (pairs_cancel _ (fun c => let a := partner k N ns (fst c, fst (snd c), snd (snd c)) in (fst (fst a), (snd (fst a), snd a)))).
  - apply NoDup_prod; [|apply NoDup_prod; [|apply seq_NoDup]].
    + apply NoDup_map_on; [apply seq_NoDup|]. intros x y _ _. apply Nat2Z.inj.
    + unfold all_sides. repeat constructor; cbn; intuition discriminate.
  - intros [r [d x]] I. apply in_prod_iff in I as [Ir I]. apply in_prod_iff in I as [Id Ix]. apply IR in Ir. apply in_seq in Ix. cbn [fst snd partner]. fold K n.
    pose proof (tile_of_rank_ok K r HK Ir) as Ht. set (t := tile_of_rank K r) in *.
    assert (Er : r = rank_of_tile K t) by (symmetry; apply rank_of_tile_of_rank; exact HK).
    pose proof (nb_ok K t d HK Ht) as Hs. destruct (nb_back K t d HK Ht) as [B1 B2].
    assert (Hx : (x < n)%nat) by lia.
    assert (B3 : back_side K (nb K t d) (back_side K t d) = d).
    { apply (nb_distinct K t); [exact HK|exact Ht|]. destruct (nb_back K (nb K t d) (back_side K t d) HK Hs) as [C _]. now rewrite B1 in C. }
    split; [|split].
    + apply in_prod_iff. split; [apply IR, rank_of_tile_range; assumption|]. apply in_prod_iff. split.
      * unfold all_sides. destruct (back_side K t d); cbn; tauto.
      * apply in_seq. unfold back_index. destruct (nb_flip K t d); lia.
    + rewrite tile_of_rank_of by assumption. rewrite B1, B2, B3, <- Er. f_equal. f_equal. unfold back_index. destruct (nb_flip K t d); [|reflexivity]. lia.
    + rewrite (cancels t d x Ht Hx), <- Er.
      replace (ws (back_index n (nb_flip K t d) x mod ns)) with (ws (x mod ns)); [ring|].
      unfold back_index. destruct (nb_flip K t d); [|reflexivity]. destruct (div_flip k N ns pts no4 no4 no3 no3 Hk HN Hns sym x Hx) as (_ & M' & _ & M). fold n in M'. rewrite M'. symmetry. apply symw, M.
Qed.
End Total.
