(** The tangent vectors of TopologySpec are derivatives of points of the sphere. *)
From Coq Require Import ZArith Reals Lra Lia.
From Coquelicot Require Import Coquelicot.
From Verif Require Import TopologyModel TopologySpec TopologyProofs ExchangeProofs.
Local Open Scope R_scope.

Definition proj3 (i : nat) (v : R * R * R) : R :=
  match i with O => fst (fst v) | S O => snd (fst v) | _ => snd v end.

Lemma norm_cube p X Y : (0 <= p < 6)%Z -> norm3 (cube_point 1 p X Y) = sqrt (1 + X * X + Y * Y).
Proof. intro Hp. split_panel p Hp; unfold norm3, cube_point; f_equal; ring. Qed.

Lemma tan_derive x a : cos x <> 0 -> is_derive (fun t => tan (x + t * a)) 0 ((1 + tan x * tan x) * a).
Proof.
  intro Hc. unfold tan.
  auto_derive.
  - now rewrite Rmult_0_l, Rplus_0_r.
  - rewrite Rmult_0_l, Rplus_0_r. field. exact Hc.
Qed.

Lemma lin_derive (u v : R -> R) (du dv cu cv c0 : R) :
  is_derive u 0 du -> is_derive v 0 dv ->
  is_derive (fun t => / sqrt (1 + u t * u t + v t * v t) * (c0 + cu * u t + cv * v t)) 0
    (/ sqrt (1 + u 0 * u 0 + v 0 * v 0) * (cu * du + cv * dv)
     + - (u 0 * du + v 0 * dv) / (sqrt (1 + u 0 * u 0 + v 0 * v 0) * (1 + u 0 * u 0 + v 0 * v 0))
       * (c0 + cu * u 0 + cv * v 0)).
Proof.
  intros Hu Hv.
  assert (D : 0 < 1 + u 0 * u 0 + v 0 * v 0) by nra.
  assert (S : 0 < sqrt (1 + u 0 * u 0 + v 0 * v 0)) by now apply sqrt_lt_R0.
  auto_derive.
  - repeat split; try (eexists; eassumption); try assumption; lra.
  - assert (Du := is_derive_unique u 0 du Hu). assert (Dv := is_derive_unique v 0 dv Hv).
    change (Derive (fun x => u x) 0) with (Derive u 0). change (Derive (fun x => v x) 0) with (Derive v 0).
    rewrite Du, Dv.
    set (q := 1 + u 0 * u 0 + v 0 * v 0) in *.
    assert (E : q = sqrt q * sqrt q) by (symmetry; apply sqrt_sqrt; lra).
    set (s := sqrt q) in *. rewrite E. field. lra.
Qed.

Lemma tangent_derivative p x1 x2 a1 a2 i : (0 <= p < 6)%Z -> cos x1 <> 0 -> cos x2 <> 0 ->
  is_derive (fun t => proj3 i (sphere_point p (tan (x1 + t * a1)) (tan (x2 + t * a2)))) 0
            (proj3 i (tangent p (tan x1) (tan x2) a1 a2)).
Proof.
  intros Hp H1 H2.
  pose proof (lin_derive _ _ _ _ 0 0 0 (tan_derive x1 a1 H1) (tan_derive x2 a2 H2)) as _.
  assert (G : forall cu cv c0 (f : R -> R) l,
     (forall t, f t = / sqrt (1 + tan (x1 + t * a1) * tan (x1 + t * a1) + tan (x2 + t * a2) * tan (x2 + t * a2))
                      * (c0 + cu * tan (x1 + t * a1) + cv * tan (x2 + t * a2))) ->
     l = (/ sqrt (1 + tan x1 * tan x1 + tan x2 * tan x2)
            * (cu * ((1 + tan x1 * tan x1) * a1) + cv * ((1 + tan x2 * tan x2) * a2))
          + - (tan x1 * ((1 + tan x1 * tan x1) * a1) + tan x2 * ((1 + tan x2 * tan x2) * a2))
            / (sqrt (1 + tan x1 * tan x1 + tan x2 * tan x2) * (1 + tan x1 * tan x1 + tan x2 * tan x2))
            * (c0 + cu * tan x1 + cv * tan x2)) ->
     is_derive f 0 l).
  { intros cu cv c0 f l Hf ->.
    pose proof (lin_derive _ _ _ _ cu cv c0 (tan_derive x1 a1 H1) (tan_derive x2 a2 H2)) as L.
    cbv beta in L. rewrite !Rmult_0_l, !Rplus_0_r in L.
    eapply is_derive_ext; [|exact L]. intro t. cbv beta. now rewrite Hf. }
  split_panel p Hp; destruct i as [|[|i]];
    unfold tangent, add3, scal, lin, cube_point, proj3; cbn [fst snd];
    [ apply (G 0 0 1) | apply (G 1 0 0) | apply (G 0 1 0)
    | apply (G (-1) 0 0) | apply (G 0 0 1) | apply (G 0 1 0)
    | apply (G 0 0 (-1)) | apply (G (-1) 0 0) | apply (G 0 1 0)
    | apply (G 1 0 0) | apply (G 0 0 (-1)) | apply (G 0 1 0)
    | apply (G 0 (-1) 0) | apply (G 1 0 0) | apply (G 0 0 1)
    | apply (G 0 1 0) | apply (G 1 0 0) | apply (G 0 0 (-1)) ];
    try (intro t; unfold sphere_point; rewrite norm_cube by lia; unfold scal, cube_point; cbn [fst snd]; ring);
    ring.
Qed.
