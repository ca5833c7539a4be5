(** Steps of the explicit integrators and totals on several processes, for the Euler equations. *)
From Coq Require Import Reals ZArith Arith Lia.
From Coquelicot Require Import Hierarchy.
From Verif Require Import TopologyModel TopologySpec TopologyProofs SwSpec EulModel StepModel FieldSpace FieldSpace3 EulCutSpec EulParallel.
From mathcomp Require Import all_ssreflect all_algebra.
From Verif Require Import RField RhsModel OpTensor SwRhs SwParRhs EulRhs EulIntegral EulParRhs.
Set Implicit Arguments.
Unset Strict Implicit.
Unset Printing Implicit Defensive.
Delimit Scope R_scope with re.
Delimit Scope Z_scope with zz.

Section Steps.
Variables (k N NZ ns : nat) (pts : seq R) (earth deta : R) (deep adv : bool) (geo geo' : layers).
Variables (chr chr' : Z -> nat -> nat -> nat -> nat -> nat -> nat -> R) (damp damp' : states3 -> states3).
Hypothesis Hk : (0 < k)%coq_nat.
Hypothesis HN : (0 < N)%coq_nat.
Hypothesis HZ : (0 < NZ)%coq_nat.
Hypothesis Hns : (0 < ns)%coq_nat.
Hypothesis EL : same_layers k N NZ ns geo geo'.
Hypothesis EC : same_symbols k N NZ ns chr chr'.
Let rel : states3 -> states3 -> Prop := same_state3 k N NZ ns.
Hypothesis ED : forall u w, rel u w -> rel (damp u) (damp' w).
Lemma rel3_plus u u' w w' : rel u w -> rel u' w' -> rel (Hierarchy.plus u u') (Hierarchy.plus w w').
Proof. move=> H H' v Hv r l i j p *. rewrite /Hierarchy.plus /= /st3_plus. by rewrite (H v Hv r l i j p) // (H' v Hv r l i j p). Qed.
Lemma rel3_scal (c : R_Ring) u w : rel u w -> rel (Hierarchy.scal c u) (Hierarchy.scal c w).
Proof. move=> H v Hv r l i j p *. rewrite /Hierarchy.scal /= /st3_scal. by rewrite (H v Hv r l i j p). Qed.
Let f : states3 -> states3 := fun q => euler_rhs k N NZ ns pts earth deta deep adv geo chr (damp q) q.
Let g : states3 -> states3 := fun q => euler_rhs 1 (k * N)%coq_nat NZ ns pts earth deta deep adv geo' chr' (damp' q) q.
Lemma rel3_rhs u w : rel u w -> rel (f u) (g w).
Proof. move=> H. exact: (rhs3_cut pts earth deta deep adv Hk HN HZ Hns EL EC (ED H) H). Qed.
Lemma euler1_cut3 dt n u w : rel u w -> rel (Nat.iter n (fun q => euler1 f q dt) u) (Nat.iter n (fun q => euler1 g q dt) w).
Proof. apply: iter_related => u' w' H. exact: (euler1_related rel rel3_plus rel3_scal f g rel3_rhs). Qed.
Lemma tvdrk3_cut3 dt n u w : rel u w -> rel (Nat.iter n (fun q => tvdrk3 f q dt) u) (Nat.iter n (fun q => tvdrk3 g q dt) w).
Proof. apply: iter_related => u' w' H. exact: (tvdrk3_related rel rel3_plus rel3_scal f g rel3_rhs). Qed.
End Steps.

Local Open Scope ring_scope.
Section Integral.
Variables (k N NZ ns : nat) (pts ws : seq R) (earth deta : R) (deep : bool) (geo geo' : layers) (f F : Z -> nat -> nat -> nat -> nat -> R).
Hypothesis Hk : (0 < k)%coq_nat.
Hypothesis HN : (0 < N)%coq_nat.
Hypothesis HZ : (0 < NZ)%coq_nat.
Hypothesis Hns : (0 < ns)%coq_nat.
Hypothesis EL : same_layers k N NZ ns geo geo'.
Hypothesis EF : same_points k N NZ ns f F.
Let K := Z.of_nat k.
Lemma integral_cut3 : global_integral_3d k N NZ ns pts ws earth deta deep geo f = global_integral_3d 1 (k * N)%N NZ ns pts ws earth deta deep geo' F.
Proof.
  rewrite /global_integral_3d.
  pose pt (z y x : nat) := ((z * ns + y) * ns + x)%N.
  pose A r l i j : R := \sum_(z < ns) \sum_(y < ns) \sum_(x < ns) f r l i j (pt z y x) * sqrtG_pt3 k N ns (point pts) earth deta deep geo r l i j (pt z y x) * (ws`_z * ws`_y * ws`_x).
  pose B c l i j : R := \sum_(z < ns) \sum_(y < ns) \sum_(x < ns) F c l i j (pt z y x) * sqrtG_pt3 1 (k * N)%N ns (point pts) earth deta deep geo' c l i j (pt z y x) * (ws`_z * ws`_y * ws`_x).
  rewrite exchange_big [RHS]exchange_big /=. apply: eq_bigr => l _.
  rewrite (sum_split (6 * k) k (fun r => \sum_(i < N) \sum_(j < N) A (Z.of_nat r) l i j)).
  rewrite (sum_split 6 k (fun ca => \sum_(b < k) \sum_(i < N) \sum_(j < N) A (Z.of_nat (ca * k + b)%N) l i j)).
  rewrite -[(6 * 1 * 1)%N]/6%N. apply: eq_bigr => c _.
  rewrite (sum_split k N (fun i => \sum_(j < k * N) B (Z.of_nat c) l i j)). apply: eq_bigr => a _. rewrite exchange_big /=. apply: eq_bigr => i _.
  rewrite (sum_split k N (fun j => B (Z.of_nat c) l (a * N + i)%N j)). apply: eq_bigr => b _. apply: eq_bigr => j _.
  have Hc := ltP (ltn_ord c). have Ha := ltP (ltn_ord a). have Hb := ltP (ltn_ord b). have Hl := ltP (ltn_ord l). have Hi := ltP (ltn_ord i). have Hj := ltP (ltn_ord j).
  pose t := Tile (Z.of_nat c) (Z.of_nat a) (Z.of_nat b).
  have Ht : tile_ok K t by rewrite /tile_ok /K /=; lia.
  have -> : Z.of_nat ((c * k + a) * k + b)%N = rank_of_tile K t.
    rewrite /rank_of_tile /K /= -plusE -multE. lia.
  apply: eq_bigr => z _. apply: eq_bigr => y _. apply: eq_bigr => x _.
  have Hp : (pt z y x < Nat.pow ns 3)%coq_nat.
    have := ltP (ltn_ord z). have := ltP (ltn_ord y). have := ltP (ltn_ord x). rewrite /pt -plusE -multE. cbn [Nat.pow]. nia.
  rewrite (pt_at Hk HN HZ Hns EF Ht Hl Hi Hj Hp) (sG_pt_cut k N NZ ns (point pts) earth deta deep geo geo' Hk HN Hns (geo_pt Hk HN HZ Hns EL) t l i j (pt z y x) Ht Hl Hi Hj Hp).
  by rewrite /= !Nat2Z.id.
Qed.
End Integral.
Lemma cut_state3 k N NZ ns F : same_state3 k N NZ ns (fun r v l => cut k N (fun c => F c v l) r) F.
Proof. by []. Qed.
