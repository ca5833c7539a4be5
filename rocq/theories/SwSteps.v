(** Steps of the explicit integrators on several processes. *)
From Coq Require Import Reals ZArith.
From Coquelicot Require Import Hierarchy.
From Verif Require Import TopologyModel TopologySpec GeoModel SwModel SwSpec StepModel FieldSpace.
From mathcomp Require Import all_ssreflect all_algebra.
From Verif Require Import RField SwRhs SwCutSpec SwParRhs.
Set Implicit Arguments.
Unset Strict Implicit.
Unset Printing Implicit Defensive.
Delimit Scope R_scope with re.
Delimit Scope Z_scope with zz.

Section Steps.
Variables (k N ns : nat) (pts : seq R) (radius Omega : R) (rot : Z -> rotation) (Tc T : option topography).
Hypothesis Hk : (0 < k)%N.
Hypothesis HN : (0 < N)%N.
Hypothesis Hns : (0 < ns)%N.
Hypothesis ET : same_topography k N ns Tc T.
Let rel : states -> states -> Prop := same_state k N ns.
Lemma rel_plus u u' w w' : rel u w -> rel u' w' -> rel (Hierarchy.plus u u') (Hierarchy.plus w w').
Proof. move=> H H' r v i j p *. rewrite /Hierarchy.plus /= /st_plus. by rewrite (H r v i j p) // (H' r v i j p). Qed.
Lemma rel_scal (a : R_Ring) u w : rel u w -> rel (Hierarchy.scal a u) (Hierarchy.scal a w).
Proof. move=> H r v i j p *. rewrite /Hierarchy.scal /= /st_scal. by rewrite (H r v i j p). Qed.
Let f : states -> states := sw_rhs k N ns pts radius Omega (cut_rotation k rot) Tc.
Let g : states -> states := sw_rhs 1 (k * N)%coq_nat ns pts radius Omega rot T.
Lemma rel_rhs u w : rel u w -> rel (f u) (g w).
Proof. move=> H. exact: (rhs_cut pts radius Omega rot Hk HN Hns H ET). Qed.
Lemma euler1_cut dt n u w : rel u w -> rel (Nat.iter n (fun q => euler1 f q dt) u) (Nat.iter n (fun q => euler1 g q dt) w).
Proof. apply: iter_related => u' w' H. exact: (euler1_related rel rel_plus rel_scal f g rel_rhs). Qed.
Lemma tvdrk3_cut dt n u w : rel u w -> rel (Nat.iter n (fun q => tvdrk3 f q dt) u) (Nat.iter n (fun q => tvdrk3 g q dt) w).
Proof. apply: iter_related => u' w' H. exact: (tvdrk3_related rel rel_plus rel_scal f g rel_rhs). Qed.
End Steps.
Lemma cut_state k N ns F : same_state k N ns (fun r v => cut k N (fun c => F c v) r) F.
Proof. by []. Qed.
