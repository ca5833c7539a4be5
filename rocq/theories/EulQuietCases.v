(** An atmosphere at rest over layers that are not level; the statements of C85 put together. *)
From Coq Require Import Reals ZArith Lia Lra Arith.
From Verif Require Import EulModel EulCutSpec EulRestSpec.
From mathcomp Require Import all_ssreflect all_algebra.
From Verif Require Import RField OpModel EulRhs EulSymbols EulQuiet.
Set Implicit Arguments.
Unset Strict Implicit.
Unset Printing Implicit Defensive.
Delimit Scope R_scope with re.
Delimit Scope Z_scope with zz.

Definition case_pts : seq R := [:: (- (1 / 2))%re; (1 / 2)%re].
Definition case_height (l row p : nat) : R := (INR l * 100 + INR row * 30 + INR p)%re.
Definition case_layers : layers :=
  {| z_pt := fun _ l row _ p => case_height l row p; z_i := fun _ l row _ p => case_height l row p; z_j := fun _ l _ b p => case_height l b p; z_k := fun _ row _ b p => case_height b row p;
     s1_pt := fun _ l row _ p => (INR (l + row) + 1)%re; s2_pt := fun _ l _ col p => INR (l + col + p); s1_i := fun _ l row _ p => INR (l + row); s2_i := fun _ l _ b p => INR (l + b + p);
     s1_j := fun _ l _ b p => INR (l + b); s2_j := fun _ l col _ p => INR (l + col + p); s1_k := fun _ row _ b p => INR (b + row); s2_k := fun _ _ col b p => INR (b + col + p);
     dRdeta_pt := fun _ l row _ _ => (500 + INR (l + row))%re |}.
Definition case_state (r : Z) (v l row col p : nat) : R := match v with 0%N => (1 + INR (l + row + p))%re | 4%N => 300%re | _ => 0%re end.
Lemma case_uniq : uniq (extension (case_pts : seq R_fieldType)).
Proof.
  rewrite /extension /case_pts /= !inE !negb_or !andbT.
  by repeat (apply/andP; split); case: Req_EM_T => // H; exfalso; move: H; rewrite /GRing.opp /GRing.one /=; lra.
Qed.
Lemma case_regular : regular_layers 2 3 5 (size case_pts) 6371220%re true case_layers.
Proof.
  move=> r l row col p _ _ _ _ _. rewrite /= /radius0 /case_height. have := pos_INR l. have := pos_INR row. have := pos_INR p. have := pos_INR (l + row). move=> *. split; lra.
Qed.
Lemma case_rest : at_rest 2 3 5 (size case_pts) 300%re case_state.
Proof. move=> r l row col p _ _ _ _ _. rewrite /case_state. have := pos_INR (l + row + p). move=> *. repeat split. lra. Qed.
Lemma case_holds : (0 < size case_pts)%N /\ uniq (extension (case_pts : seq R_fieldType)) /\ regular_layers 2 3 5 (size case_pts) 6371220%re true case_layers /\ at_rest 2 3 5 (size case_pts) 300%re case_state /\
  exists c, numeric_symbols 2 3 5 (size case_pts) case_pts 6371220%re (1 / 5)%re true case_layers c.
Proof.
  split=> //. split; [exact: case_uniq|]. split; [exact: case_regular|]. split; [exact: case_rest|].
  apply: symbols_exist; try exact/ltP; last exact: case_regular. lra.
Qed.
Lemma case_slopes : s1_pt case_layers 3%zz 1%N 2%N 0%N 4%N <> 0%re /\ z_pt case_layers 3%zz 1%N 2%N 0%N 4%N <> z_pt case_layers 3%zz 1%N 0%N 0%N 4%N.
Proof. rewrite /= /case_height /=. split; lra. Qed.

Lemma rest_all k N NZ pts earth deta deep geo chr damp q T : (0 < k)%coq_nat -> (0 < N)%coq_nat -> (0 < NZ)%coq_nat -> (0 < size pts)%N -> uniq (extension (pts : seq R_fieldType)) ->
  deta <> 0%re -> regular_layers k N NZ (size pts) earth deep geo -> (0 < T)%re -> numeric_symbols k N NZ (size pts) pts earth deta deep geo chr -> at_rest k N NZ (size pts) T q ->
  let rhs := euler_rhs k N NZ (size pts) pts earth deta deep false geo chr damp q in
  everywhere k N NZ (size pts) (fun r l row col p =>
    rhs r 1%N l row col p = (- damp r 1%N l row col p)%re /\ rhs r 2%N l row col p = (- damp r 2%N l row col p)%re /\
    rhs r 3%N l row col p = (- gravity_w k N (size pts) pts earth deta deep geo q r l row col p - damp r 3%N l row col p)%re /\ rhs r 4%N l row col p = 0%re).
Proof.
  move=> Hk HN HZ Hn U Hd Hg HT Hc Hq rhs r l i j p Hr Hl Hi Hj Hp. have [H1 [H2 H3]] := rhs_momentum Hk HN HZ Hn U Hd Hg damp HT Hc Hq Hr Hl Hi Hj Hp.
  have H4 := rhs_heat earth deta deep geo Hk HN HZ Hn U chr damp HT Hq Hr Hl Hi Hj Hp. by split; [|split; [|split]].
Qed.
Lemma mass_all k N NZ pts earth deta deep geo chr damp q T rho : (0 < k)%coq_nat -> (0 < N)%coq_nat -> (0 < NZ)%coq_nat -> (0 < size pts)%N -> uniq (extension (pts : seq R_fieldType)) ->
  (0 < T)%re -> at_rest k N NZ (size pts) T q -> one_density k N NZ (size pts) rho q ->
  everywhere k N NZ (size pts) (fun r l row col p => euler_rhs k N NZ (size pts) pts earth deta deep false geo chr damp q r 0%N l row col p = 0%re).
Proof.
  move=> Hk HN HZ Hn U HT Hq H1 r l i j p Hr Hl Hi Hj Hp. have P : (0 < rho)%re by have [P _] := Hq r l i j p Hr Hl Hi Hj Hp; rewrite -(H1 r l i j p Hr Hl Hi Hj Hp).
  exact: (rhs_density earth deta deep geo Hk HN HZ Hn U chr damp HT Hq Hr Hl Hi Hj Hp P H1).
Qed.
Lemma symbols_all k N NZ pts earth deta deep geo : (0 < k)%coq_nat -> (0 < N)%coq_nat -> deta <> 0%re -> regular_layers k N NZ (size pts) earth deep geo ->
  (exists c, numeric_symbols k N NZ (size pts) pts earth deta deep geo c) /\
  (forall c c', numeric_symbols k N NZ (size pts) pts earth deta deep geo c -> numeric_symbols k N NZ (size pts) pts earth deta deep geo c' ->
   everywhere k N NZ (size pts) (fun r l row col p => forall a b, (a < 3)%coq_nat -> (3 <= b)%coq_nat /\ (b <= 8)%coq_nat -> c r l row col p a b = c' r l row col p a b)).
Proof.
  move=> Hk HN Hd Hg. split; [exact: symbols_exist|]. move=> c c' Hc Hc' r l i j p Hr Hl Hi Hj Hp a b Ha Hb. have HZ : (0 < NZ)%coq_nat by lia.
  exact: (symbols_unique Hk HN HZ Hd Hg Hc Hc' Hr Hl Hi Hj Hp Ha Hb).
Qed.
