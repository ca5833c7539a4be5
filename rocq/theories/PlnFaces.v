(** The fluxes at the faces of a line of elements: one value per interface, the pressure on the walls. *)
From Coq Require Import Reals Lra.
From Verif Require Import FluxModel.
From mathcomp Require Import all_ssreflect all_algebra.
From Verif Require Import RField OpModel RhsModel SwSplitModel PlnModel PlnSpec.
Set Implicit Arguments.
Unset Strict Implicit.
Unset Printing Implicit Defensive.
Import GRing.Theory.
Delimit Scope R_scope with re.
Local Open Scope ring_scope.

Section Walls.
Variables (n d : nat) (pres : nat -> nat -> R) (f : faces).
Lemma walls_low z v : z || (v == d) -> walls n d pres z f v 0%N 0%N = if v == d then pres 0%N 0%N else 0%re.
Proof. move=> H. rewrite /walls /assign /at_var /at_face !eqxx ?andbT ?andbF. by case: z H; case: (v == d); case: (0%N == n.-1). Qed.
Lemma walls_high z v : z || (v == d) -> walls n d pres z f v n.-1 1%N = if v == d then pres n.-1 1%N else 0%re.
Proof. move=> H. rewrite /walls /assign /at_var /at_face !eqxx ?andbT ?andbF. case: z H; case: (v == d) => /=; by rewrite ?eqxx. Qed.
Lemma walls_in z v e s : ~~ ((e == 0%N) && (s == 0%N)) -> ~~ ((e == n.-1) && (s == 1%N)) -> walls n d pres z f v e s = f v e s.
Proof. move=> /negbTE H0 /negbTE H1. case: z; by rewrite /walls /assign /at_var /at_face -?andbA H0 H1 ?andbF ?H0 ?H1 ?andbF. Qed.
End Walls.

Section Implicit.
Variables (n ns d : nat) (pts : seq R) (q : nat -> nat -> R).
Let var := face_var ns pts q.
Let pres := face_pres ns pts q.
Hypothesis Hd : (0 < d)%N.
(** the flux through interface i, between the elements i - 1 and i *)
Definition imp_itf (i v : nat) : R := imp_step ns d pts q i (fun _ _ _ => R0) v i 0%N.
Let step i f := imp_step ns d pts q i f.
Let start := walls n d pres true (fun _ _ _ => R0).
Lemma imp_step_at i f v : (0 < i)%N -> (forall v, f v i 0%N = R0) -> step i f v i 0%N = imp_itf i v /\ step i f v i.-1 1%N = imp_itf i v.
Proof.
  move=> Hi Hf. rewrite /step /imp_itf /imp_step. cbv zeta. rewrite /assign /at_var /at_face !eqxx ?andbT ?andbF /= !Hf. by split; case: (v == d); case: (v == 0%N).
Qed.
Lemma imp_step_out i f v e s : ~~ ((e == i) && (s == 0%N)) -> ~~ ((e == i.-1) && (s == 1%N)) -> step i f v e s = f v e s.
Proof. move=> /negbTE H0 /negbTE H1. rewrite /step /imp_step. cbv zeta. by rewrite /assign /at_var /at_face -!andbA H0 H1 !andbF. Qed.
Lemma imp_loop m : (m < n)%N -> forall v e s, for_loop m (fun i => step i.+1) start v e s =
  if (s == 0%N) && (0 < e <= m)%N then imp_itf e v else if (s == 1%N) && (e < m)%N then imp_itf e.+1 v else start v e s.
Proof.
  elim: m => [|m IH] Hm v e s.
  { case: e => [|e]; by rewrite /= ?ltn0 ?andbF. }
  have F w : for_loop m (fun i => step i.+1) start w m.+1 0%N = R0.
  { rewrite IH; last exact: ltnW. rewrite ltnn !andbF /=. by rewrite /start walls_in // andbF. }
  have [A B] := @imp_step_at m.+1 (for_loop m (fun i => step i.+1) start) v isT F.
  change (for_loop m.+1 (fun i => step i.+1) start) with (step m.+1 (for_loop m (fun i => step i.+1) start)).
  case E0 : ((e == m.+1) && (s == 0%N)). { case/andP: E0 => /eqP -> /eqP ->. by rewrite A !eqxx leqnn. }
  case E1 : ((e == m) && (s == 1%N)). { case/andP: E1 => /eqP -> /eqP ->. by rewrite B !eqxx /= leqnn. }
  rewrite imp_step_out ?E0 ?E1 //. rewrite IH; last exact: ltnW.
  move: E0 E1. case: (s =P 0%N) => [->|_] /=; [|case: (s =P 1%N) => [->|_] //=]; rewrite ?andbT => E0 E1.
  - by rewrite [(e <= m.+1)%N]leq_eqVlt E0 ltnS.
  - by rewrite ltnS [(e <= m)%N in RHS]leq_eqVlt E1.
Qed.
Lemma imp_between v e : (e.+1 < n)%N -> imp_faces n ns d pts q v e 1%N = imp_itf e.+1 v /\ imp_faces n ns d pts q v e.+1 0%N = imp_itf e.+1 v.
Proof.
  move=> He. have Hn : (n.-1 < n)%N by rewrite ltn_predL; exact: leq_ltn_trans He. have E : (e < n.-1)%N by rewrite -ltnS prednK //; exact: leq_ltn_trans He.
  rewrite /imp_faces. split; rewrite (imp_loop Hn) /= ?E //.
Qed.
Lemma imp_low v : (0 < n)%N -> imp_faces n ns d pts q v 0%N 0%N = if v == d then pres 0%N 0%N else 0%re.
Proof. move=> Hn. have H : (n.-1 < n)%N by rewrite ltn_predL. by rewrite /imp_faces (imp_loop H) /= /start walls_low. Qed.
Lemma imp_high v : (0 < n)%N -> imp_faces n ns d pts q v n.-1 1%N = if v == d then pres n.-1 1%N else 0%re.
Proof. move=> Hn. have H : (n.-1 < n)%N by rewrite ltn_predL. by rewrite /imp_faces (imp_loop H) /= ltnn /start walls_high. Qed.
End Implicit.

Section Convective.
Variables (n ns d : nat) (pts : seq R) (q : nat -> nat -> R) (per : bool) (old : faces).
Let var := face_var ns pts q.
Let pres := face_pres ns pts q.
Definition conv_itf (i v : nat) : R := conv_step n ns d pts q per i (fun _ _ _ => R0) v i 0%N.
Let step i f := conv_step n ns d pts q per i f.
Let start := walls n d pres (~~ per) old.
Let left i := if per && (i.-1 == 0%N) then n.-1 else i.-1.
Lemma conv_step_at i f v : step i f v i 0%N = conv_itf i v /\ step i f v (left i) 1%N = conv_itf i v.
Proof. rewrite /step /conv_itf /conv_step -/(left i). cbv zeta. rewrite /assign /at_var /at_face !eqxx ?andbT ?andbF /=. by split; case: (v == d); rewrite ?eqxx. Qed.
Lemma conv_step_out i f v e s : ~~ ((e == i) && (s == 0%N)) -> ~~ ((e == left i) && (s == 1%N)) -> step i f v e s = f v e s.
Proof. move=> /negbTE H0 /negbTE H1. rewrite /step /conv_step -/(left i). cbv zeta. by rewrite /assign /at_var /at_face -!andbA H0 H1 !andbF. Qed.
End Convective.

Section Closed.
Variables (n ns d : nat) (pts : seq R) (q : nat -> nat -> R) (old : faces).
Let pres := face_pres ns pts q.
Let itf := conv_itf n ns d pts q false.
Let start := walls n d pres true old.
Let step i f := conv_step n ns d pts q false i f.
Lemma conv_loop m : (m < n)%N -> forall v e s, for_loop m (fun i => step i.+1) start v e s =
  if (s == 0%N) && (0 < e <= m)%N then itf e v else if (s == 1%N) && (e < m)%N then itf e.+1 v else start v e s.
Proof.
  elim: m => [|m IH] Hm v e s.
  { case: e => [|e]; by rewrite /= ?ltn0 ?andbF. }
  have [A B] := @conv_step_at n ns d pts q false m.+1 (for_loop m (fun i => step i.+1) start) v. rewrite /= in B.
  change (for_loop m.+1 (fun i => step i.+1) start) with (step m.+1 (for_loop m (fun i => step i.+1) start)).
  case E0 : ((e == m.+1) && (s == 0%N)). { case/andP: E0 => /eqP -> /eqP ->. by rewrite /step A !eqxx leqnn. }
  case E1 : ((e == m) && (s == 1%N)). { case/andP: E1 => /eqP -> /eqP ->. by rewrite /step B !eqxx /= leqnn. }
  rewrite /step conv_step_out ?E0 ?E1 //. rewrite -/step IH; last exact: ltnW.
  move: E0 E1. case: (s =P 0%N) => [->|_] /=; [|case: (s =P 1%N) => [->|_] //=]; rewrite ?andbT => E0 E1.
  - by rewrite [(e <= m.+1)%N]leq_eqVlt E0 ltnS.
  - by rewrite ltnS [(e <= m)%N in RHS]leq_eqVlt E1.
Qed.
Lemma conv_between v e : (e.+1 < n)%N -> conv_faces n ns d pts q false old v e 1%N = itf e.+1 v /\ conv_faces n ns d pts q false old v e.+1 0%N = itf e.+1 v.
Proof.
  move=> He. have Hn : (n.-1 < n)%N by rewrite ltn_predL; exact: leq_ltn_trans He. have E : (e < n.-1)%N by rewrite -ltnS prednK //; exact: leq_ltn_trans He.
  rewrite /conv_faces. split; rewrite (conv_loop Hn) /= ?E //.
Qed.
Lemma conv_low v : (0 < n)%N -> conv_faces n ns d pts q false old v 0%N 0%N = if v == d then pres 0%N 0%N else 0%re.
Proof. move=> Hn. have H : (n.-1 < n)%N by rewrite ltn_predL. by rewrite /conv_faces (conv_loop H) /= /start walls_low. Qed.
Lemma conv_high v : (0 < n)%N -> conv_faces n ns d pts q false old v n.-1 1%N = if v == d then pres n.-1 1%N else 0%re.
Proof. move=> Hn. have H : (n.-1 < n)%N by rewrite ltn_predL. by rewrite /conv_faces (conv_loop H) /= ltnn /start walls_high. Qed.
End Closed.

Section Periodic.
Variables (n ns d : nat) (pts : seq R) (q : nat -> nat -> R) (old : faces).
Let pres := face_pres ns pts q.
Let itf := conv_itf n ns d pts q true.
Let start := walls n d pres false old.
Let step i f := conv_step n ns d pts q true i f.
Lemma per_loop m : (m < n)%N -> (0 < m)%N -> forall v e s, (0 < e < n)%N -> for_loop m (fun i => step i.+1) start v e s =
  if (s == 0%N) && (e <= m)%N then itf e v else if (s == 1%N) && (e < m)%N then itf e.+1 v else if (s == 1%N) && (e == n.-1) then itf 1 v else start v e s.
Proof.
  elim: m => [|m IH] // Hm _ v e s /andP [He0 He].
  have [A B] := @conv_step_at n ns d pts q true m.+1 (for_loop m (fun i => step i.+1) start) v. rewrite /= in B.
  change (for_loop m.+1 (fun i => step i.+1) start) with (step m.+1 (for_loop m (fun i => step i.+1) start)).
  have En : (e <= n.-1)%N by rewrite -ltnS prednK //; exact: leq_ltn_trans He.
  case E0 : ((e == m.+1) && (s == 0%N)). { case/andP: E0 => /eqP -> /eqP ->. by rewrite /step A !eqxx leqnn. }
  case E1 : ((e == (if m == 0%N then n.-1 else m)) && (s == 1%N)).
  { case/andP: E1 => /eqP -> /eqP ->. rewrite /step B. case: (posnP m) => [->|H] /=. - have -> : (n.-1 < 1)%N = false by apply/negbTE; rewrite -leqNgt; exact: leq_trans He0 En. by rewrite eqxx.
    - by rewrite leqnn. }
  rewrite /step conv_step_out ?E0 ?E1 // -/step.
  case: (posnP m) => H.
  { move: E0 E1. rewrite H /=. case: (s =P 0%N) => [->|_] /=; [|case: (s =P 1%N) => [->|_] //=]; rewrite ?andbT => E0 E1.
    - by rewrite [(e <= 1)%N]leq_eqVlt E0 ltnS leqn0 -[e == 0%N]negbK -lt0n He0.
    - by rewrite ltnS leqn0 -[e == 0%N]negbK -lt0n He0 /= E1. }
  rewrite IH ?He0 ?He //; last exact: ltnW.
  have M0 : (m == 0%N) = false by apply/negbTE; rewrite -lt0n. rewrite M0 in E1.
  move: E0 E1. case: (s =P 0%N) => [->|_] /=; [|case: (s =P 1%N) => [->|_] //=]; rewrite ?andbT => E0 E1.
  - by rewrite [(e <= m.+1)%N]leq_eqVlt E0 ltnS.
  - by rewrite ltnS [(e <= m)%N in RHS]leq_eqVlt E1.
Qed.
Hypothesis Hn : (1 < n)%N.
Let N1 : (n.-1 < n)%N. Proof. by rewrite ltn_predL (ltnW Hn). Qed.
Let N0 : (0 < n.-1)%N. Proof. by rewrite -ltnS prednK // (ltnW Hn). Qed.
(** elements 1, ..., n - 1 form a ring *)
Lemma per_between v e : (0 < e)%N -> (e.+1 < n)%N -> conv_faces n ns d pts q true old v e 1%N = conv_faces n ns d pts q true old v e.+1 0%N.
Proof.
  move=> He0 He. have E : (e < n.-1)%N by rewrite -ltnS prednK // (ltnW Hn).
  rewrite /conv_faces /assign. have -> : (e == 0%N) = false by case: e He0 {He E}. rewrite (per_loop N1 N0) /= ?He0 ?(ltnW He) // (per_loop N1 N0) /= ?He //. by rewrite ?E.
Qed.
Lemma per_ring v : conv_faces n ns d pts q true old v n.-1 1%N = conv_faces n ns d pts q true old v 1%N 0%N.
Proof.
  rewrite /conv_faces /assign. have -> : (n.-1 == 0%N) = false by apply/negbTE; rewrite -lt0n. rewrite (per_loop N1 N0) /= ?N0 ?N1 // (per_loop N1 N0) //= ltnn eqxx /=. by rewrite N0.
Qed.
(** element 0 has the fluxes of the last one *)
Lemma per_copy v s : conv_faces n ns d pts q true old v 0%N s = conv_faces n ns d pts q true old v n.-1 s.
Proof. rewrite /conv_faces /assign /=. by case: ifP => // /eqP E; move: N0; rewrite E. Qed.
Lemma per_itf v e : (0 < e < n)%N -> conv_faces n ns d pts q true old v e 0%N = itf e v.
Proof.
  move=> /andP [He0 He]. rewrite /conv_faces /assign. have -> : (e == 0%N) = false by case: e He0 {He}. rewrite (per_loop N1 N0) ?He0 ?He //=. by have -> : (e <= n.-1)%N by rewrite -ltnS prednK // (ltnW Hn).
Qed.
End Periodic.
