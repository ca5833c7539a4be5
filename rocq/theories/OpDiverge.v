(** The discrete divergence theorem of an element. *)
From mathcomp Require Import all_ssreflect all_algebra.
From Verif Require Import OpModel OpSpec OpLagrange OpDfr OpTensor RhsSpec.
Set Implicit Arguments.
Unset Strict Implicit.
Unset Printing Implicit Defensive.
Import GRing.Theory.
Local Open Scope ring_scope.

Section Line.
Variable F : fieldType.
Variables (pts ws : seq F).
Hypothesis U : uniq (extension pts).
Hypothesis I : integrates pts ws.
Let n := size pts.
(** derivative along a line, corrected by the fluxes at its ends *)
Lemma line_divergence (f : nat -> F) (a b : F) :
  \sum_(i < n) ws`_i * (\sum_(j < n) f j * diff_solpt pts i j + (a * correction_neg pts i + b * correction_pos pts i)) = b - a.
Proof.
  pose c k := if k == 0%N then a else if k == n.+1 then b else f k.-1.
  pose p := \sum_(k < n.+2) c k *: lagrange_poly n.+2 k (extension pts).
  have S : size (extension pts) = n.+2 by exact: size_extension.
  have Sp : (size p <= n.+2)%N.
  { rewrite /p. apply: (leq_trans (size_sum _ _ _)). apply/bigmax_leqP => k _. apply: (leq_trans (size_scale_leq _ _)).
    have H := @lagrange_size F (extension pts) k. rewrite S in H. apply: H. exact: ltn_ord. }
  have P k : (k < n.+2)%N -> p.[(extension pts)`_k] = c k.
  { move=> Hk. rewrite /p horner_sum (bigD1 (Ordinal Hk)) //= big1 => [|j Hj].
    - rewrite hornerZ. have H := @lagrange_at F (extension pts) k k U. rewrite S in H. by rewrite H // eqxx mulr1 addr0.
    - rewrite hornerZ. have H := @lagrange_at F (extension pts) j k U. rewrite S in H. rewrite (H (ltn_ord j) Hk).
      have -> : ((j : nat) == k) = false by apply/negbTE. by rewrite mulr0. }
  move: p Sp P => p Sp P.
  have P0 : p.[-1] = a by exact: (P 0%N isT).
  have P1 : p.[1] = b by rewrite -(ext_last pts) (P n.+1) // /c eqxx.
  have Pj j : (j < n)%N -> p.[pts`_j] = f j.
  { move=> Hj. have Hk : (j.+1 < n.+2)%N by rewrite !ltnS; exact: ltnW. rewrite -(ext_in Hj) (P _ Hk) /c /=. by rewrite eqSS (ltn_eqF Hj). }
  have E : b - a = p.[1] - p.[-1] by rewrite P0 P1.
  rewrite E -(I Sp). apply: eq_bigr => i _. congr (_ * _).
  rewrite -(dfr_derivative U Sp (ltn_ord i)) P0 P1 -addrA. congr (_ + (_ + _)).
  - apply: eq_bigr => j _. by rewrite Pj // mulrC.
  - exact: mulrC.
  - exact: mulrC.
Qed.
End Line.
Section Element.
Variable F : fieldType.
Variables (pts ws : seq F).
Hypothesis U : uniq (extension pts).
Hypothesis I : integrates pts ws.
Let ns := size pts.
Let D := diff_solpt pts.
Let cn := correction_neg pts.
Let cp := correction_pos pts.
(** two dimensions *)
Lemma plane_x (f g : nat -> F) :
  \sum_(j < ns) \sum_(i < ns) ws`_j * ws`_i * (apply_op (ns * ns) f (derivative_x_2d ns D) (j * ns + i) + apply_op (ns + ns) g (correction_WE_2d ns cn cp) (j * ns + i)) = \sum_(j < ns) ws`_j * (g (ns + j)%N - g j).
Proof.
  apply: eq_bigr => j _. under eq_bigr do rewrite -mulrA. rewrite -mulr_sumr. congr (_ * _).
  rewrite -(line_divergence U I (fun l => f (j * ns + l)%N) (g j) (g (ns + j)%N)). apply: eq_bigr => i _.
  by rewrite derivative_x_2d_ok // correction_WE_2d_ok.
Qed.
Lemma plane_y (f g : nat -> F) :
  \sum_(j < ns) \sum_(i < ns) ws`_j * ws`_i * (apply_op (ns * ns) f (derivative_y_2d ns D) (j * ns + i) + apply_op (ns + ns) g (correction_SN_2d ns cn cp) (j * ns + i)) = \sum_(i < ns) ws`_i * (g (ns + i)%N - g i).
Proof.
  rewrite exchange_big /=. apply: eq_bigr => i _. under eq_bigr do rewrite [_ * ws`_i]mulrC -mulrA. rewrite -mulr_sumr. congr (_ * _).
  rewrite -(line_divergence U I (fun l => f (l * ns + i)%N) (g i) (g (ns + i)%N)). apply: eq_bigr => j _.
  by rewrite derivative_y_2d_ok // correction_SN_2d_ok.
Qed.
(** three dimensions *)
Lemma space_x (f g : nat -> F) :
  \sum_(k < ns) \sum_(j < ns) \sum_(i < ns) ws`_k * ws`_j * ws`_i * (apply_op (ns ^ 3) f (derivative_x_3d ns D) ((k * ns + j) * ns + i) + apply_op (ns ^ 2 + ns ^ 2) g (correction_WE_3d ns cn cp) ((k * ns + j) * ns + i))
  = \sum_(k < ns) \sum_(j < ns) ws`_k * ws`_j * (g (ns ^ 2 + (k * ns + j))%N - g (k * ns + j)%N).
Proof.
  apply: eq_bigr => k _. apply: eq_bigr => j _. under eq_bigr do rewrite -mulrA. rewrite -mulr_sumr. congr (_ * _).
  rewrite -(line_divergence U I (fun l => f ((k * ns + j) * ns + l)%N) (g (k * ns + j)%N) (g (ns ^ 2 + (k * ns + j))%N)). apply: eq_bigr => i _.
  by rewrite derivative_x_3d_ok // correction_WE_3d_ok.
Qed.
Lemma space_y (f g : nat -> F) :
  \sum_(k < ns) \sum_(j < ns) \sum_(i < ns) ws`_k * ws`_j * ws`_i * (apply_op (ns ^ 3) f (derivative_y_3d ns D) ((k * ns + j) * ns + i) + apply_op (ns ^ 2 + ns ^ 2) g (correction_SN_3d ns cn cp) ((k * ns + j) * ns + i))
  = \sum_(k < ns) \sum_(i < ns) ws`_k * ws`_i * (g (ns ^ 2 + (k * ns + i))%N - g (k * ns + i)%N).
Proof.
  apply: eq_bigr => k _. rewrite exchange_big /=. apply: eq_bigr => i _. under eq_bigr => j _ do rewrite -(mulrA (ws`_k)) (mulrC (ws`_j)) (mulrA (ws`_k)) -mulrA. rewrite -mulr_sumr. congr (_ * _).
  rewrite -(line_divergence U I (fun l => f ((k * ns + l) * ns + i)%N) (g (k * ns + i)%N) (g (ns ^ 2 + (k * ns + i))%N)). apply: eq_bigr => j _.
  by rewrite derivative_y_3d_ok // correction_SN_3d_ok.
Qed.
Lemma space_z (f g : nat -> F) :
  \sum_(k < ns) \sum_(j < ns) \sum_(i < ns) ws`_k * ws`_j * ws`_i * (apply_op (ns ^ 3) f (derivative_z_3d ns D) ((k * ns + j) * ns + i) + apply_op (ns ^ 2 + ns ^ 2) g (correction_DU_3d ns cn cp) ((k * ns + j) * ns + i))
  = \sum_(j < ns) \sum_(i < ns) ws`_j * ws`_i * (g (ns ^ 2 + (j * ns + i))%N - g (j * ns + i)%N).
Proof.
  rewrite exchange_big /=. apply: eq_bigr => j _. rewrite exchange_big /=. apply: eq_bigr => i _. under eq_bigr => k _ do rewrite -(mulrA (ws`_k)) (mulrC (ws`_k)) -mulrA. rewrite -mulr_sumr. congr (_ * _).
  rewrite -(line_divergence U I (fun l => f ((l * ns + j) * ns + i)%N) (g (j * ns + i)%N) (g (ns ^ 2 + (j * ns + i))%N)). apply: eq_bigr => k _.
  by rewrite derivative_z_3d_ok // correction_DU_3d_ok.
Qed.
End Element.
