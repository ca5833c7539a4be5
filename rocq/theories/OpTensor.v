(** Kronecker products act along one axis of an element. *)
From mathcomp Require Import all_ssreflect all_algebra.
From Verif Require Import OpModel OpSpec OpLagrange OpLegendre OpDfr.
Set Implicit Arguments.
Unset Strict Implicit.
Unset Printing Implicit Defensive.
Import GRing.Theory.
Local Open Scope ring_scope.

Section Tensor.
Variable F : fieldType.
Implicit Types (A B M : nat -> nat -> F) (f g v : nat -> F).
Lemma sum_split a b f : \sum_(k < a * b) f k = \sum_(i < a) \sum_(j < b) f (i * b + j)%N.
Proof.
  elim: a f => [|a IH] f; first by rewrite !big_ord0.
  rewrite mulSn big_split_ord [RHS]big_ord_recl /=. congr (_ + _).
  rewrite (IH (fun k => f (b + k)%N)). apply: eq_bigr => i _. apply: eq_bigr => j _. by rewrite /bump /= mulSn addnA.
Qed.
Lemma kronE p q A B i i' j j' : (i' < p)%N -> (j' < q)%N -> kron p q A B (i * p + i') (j * q + j') = A i j * B i' j'.
Proof.
  move=> Hi Hj. rewrite /kron !divnMDl ?(leq_ltn_trans _ Hi) ?(leq_ltn_trans _ Hj) // !divn_small // !addn0 !modnMDl !modn_small //.
Qed.
Lemma kron_row q A v i j j' : (j' < q)%N -> kron 1 q A (as_row v) i (j * q + j') = A i j * v j'.
Proof. move=> H. rewrite -{1}[i]muln1 -{1}[(i * 1)%N]addn0 kronE //. Qed.
Lemma kron_rowl p q v B i j j' : (i < p)%N -> (j' < q)%N -> kron p q (as_row v) B i (j * q + j') = v j * B i j'.
Proof. move=> Hi H. rewrite -{1}[i]add0n -{1}(mul0n p) kronE //. Qed.
Lemma sum_eye n (i : nat) f : (i < n)%N -> \sum_(k < n) f k * eye F i k = f i.
Proof.
  move=> Hi. rewrite (bigD1 (Ordinal Hi)) //= /eye eqxx mulr1 big1 ?addr0 // => k N. have /negbTE Nk : (k != i :> nat) by []. by rewrite eq_sym Nk mulr0.
Qed.
Lemma sum_eye_r n (i : nat) f : (i < n)%N -> \sum_(k < n) f k * eye F k i = f i.
Proof. move=> Hi. rewrite -[RHS](sum_eye f Hi). apply: eq_bigr => k _. by rewrite /eye eq_sym. Qed.
Lemma vstack_lo p A B i j : (i < p)%N -> vstack p A B i j = A i j.
Proof. by rewrite /vstack => ->. Qed.
Lemma vstack_hi p A B i j : vstack p A B (p + i)%N j = B i j.
Proof. by rewrite /vstack ltnNge leq_addr /= addKn. Qed.
Lemma apply_vstack_lo m p A B f i : (i < p)%N -> apply_op m f (tr (vstack p A B)) i = \sum_(k < m) f k * A i k.
Proof. move=> H. apply: eq_bigr => k _. by rewrite /tr vstack_lo. Qed.
Lemma apply_vstack_hi m p A B f i : apply_op m f (tr (vstack p A B)) (p + i)%N = \sum_(k < m) f k * B i k.
Proof. apply: eq_bigr => k _. by rewrite /tr vstack_hi. Qed.
(** the two kinds of one-row products *)
Lemma act_inner a q f v i : (i < a)%N -> \sum_(k < a * q) f k * kron 1 q (@eye F) (as_row v) i k = \sum_(l < q) f (i * q + l)%N * v l.
Proof.
  move=> Hi. rewrite (sum_split a q (fun k => f k * kron 1 q (@eye F) (as_row v) i k)) exchange_big /=. apply: eq_bigr => l _. rewrite -(sum_eye (fun k => f (k * q + l)%N * v l) Hi). apply: eq_bigr => k _. by rewrite kron_row // mulrAC mulrA.
Qed.
Lemma act_outer a q f v i : (i < q)%N -> \sum_(k < a * q) f k * kron q q (as_row v) (@eye F) i k = \sum_(l < a) f (l * q + i)%N * v l.
Proof.
  move=> Hi. rewrite (sum_split a q (fun k => f k * kron q q (as_row v) (@eye F) i k)). apply: eq_bigr => l _. rewrite -(sum_eye (fun k => f (l * q + k)%N * v l) Hi). apply: eq_bigr => k _. by rewrite kron_rowl // mulrA.
Qed.
(** block structure *)
Lemma act_block a p q f B i i' : (i < a)%N -> (i' < p)%N -> \sum_(k < a * q) f k * kron p q (@eye F) B (i * p + i') k = \sum_(l < q) f (i * q + l)%N * B i' l.
Proof.
  move=> Hi Hp. rewrite (sum_split a q (fun k => f k * kron p q (@eye F) B (i * p + i') k)) exchange_big /=. apply: eq_bigr => l _. rewrite -(sum_eye (fun k => f (k * q + l)%N * B i' l) Hi). apply: eq_bigr => k _. by rewrite kronE // mulrAC mulrA.
Qed.
Lemma act_mix a p f A i i' : (i' < p)%N -> \sum_(k < a * p) f k * kron p p A (@eye F) (i * p + i') k = \sum_(l < a) f (l * p + i')%N * A i l.
Proof.
  move=> Hp. rewrite (sum_split a p (fun k => f k * kron p p A (@eye F) (i * p + i') k)). apply: eq_bigr => l _. rewrite -(sum_eye (fun k => f (l * p + k)%N * A i l) Hp). apply: eq_bigr => k _. by rewrite kronE // mulrA.
Qed.
Section Three.
Variables (ns : nat) (neg pos : nat -> F) (D : nat -> nat -> F).
Let N3 := (ns ^ 3)%N.
Let e3 : N3 = (ns ^ 2 * ns)%N. Proof. by rewrite /N3 expnSr. Qed.
Let e3' : N3 = (ns * ns ^ 2)%N. Proof. by rewrite /N3 expnS. Qed.
Let e2 : (ns ^ 2)%N = (ns * ns)%N. Proof. by rewrite expnSr expn1. Qed.
Lemma pos2 i j : (i < ns)%N -> (j < ns)%N -> (i * ns + j < ns ^ 2)%N.
Proof. move=> Hi Hj. rewrite e2. apply: (@leq_trans (i * ns + ns)%N); [by rewrite ltn_add2l|by rewrite addnC -mulSn leq_mul2r Hi orbT]. Qed.
Lemma act_x f v k j : (k < ns)%N -> (j < ns)%N -> \sum_(l < N3) f l * kron 1 ns (@eye F) (as_row v) (k * ns + j) l = \sum_(i < ns) f ((k * ns + j) * ns + i)%N * v i.
Proof. move=> Hk Hj. rewrite e3. apply: act_inner. exact: pos2. Qed.
Lemma act_y f v k i : (k < ns)%N -> (i < ns)%N -> \sum_(l < N3) f l * kron ns (ns * ns) (@eye F) (kron ns ns (as_row v) (@eye F)) (k * ns + i) l = \sum_(j < ns) f ((k * ns + j) * ns + i)%N * v j.
Proof.
  move=> Hk Hi. rewrite e3' e2 act_block //. rewrite (act_outer ns (fun l => f (k * (ns * ns) + l)%N)) //. apply: eq_bigr => j _. congr (f _ * _). by rewrite mulnA mulnDl addnA.
Qed.
Lemma act_z f v j i : (j < ns)%N -> (i < ns)%N -> \sum_(l < N3) f l * kron (ns ^ 2) (ns ^ 2) (as_row v) (@eye F) (j * ns + i) l = \sum_(k < ns) f ((k * ns + j) * ns + i)%N * v k.
Proof.
  move=> Hj Hi. rewrite e3' act_outer; last exact: pos2. apply: eq_bigr => k _. congr (f _ * _). by rewrite e2 mulnA mulnDl addnA.
Qed.
Lemma extrap_x_3d_ok f k j : (k < ns)%N -> (j < ns)%N ->
  apply_op N3 f (extrap_x_3d ns neg pos) (k * ns + j) = \sum_(i < ns) f ((k * ns + j) * ns + i)%N * neg i /\
  apply_op N3 f (extrap_x_3d ns neg pos) (ns ^ 2 + (k * ns + j)) = \sum_(i < ns) f ((k * ns + j) * ns + i)%N * pos i.
Proof. move=> Hk Hj. split; [rewrite apply_vstack_lo ?pos2 //|rewrite apply_vstack_hi]; exact: act_x. Qed.
Lemma extrap_y_3d_ok f k i : (k < ns)%N -> (i < ns)%N ->
  apply_op N3 f (extrap_y_3d ns neg pos) (k * ns + i) = \sum_(j < ns) f ((k * ns + j) * ns + i)%N * neg j /\
  apply_op N3 f (extrap_y_3d ns neg pos) (ns ^ 2 + (k * ns + i)) = \sum_(j < ns) f ((k * ns + j) * ns + i)%N * pos j.
Proof. move=> Hk Hj. split; [rewrite apply_vstack_lo ?pos2 //|rewrite apply_vstack_hi]; exact: act_y. Qed.
Lemma extrap_z_3d_ok f j i : (j < ns)%N -> (i < ns)%N ->
  apply_op N3 f (extrap_z_3d ns neg pos) (j * ns + i) = \sum_(k < ns) f ((k * ns + j) * ns + i)%N * neg k /\
  apply_op N3 f (extrap_z_3d ns neg pos) (ns ^ 2 + (j * ns + i)) = \sum_(k < ns) f ((k * ns + j) * ns + i)%N * pos k.
Proof. move=> Hk Hj. split; [rewrite apply_vstack_lo ?pos2 //|rewrite apply_vstack_hi]; exact: act_z. Qed.
Lemma derivative_x_3d_ok f k j i : (k < ns)%N -> (j < ns)%N -> (i < ns)%N ->
  apply_op N3 f (derivative_x_3d ns D) ((k * ns + j) * ns + i) = \sum_(l < ns) f ((k * ns + j) * ns + l)%N * D i l.
Proof. move=> Hk Hj Hi. rewrite /apply_op /derivative_x_3d /tr e3 act_block //. exact: pos2. Qed.
Lemma derivative_y_3d_ok f k j i : (k < ns)%N -> (j < ns)%N -> (i < ns)%N ->
  apply_op N3 f (derivative_y_3d ns D) ((k * ns + j) * ns + i) = \sum_(l < ns) f ((k * ns + l) * ns + i)%N * D j l.
Proof.
  move=> Hk Hj Hi. rewrite /apply_op /derivative_y_3d /tr e3' e2. have -> : ((k * ns + j) * ns + i = k * (ns * ns) + (j * ns + i))%N by rewrite mulnDl mulnA addnA.
  rewrite act_block //; last by rewrite -e2 pos2. rewrite (act_mix ns (fun l => f (k * (ns * ns) + l)%N)) //. apply: eq_bigr => l _. congr (f _ * _). by rewrite mulnA mulnDl addnA.
Qed.
Lemma derivative_z_3d_ok f k j i : (k < ns)%N -> (j < ns)%N -> (i < ns)%N ->
  apply_op N3 f (derivative_z_3d ns D) ((k * ns + j) * ns + i) = \sum_(l < ns) f ((l * ns + j) * ns + i)%N * D k l.
Proof.
  move=> Hk Hj Hi. rewrite /apply_op /derivative_z_3d /tr e3'. have E l : ((l * ns + j) * ns + i = l * ns ^ 2 + (j * ns + i))%N by rewrite mulnDl e2 mulnA addnA.
  rewrite E act_mix; last exact: pos2. apply: eq_bigr => l _. by rewrite E.
Qed.
(** corrections: two values per line of points *)
Lemma apply_vstack2 p A B g i : apply_op (p + p) g (vstack p A B) i = \sum_(k < p) g k * A k i + \sum_(k < p) g (p + k)%N * B k i.
Proof. rewrite /apply_op big_split_ord /=. congr (_ + _); apply: eq_bigr => k _; [by rewrite vstack_lo|by rewrite vstack_hi]. Qed.
Lemma col_inner a q g v i l : (i < a)%N -> (l < q)%N -> \sum_(k < a) g k * kron 1 q (@eye F) (as_row v) k (i * q + l) = g i * v l.
Proof. move=> Hi Hl. rewrite -(sum_eye_r (fun k => g k * v l) Hi). apply: eq_bigr => k _. by rewrite kron_row // mulrA mulrAC. Qed.
Lemma col_outer q g v i l : (i < q)%N -> \sum_(k < q) g k * kron q q (as_row v) (@eye F) k (l * q + i) = g i * v l.
Proof. move=> Hi. rewrite -(sum_eye_r (fun k => g k * v l) Hi). apply: eq_bigr => k _. by rewrite kron_rowl // mulrA. Qed.
Lemma correction_WE_3d_ok g k j i : (k < ns)%N -> (j < ns)%N -> (i < ns)%N ->
  apply_op (ns ^ 2 + ns ^ 2) g (correction_WE_3d ns neg pos) ((k * ns + j) * ns + i) = g (k * ns + j)%N * neg i + g (ns ^ 2 + (k * ns + j))%N * pos i.
Proof.
  move=> Hk Hj Hi. rewrite apply_vstack2 col_inner ?pos2 //. congr (_ + _). by rewrite (col_inner (fun k => g (ns ^ 2 + k)%N)) ?pos2.
Qed.
Lemma correction_SN_3d_ok g k j i : (k < ns)%N -> (j < ns)%N -> (i < ns)%N ->
  apply_op (ns ^ 2 + ns ^ 2) g (correction_SN_3d ns neg pos) ((k * ns + j) * ns + i) = g (k * ns + i)%N * neg j + g (ns ^ 2 + (k * ns + i))%N * pos j.
Proof.
  move=> Hk Hj Hi. rewrite apply_vstack2. have -> : ((k * ns + j) * ns + i = k * (ns * ns) + (j * ns + i))%N by rewrite mulnDl mulnA addnA.
  have G (h v : nat -> F) : \sum_(l < ns ^ 2) h l * kron ns (ns * ns) (@eye F) (kron ns ns (as_row v) (@eye F)) l (k * (ns * ns) + (j * ns + i)) = h (k * ns + i)%N * v j.
    rewrite e2 (sum_split ns ns (fun l => h l * kron ns (ns * ns) (@eye F) (kron ns ns (as_row v) (@eye F)) l (k * (ns * ns) + (j * ns + i)))) -(sum_eye_r (fun a => h (a * ns + i)%N * v j) Hk). apply: eq_bigr => a _.
    rewrite -(col_outer (fun b => h (a * ns + b)%N) v j Hi) mulr_suml. apply: eq_bigr => b _. rewrite kronE //; last by rewrite -e2 pos2. by rewrite mulrA mulrAC.
  by rewrite G (G (fun l => g (ns ^ 2 + l)%N)).
Qed.
Lemma correction_DU_3d_ok g k j i : (k < ns)%N -> (j < ns)%N -> (i < ns)%N ->
  apply_op (ns ^ 2 + ns ^ 2) g (correction_DU_3d ns neg pos) ((k * ns + j) * ns + i) = g (j * ns + i)%N * neg k + g (ns ^ 2 + (j * ns + i))%N * pos k.
Proof.
  move=> Hk Hj Hi. rewrite apply_vstack2. have -> : ((k * ns + j) * ns + i = k * ns ^ 2 + (j * ns + i))%N by rewrite mulnDl e2 mulnA addnA.
  rewrite col_outer ?pos2 //. congr (_ + _). by rewrite (col_outer (fun k => g (ns ^ 2 + k)%N)) ?pos2.
Qed.
(** highfilter_k works along the vertical *)
Lemma highfilter_k_ok f k j i : (k < ns)%N -> (j < ns)%N -> (i < ns)%N ->
  apply_op N3 f (highfilter_k ns D) ((k * ns + j) * ns + i) = \sum_(l < ns) f ((l * ns + j) * ns + i)%N * D k l.
Proof.
  move=> Hk Hj Hi. rewrite -derivative_z_3d_ok //. apply: eq_bigr => l _. congr (_ * _). rewrite /highfilter_k /derivative_z_3d /kron /tr /eye. by rewrite eq_sym.
Qed.
(** two dimensions *)
Lemma extrap_x_2d_ok f j : (j < ns)%N ->
  apply_op (ns * ns) f (extrap_x_2d ns neg pos) j = \sum_(i < ns) f (j * ns + i)%N * neg i /\
  apply_op (ns * ns) f (extrap_x_2d ns neg pos) (ns + j) = \sum_(i < ns) f (j * ns + i)%N * pos i.
Proof. move=> Hj. split; [rewrite apply_vstack_lo //|rewrite apply_vstack_hi]; exact: act_inner. Qed.
Lemma extrap_y_2d_ok f i : (i < ns)%N ->
  apply_op (ns * ns) f (extrap_y_2d ns neg pos) i = \sum_(j < ns) f (j * ns + i)%N * neg j /\
  apply_op (ns * ns) f (extrap_y_2d ns neg pos) (ns + i) = \sum_(j < ns) f (j * ns + i)%N * pos j.
Proof. move=> Hj. split; [rewrite apply_vstack_lo //|rewrite apply_vstack_hi]; exact: act_outer. Qed.
Lemma derivative_x_2d_ok f j i : (j < ns)%N -> (i < ns)%N -> apply_op (ns * ns) f (derivative_x_2d ns D) (j * ns + i) = \sum_(l < ns) f (j * ns + l)%N * D i l.
Proof. move=> Hj Hi. by rewrite /apply_op /derivative_x_2d /tr act_block. Qed.
Lemma derivative_y_2d_ok f j i : (j < ns)%N -> (i < ns)%N -> apply_op (ns * ns) f (derivative_y_2d ns D) (j * ns + i) = \sum_(l < ns) f (l * ns + i)%N * D j l.
Proof. move=> Hj Hi. by rewrite /apply_op /derivative_y_2d /tr act_mix. Qed.
Lemma correction_WE_2d_ok g j i : (j < ns)%N -> (i < ns)%N -> apply_op (ns + ns) g (correction_WE_2d ns neg pos) (j * ns + i) = g j * neg i + g (ns + j)%N * pos i.
Proof. move=> Hj Hi. by rewrite apply_vstack2 col_inner // (col_inner (fun k => g (ns + k)%N)). Qed.
Lemma correction_SN_2d_ok g j i : (j < ns)%N -> (i < ns)%N -> apply_op (ns + ns) g (correction_SN_2d ns neg pos) (j * ns + i) = g i * neg j + g (ns + i)%N * pos j.
Proof. move=> Hj Hi. by rewrite apply_vstack2 col_outer // (col_outer (fun k => g (ns + k)%N)). Qed.
(** the three-dimensional filter is the filter along each axis in turn *)
Lemma apply_mmul m f A B j : apply_op m f (mmul m A B) j = apply_op m (apply_op m f A) B j.
Proof.
  rewrite /apply_op /mmul. under eq_bigr do rewrite mulr_sumr. rewrite exchange_big. apply: eq_bigr => k _. rewrite mulr_suml. apply: eq_bigr => l _. by rewrite mulrA.
Qed.
Lemma expfilter_new_ok f k j i : (k < ns)%N -> (j < ns)%N -> (i < ns)%N ->
  apply_op N3 f (expfilter_new ns D) ((k * ns + j) * ns + i) =
  \sum_(k' < ns) \sum_(j' < ns) \sum_(i' < ns) f ((k' * ns + j') * ns + i')%N * (D k k' * D j j' * D i i').
Proof.
  move=> Hk Hj Hi. rewrite /expfilter_new apply_mmul. apply: etrans (derivative_z_3d_ok _ Hk Hj Hi) _.
  apply: eq_bigr => k' _. rewrite apply_mmul. have -> := derivative_y_3d_ok (apply_op N3 f (derivative_x_3d ns D)) (ltn_ord k') Hj Hi.
  rewrite mulr_suml. apply: eq_bigr => j' _. rewrite derivative_x_3d_ok // !mulr_suml. apply: eq_bigr => i' _.
  by rewrite -!mulrA; congr (_ * _); rewrite mulrC mulrCA -mulrA mulrCA.
Qed.
End Three.
End Tensor.
