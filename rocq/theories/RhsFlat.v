(** Addresses of arrays with three indices. *)
From Coq Require Import Arith Lia.
Lemma address_parts n v e np p : e < n -> p < np -> let a := v * (n * np) + (e * np + p) in a / (n * np) = v /\ (a mod (n * np)) / np = e /\ a mod np = p.
Proof.
  intros He Hp a. assert (Hb : e * np + p < n * np) by (pose proof (Nat.mul_le_mono_r (S e) n np He); simpl in *; lia).
  assert (E1 : a / (n * np) = v). { unfold a. rewrite Nat.add_comm, Nat.div_add by lia. rewrite Nat.div_small; lia. }
  assert (E2 : a mod (n * np) = e * np + p). { unfold a. rewrite Nat.add_comm, Nat.mod_add by lia. rewrite Nat.mod_small; lia. }
  split; [exact E1|]. rewrite E2. split.
  - rewrite Nat.add_comm, Nat.div_add by lia. rewrite Nat.div_small; lia.
  - unfold a. replace (v * (n * np) + (e * np + p)) with (p + (v * n + e) * np) by ring. rewrite Nat.mod_add by lia. apply Nat.mod_small. exact Hp.
Qed.
Lemma wall_left r n1 n2 : 0 < n1 -> r < n2 -> r * n1 < n1 * n2.
Proof. nia. Qed.
Lemma wall_right r n1 n2 : 0 < n1 -> r < n2 -> r * n1 + (n1 - 1) < n1 * n2.
Proof. nia. Qed.
Lemma wall_bottom c n1 n2 : 0 < n2 -> c < n1 -> c < n1 * n2.
Proof. nia. Qed.
Lemma wall_top c n1 n2 : 0 < n2 -> c < n1 -> (n2 - 1) * n1 + c < n1 * n2.
Proof. nia. Qed.
Lemma side_low k ns : k < ns -> k < 2 * ns.
Proof. lia. Qed.
Lemma side_high k ns : k < ns -> ns + k < 2 * ns.
Proof. lia. Qed.
Lemma divmod r ns j : j < ns -> (r * ns + j) / ns = r /\ (r * ns + j) mod ns = j.
Proof.
  intro Hj. split; [rewrite Nat.div_add_l by lia; rewrite Nat.div_small; lia|]. rewrite Nat.add_comm, Nat.mod_add by lia. now apply Nat.mod_small.
Qed.
