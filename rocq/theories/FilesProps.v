(** Property C25. *)
From Coq Require Import ZArith List Bool Ascii String Lia.
From Verif Require Import FilesModel FilesSpec FilesProofs.
Import ListNotations.
Local Open Scope list_scope.

(** C25: in one directory, files of different steps, or of different configuration hashes, have different names. *)
Theorem C25_names_differ : forall F (hash : hashed F -> Z) c c' dir s s',
  state_file_name dir (config_hash hash c) s = state_file_name dir (config_hash hash c') s' -> config_hash hash c = config_hash hash c' /\ s = s'.
Proof. intros F hash c c' dir s s'. apply name_inj; apply config_hash_range. Qed.
Print Assumptions C25_names_differ.
Example C25_ex_name : state_file_name (lit "results") 11259375 42 = lit "results/state_vector_000000abcdef.00000042.npy" /\
  state_file_name (lit "r") 0 (-1) = lit "r/state_vector_000000000000.-0000001.npy".
Proof. split; vm_compute; reflexivity. Qed.

(** C25: the state is recovered, and of the configuration text, all lines that are not blank, in order. *)
Theorem C25_read_back : forall S (npy : S -> text) npy_load, npy_ok npy npy_load -> forall x version s,
  Forall (fun c => c <> ascii_of_nat 10) version ->
  exists s' v, load_state npy_load (save_state npy x version s) = Some (x, v, s') /\ content_lines s' = content_lines s.
Proof.
  intros S npy npy_load N x version s V. destruct (load_save_content npy npy_load N x version s) as [s' H]; [|exists s', (version ++ [newline]); exact H].
  eapply Forall_impl; [|exact V]. intros c C. apply Ascii.eqb_neq, C.
Qed.
Print Assumptions C25_read_back.
(** C25: a one-line text without blank ends is recovered exactly. *)
Theorem C25_one_line : forall S (npy : S -> text) npy_load, npy_ok npy npy_load -> forall x version s,
  Forall (fun c => c <> ascii_of_nat 10) version -> Forall (fun c => c <> ascii_of_nat 10) s -> trimmed s ->
  exists v, load_state npy_load (save_state npy x version s) = Some (x, v, s).
Proof.
  intros S npy npy_load N x version s V O T. exists (version ++ [newline]). apply load_save_one_line; try assumption; (eapply Forall_impl; [|eassumption]); intros c C; apply Ascii.eqb_neq, C.
Qed.
Print Assumptions C25_one_line.

(** Arrays of one byte *)
Definition byte_load (s : text) : option (ascii * text) := match s with c :: r => Some (c, r) | [] => None end.
Example C25_ex : npy_ok (fun c => [c]) byte_load /\ Forall (fun c => c <> ascii_of_nat 10) (lit "1.2") /\ trimmed (lit "[a]") /\
  content_lines ([newline] ++ lit " x=1 " ++ [newline; newline] ++ lit "y=2") = [lit "x=1"; lit "y=2"].
Proof.
  split; [intros c r; reflexivity|]. split; [repeat constructor; discriminate|]. split; [|vm_compute; reflexivity].
  split; intros c r H; [injection H as <- _; reflexivity|]. destruct r as [|x [|y [|z r]]]; cbn in H; try discriminate; [injection H as _ _ <-; reflexivity|]. injection H as _ _ _ H. destruct r; discriminate.
Qed.

(** The text itself is not recovered: every newline comes back doubled. *)
Theorem C25_text_refuted : exists s, trimmed s /\ forall S (npy : S -> text) npy_load x v, npy_ok npy npy_load -> Forall (fun c => c <> ascii_of_nat 10) v ->
  exists v' s', load_state npy_load (save_state npy x v s) = Some (x, v', s') /\ s' <> s /\ s' = lit "a" ++ [newline; newline] ++ lit "b".
Proof.
  exists (lit "a" ++ [newline] ++ lit "b"). split.
  - split; intros c r H; [injection H as <- _; reflexivity|]. destruct r as [|x [|y [|z r]]]; cbn in H; try discriminate; [injection H as _ _ <-; reflexivity|]. injection H as _ _ _ H. destruct r; discriminate.
  - intros S npy npy_load x v N V. exists (v ++ [newline]), (lit "a" ++ [newline; newline] ++ lit "b"). split; [|split; [discriminate|reflexivity]].
    rewrite load_save; [reflexivity|exact N|]. eapply Forall_impl; [|exact V]. intros c C. apply Ascii.eqb_neq, C.
Qed.
Print Assumptions C25_text_refuted.
(** The version written in the file plays no role when it is read. *)
Theorem C25_version_checked_refuted : forall S (npy : S -> text) npy_load, npy_ok npy npy_load -> forall x s v v',
  Forall (fun c => c <> ascii_of_nat 10) v -> Forall (fun c => c <> ascii_of_nat 10) v' ->
  exists r, option_map (fun p => (fst (fst p), snd p)) (load_state npy_load (save_state npy x v s)) = Some r /\
            option_map (fun p => (fst (fst p), snd p)) (load_state npy_load (save_state npy x v' s)) = Some r.
Proof.
  intros S npy npy_load N x s v v' V V'. exists (x, strip (doubled s)).
  rewrite !load_save; [split; reflexivity|exact N| |exact N|]; (eapply Forall_impl; [|eassumption]); intros c C; apply Ascii.eqb_neq, C.
Qed.
Print Assumptions C25_version_checked_refuted.
