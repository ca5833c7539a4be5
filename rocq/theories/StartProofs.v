From Coq Require Import List Arith Bool Lia.
From Verif Require Import StartModel StartSpec.
Import ListNotations.

Lemma bc_same s : bc s s = Ok s.
Proof. induction s as [|a s IH]; [reflexivity|]. cbn [bc]. rewrite IH. cbn [bind]. now rewrite Nat.eqb_refl. Qed.
Lemma broadcast_same s : broadcast s s = Ok s.
Proof. unfold broadcast. rewrite bc_same. cbn [bind]. now rewrite rev_involutive. Qed.
Lemma broadcast_scalar_l s : broadcast [] s = Ok s.
Proof. unfold broadcast. cbn [rev bc bind]. now rewrite rev_involutive. Qed.
Lemma broadcast_scalar_r s : broadcast s [] = Ok s.
Proof. unfold broadcast. cbn [rev]. destruct (rev s) eqn:E; cbn [bc bind]; [|now rewrite <- E, rev_involutive]. rewrite <- (rev_involutive s), E. reflexivity. Qed.
Lemma assign_same s : assign s s = Ok tt.
Proof. unfold assign. rewrite broadcast_same. cbn [bind]. destruct (list_eq_dec Nat.eq_dec s s); [reflexivity|contradiction]. Qed.
Lemma matmul_last l a b : matmul (l ++ [a]) a b = Ok (l ++ [b]).
Proof. unfold matmul. rewrite rev_app_distr. cbn [rev app]. rewrite Nat.eqb_refl. cbn [rev]. now rewrite rev_involutive. Qed.
(** the old layout *)
Lemma old_broadcast g : broadcast (height_3d g) (lon_3d g) = Ok (height_3d g).
Proof. unfold broadcast, height_3d, lon_3d. cbn [rev app bc bind]. rewrite !Nat.eqb_refl. reflexivity. Qed.

Lemma starts : forall g floors,
  (forall case, In case [1; 2; 5; 6] -> start_sw g case = Ok (state_sw (n g) (ns g))) /\
  (forall case, In case [21; 22; 31; 77] -> (case = 21 \/ case = 22 -> floors = true) -> start_euler g floors case = Ok (state_euler 5 (n g) (nv g) (ns g))) /\
  start_plane g 2 = Ok (state_plane (n g) (nv g) (ns g)).
Proof.
  intros g floors. split; [|split].
  - intros case I. assert (W : forall u, u = [] \/ u = lon_2d g -> wind_2d g (lon_2d g) u = Ok (lon_2d g)).
    { intros u [-> | ->]; unfold wind_2d; repeat (rewrite ?broadcast_scalar_l, ?broadcast_same; cbn [bind]); reflexivity. }
    assert (F : forall c, sw_case g c = Ok (lon_2d g, lon_2d g) -> start_sw g c = Ok (state_sw (n g) (ns g))).
    { intros c E. unfold start_sw. rewrite E. cbn [bind]. rewrite assign_same. cbn [bind]. destruct (c <=? 1); [cbn [bind]|rewrite broadcast_same; cbn [bind]]; rewrite assign_same; reflexivity. }
    apply F. destruct I as [<- |[<- |[<- |[<- |[]]]]]; unfold sw_case; cbn [Nat.eqb]; rewrite W by auto; cbn [bind]; try reflexivity.
    change (lon_2d g) with ([n g; n g] ++ [ns g * ns g]) at 1. rewrite matmul_last. cbn [bind]. change [n g; n g; 2 * ns g] with ([n g; n g] ++ [2 * ns g]). rewrite matmul_last. cbn [bind]. rewrite broadcast_same. reflexivity.
  - intros case I Fl. assert (W : forall u v w, (u = [] \/ u = new_3d g) -> (v = [] \/ v = new_3d g) -> (w = [] \/ w = new_3d g) -> wind_3d g u v w = Ok (new_3d g)).
    { intros u v w [-> | ->] [-> | ->] [-> | ->]; unfold wind_3d; repeat (rewrite ?broadcast_scalar_l, ?broadcast_same; cbn [bind]); reflexivity. }
    assert (F : forall c w, (w = [] \/ w = new_3d g) -> euler_case g floors c = Ok (5, new_3d g, new_3d g, w) -> start_euler g floors c = Ok (state_euler 5 (n g) (nv g) (ns g))).
    { intros c w Hw E. unfold start_euler. rewrite E. cbn [bind]. rewrite broadcast_same. cbn [bind]. rewrite assign_same. cbn [bind]. destruct Hw as [-> | ->]; [rewrite broadcast_scalar_r|rewrite broadcast_same]; cbn [bind]; rewrite assign_same; reflexivity. }
    destruct I as [<- |[<- |[<- |[<- |[]]]]].
    + apply (F _ (new_3d g)); [auto|]. unfold euler_case. rewrite Fl by auto. cbn. rewrite W by auto. reflexivity.
    + apply (F _ (new_3d g)); [auto|]. unfold euler_case. rewrite Fl by auto. cbn. rewrite W by auto. reflexivity.
    + apply (F _ (new_3d g)); [auto|]. unfold euler_case. cbn [call bind Nat.eqb apply_topography_parameters]. unfold call. cbn. rewrite W by auto. reflexivity.
    + apply (F _ []); [auto|]. unfold euler_case. rewrite W by auto. reflexivity.
  - unfold start_plane, plane_case. rewrite broadcast_same. cbn [bind]. rewrite broadcast_same. cbn [bind]. rewrite assign_same. reflexivity.
Qed.
Lemma unknown : forall g floors case, (~ In case documented_sw -> start_sw g case = Raise ValueError) /\ (~ In case documented_euler -> start_euler g floors case = Raise ValueError).
Proof.
  intros g floors case. split; intros N.
  - unfold start_sw. replace (sw_case g case) with (@Raise (shape * shape) ValueError); [reflexivity|]. unfold documented_sw in N. cbn [In] in N. do 11 (destruct case as [|case]; [try reflexivity; exfalso; apply N; tauto|]). reflexivity.
  - unfold start_euler. replace (euler_case g floors case) with (@Raise (nat * shape * shape * shape) ValueError); [reflexivity|]. unfold documented_euler in N. cbn [In] in N. do 78 (destruct case as [|case]; [try reflexivity; exfalso; apply N; tauto|]). reflexivity.
Qed.
Lemma broken : forall g floors, 0 < n g -> 0 < ns g ->
  (forall case, In case [0; 8; 9; 10] -> start_sw g case = Raise ValueError) /\
  start_euler g floors 20 = Raise TypeError /\
  (forall case, In case [11; 12] -> exists k, start_euler g floors case = Ok [k; nv g * ns g; n g * ns g; n g * ns g] /\ start_euler g floors case <> Ok (state_euler k (n g) (nv g) (ns g))) /\
  start_plane g 0 = Raise AttributeError /\ (forall case, In case [1; 3; 4] -> start_plane g case = Raise NameError).
Proof.
  intros g floors Hn Hs. split; [|split; [|split; [|split]]].
  - intros case I. destruct I as [<- |[<- |[<- |[<- |[]]]]]; try reflexivity. unfold start_sw, sw_case, assign, broadcast. cbn [rev app bc bind]. destruct (2 * ns g =? n g * ns g) eqn:E1; [cbn [bind rev app]; destruct (list_eq_dec Nat.eq_dec _ _) as [E|_]; [discriminate E|reflexivity]|].
    destruct (2 * ns g =? 1) eqn:E2; [apply Nat.eqb_eq in E2; lia|]. destruct (n g * ns g =? 1); [cbn [bind rev app]; destruct (list_eq_dec Nat.eq_dec _ _) as [E|_]; [discriminate E|reflexivity]|reflexivity].
  - reflexivity.
  - intros case I. assert (F : forall c k, euler_case g floors c = Ok (k, height_3d g, height_3d g, height_3d g) -> start_euler g floors c = Ok (k :: height_3d g)).
    { intros c k E. unfold start_euler. rewrite E. repeat (cbn [bind]; rewrite ?broadcast_same, ?assign_same). reflexivity. }
    assert (E1 : euler_case g floors 11 = Ok (9, height_3d g, height_3d g, height_3d g)) by (unfold euler_case; rewrite old_broadcast; cbn [bind]; unfold wind_old; rewrite old_broadcast; reflexivity).
    assert (E2 : euler_case g floors 12 = Ok (6, height_3d g, height_3d g, height_3d g)) by (unfold euler_case; rewrite old_broadcast; cbn [bind]; unfold wind_old; rewrite old_broadcast; reflexivity).
    destruct I as [<- |[<- |[]]]; [exists 9; rewrite (F _ _ E1)|exists 6; rewrite (F _ _ E2)]; (split; [reflexivity|intros E; discriminate E]).
  - reflexivity.
  - intros case I. destruct I as [<- |[<- |[<- |[]]]]; reflexivity.
Qed.
Lemma plane_unknown : forall g case, ~ In case documented_plane -> start_plane g case = Ok (state_plane (n g) (nv g) (ns g)).
Proof.
  intros g case N. unfold start_plane. replace (plane_case g case) with (Ok (x1_plane g)). { cbn [bind]. rewrite broadcast_same. cbn [bind]. rewrite assign_same. reflexivity. }
  unfold documented_plane in N. cbn [In] in N. do 5 (destruct case as [|case]; [exfalso; apply N; tauto|]). reflexivity.
Qed.
