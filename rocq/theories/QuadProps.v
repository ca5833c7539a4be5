(** C42: Gauss-Legendre quadrature. *)
From Coq Require Import Reals List.
From Coquelicot Require Import Coquelicot.
From Verif Require Import QuadModel QuadSpec QuadProofs.
Import ListNotations.
Open Scope R_scope.

(** the rules with up to five points are exact for every polynomial with at most 2 n coefficients *)
Theorem C42_exact roots n xs ws cs : (1 <= n <= 5)%nat -> gauss_legendre roots n = Some (xs, ws) -> (length cs <= 2 * n)%nat -> is_RInt (poly cs) (-1) 1 (quad xs ws (poly cs)).
Proof. exact (gauss_exact roots n xs ws cs). Qed.
Print Assumptions C42_exact.
(** points inside the interval, in order, symmetric; weights positive and symmetric *)
Theorem C42_points roots n xs ws : (1 <= n <= 5)%nat -> gauss_legendre roots n = Some (xs, ws) ->
  length xs = n /\ length ws = n /\ increasing xs /\ List.Forall (fun x => -1 < x < 1) xs /\ rev xs = map Ropp xs /\ List.Forall (fun w => 0 < w) ws /\ rev ws = ws.
Proof. exact (gauss_points roots n xs ws). Qed.
Print Assumptions C42_points.
(** the points are the zeros of the Legendre polynomial *)
Theorem C42_roots roots n xs ws : (1 <= n <= 5)%nat -> gauss_legendre roots n = Some (xs, ws) -> List.Forall (fun x => legendre_R n x = 0) xs.
Proof. exact (gauss_roots roots n xs ws). Qed.
Print Assumptions C42_roots.
(** no rule without points; more than five points come from the library *)
Theorem C42_others roots n : (gauss_legendre roots n = None <-> n = 0%nat) /\ ((6 <= n)%nat -> gauss_legendre roots n = Some (roots n)).
Proof. exact (gauss_others roots n). Qed.
Print Assumptions C42_others.
Example C42_example : exists xs ws, gauss_legendre (fun _ => ([], [])) 3 = Some (xs, ws) /\ is_RInt (poly [1; 0; 3; 0; 5; 7]) (-1) 1 (quad xs ws (poly [1; 0; 3; 0; 5; 7])).
Proof. eexists _, _. split; [reflexivity|]. eapply (C42_exact (fun _ => ([], [])) 3); [auto|reflexivity|auto]. Qed.
