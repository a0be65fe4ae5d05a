(** Property theorems for the merit gradient. *)
From Coq Require Import ZArith List Bool Reals.
From Coquelicot Require Import Coquelicot.
From Verif Require Import Arith Vec MeritModel MeritGrad MeritGradProofs.
Import ListNotations.

(** C59: along the QP step, with nonzero gaps and constraint values, the merit function has a
    derivative, and the computed gradient differs from it by exactly twice the weighted step of the
    violated lower constraints. *)
Theorem C59_gradient : forall (l : list (gdata real)) M, length l = S M ->
  forall (c : nat -> R -> R) (g : nat -> nat -> R -> R) (nrow : nat -> nat) (h : nat -> nat -> R -> R),
  (forall i, (i <= M)%nat -> is_derive (c i) 0%R (vsum (A := real) (gd_nu (nth i l d0) + gd_nx (nth i l d0) + 2 * gd_ns (nth i l d0)) (fun k => gd_cost (nth i l d0) k * gd_step (nth i l d0) k)%R)) ->
  (forall i j, (i < M)%nat -> (j < gd_nx (nth (S i) l d0))%nat ->
    g i j 0%R = gd_gap (nth i l d0) j /\ g i j 0%R <> 0%R /\ (0 <= gd_wpi (nth i l d0) j)%R /\
    is_derive (g i j) 0%R (vsum (A := real) (gd_nx (nth i l d0) + gd_nu (nth i l d0)) (fun k => gd_BAbt (nth i l d0) k j * gd_step (nth i l d0) k)%R
                       - gd_step (nth (S i) l d0) (gd_nu (nth (S i) l d0) + j)%nat)%R) ->
  (forall i, (i <= M)%nat -> (2 * (gd_nb (nth i l d0) + gd_ng (nth i l d0)) <= nrow i)%nat) ->
  (forall i j, (i <= M)%nat -> (j < nrow i)%nat -> h i j 0%R <> 0%R /\ (0 <= gd_wlam (nth i l d0) j)%R /\
    ((j < 2 * (gd_nb (nth i l d0) + gd_ng (nth i l d0)))%nat -> h i j 0%R = gd_con (nth i l d0) j /\ is_derive (h i j) 0%R (true_step (nth i l d0) j)) /\
    ((2 * (gd_nb (nth i l d0) + gd_ng (nth i l d0)) <= j)%nat -> (h i j 0 < 0)%R /\ exists d, is_derive (h i j) 0%R d)) ->
  is_derive (merit_line l M c g nrow h) 0%R (merit_gradient l - vsum (A := real) (S M) (fun i => lower_error (nth i l d0)))%R.
Proof. exact merit_line_derive. Qed.
Print Assumptions C59_gradient.
Theorem C59_no_lower : forall s : gdata real, (forall j, (j < gd_nb s + gd_ng s)%nat -> (gd_con s j <= 0)%R) -> lower_error s = 0%R.
Proof. exact no_lower_error. Qed.
Print Assumptions C59_no_lower.
(** the gradient has the wrong sign at a violated lower bound *)
Theorem C59_refuted :
  is_derive (merit_line [bad_stage] 0 (fun _ _ => 0%R) (fun _ _ _ => 0%R) (fun _ => 2%nat) (fun _ => bad_rows)) 0%R 1%R /\
  merit_gradient [bad_stage] = (-1)%R.
Proof. exact bad_gradient. Qed.
Print Assumptions C59_refuted.
