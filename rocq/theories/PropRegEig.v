(** Property theorems C91: Hessian regularisation with the library's own eigendecomposition. *)
From Coq Require Import ZArith List Bool Reals.
From Flocq Require Import IEEE754.BinarySingleNaN.
From Verif Require Import FP Arith Vec LinModel RSum RegModel InterpProofs RegProofs TredModel TredCases TqlModel TqlCases RegEig RegEigCases.
Import ListNotations.
Open Scope R_scope.

(** C91.  Over the reals, whenever the QL iteration converges, and without assuming that its result is exact: the
    quadratic form of the regularised Hessian is at least the threshold times |v|^2. *)
Theorem C91_positive_definite : forall eps d0 e0 r n (M : nat -> nat -> R), 0 <= eps -> spectral r -> q_ok (run eps d0 e0 n M) = true -> forall v : nat -> R,
  reg_eps r n (td (q_st (run eps d0 e0 n M))) * sum n (fun i => v i * v i) <= sum n (fun i => sum n (fun j => v i * reg_stage (A := real) (eigf eps d0 e0) r n M i j * v j)).
Proof. exact eig_pd. Qed.
Print Assumptions C91_positive_definite.
(** curvature is not removed, up to the tolerance of the iteration; S is the Hessian with its lower triangle mirrored *)
Theorem C91_above : forall eps d0 e0 r n (M : nat -> nat -> R), 0 <= eps -> spectral r -> q_ok (run eps d0 e0 n M) = true -> forall v : nat -> R,
  quad n (symmetrise (A := real) n M) v - 2 * INR n * eps * q_tst1 (run eps d0 e0 n M) * nrm2 n v <= quad n (reg_stage (A := real) (eigf eps d0 e0) r n M) v.
Proof. exact eig_above. Qed.
Print Assumptions C91_above.
(** a Hessian with all computed eigenvalues above the threshold is kept up to that tolerance *)
Theorem C91_kept : forall eps d0 e0 r n (M : nat -> nat -> R), 0 <= eps -> spectral r -> q_ok (run eps d0 e0 n M) = true ->
  let d := td (q_st (run eps d0 e0 n M)) in
  (forall k, (k < n)%nat -> reg_eps r n d <= d k) -> (mirrors r = true -> forall k, (k < n)%nat -> 0 <= d k) -> forall v : nat -> R,
  Rabs (quad n (reg_stage (A := real) (eigf eps d0 e0) r n M) v - quad n (symmetrise (A := real) n M) v) <= 2 * INR n * eps * q_tst1 (run eps d0 e0 n M) * nrm2 n v.
Proof. exact eig_kept. Qed.
Print Assumptions C91_kept.
(** the adaptive variants bound the condition number *)
Theorem C91_condition : forall eps d0 e0 r n (M : nat -> nat -> R), 0 <= eps -> spectral r -> q_ok (run eps d0 e0 n M) = true ->
  forall c m, r = RProjectAdaptive c m \/ r = RMirrorAdaptive c m -> 1 <= c -> 0 < m ->
  forall v w, quad n (reg_stage (A := real) (eigf eps d0 e0) r n M) v * nrm2 n w <= c * (quad n (reg_stage (A := real) (eigf eps d0 e0) r n M) w * nrm2 n v).
Proof. exact eig_cond. Qed.
Print Assumptions C91_condition.
(** stages with two variables always converge *)
Theorem C91_two : forall eps d0 e0 (M : nat -> nat -> R), 0 <= eps -> q_ok (run eps d0 e0 2 M) = true.
Proof. exact run_two. Qed.
Print Assumptions C91_two.

(** In binary64 the projection of a finite symmetric Hessian can be NaN ... *)
Theorem C91_nan_refuted : exists x : double, is_finite x = true /\ forall i j, (i < 2)%nat -> (j < 2)%nat -> is_nan (projected 2 (offdiag x) i j) = true.
Proof. exact tiny_nan. Qed.
Print Assumptions C91_nan_refuted.
(** ... or the zero matrix. *)
Theorem C91_zero_refuted : exists x : double, is_finite x = true /\ forall i j, (i < 2)%nat -> (j < 2)%nat -> Beqb (projected 2 (offdiag x) i j) f0 = true.
Proof. exact large_zero. Qed.
Print Assumptions C91_zero_refuted.
(** diag(4, -3), with a 9 in the upper triangle, becomes diag(4, 1e-4) *)
Example C91_case : map B2SF (arr2 2 (projected 2 (rows [[4; 9]; [0; -3]]%Z))) = map B2SF [dz 4; f0; f0; dcst 1 (-4)].
Proof. exact ex_proj. Qed.
(** two variables, projection at 1: no hypothesis left *)
Example C91_case_two : forall (M : nat -> nat -> R) (v : nat -> R),
  1 * sum 2 (fun i => v i * v i) <= sum 2 (fun i => sum 2 (fun j => v i * reg_stage (A := real) (eigf 1 (fun _ => 0) (fun _ => 0)) (RProject (1%R : R)) 2 M i j * v j)).
Proof. exact (fun M => eig_pd 1 (fun _ => 0) (fun _ => 0) (RProject (1%R : R)) 2 M Rle_0_1 I (run_two 1 (fun _ => 0) (fun _ => 0) M Rle_0_1)). Qed.
