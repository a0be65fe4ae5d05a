From Coq Require Import ZArith List Bool Reals Lra Lia.
From Verif Require Import FP Arith LinModel RSum WfL1Model WfL1Proofs.
Import ListNotations.
Open Scope R_scope.

(** descent: phi is the quadratic part of the feasibility QP at its solution, st0 the zero step *)
Lemma descent N (st st0 : nat -> stage real) (phi l1 tol_ineq tol_eq : R) (u nominal : bool) :
  (forall i, (i <= N)%nat -> relaxed_ok (st i) /\ one_each (st i)) ->
  (forall i, (i <= N)%nat -> relaxed_ok (st0 i) /\ one_each (st0 i) /\ minimal (st0 i)) ->
  0 <= phi -> phi + from_slacks N st <= from_slacks N st0 -> manually N st0 <= l1 ->
  0 <= pred_l1 (A := real) nominal l1 tol_ineq tol_eq (qp_l1 u N st) /\ qp_l1 u N st <= manually N st0 - phi.
Proof.
  intros H H0 Hp Ho Hl.
  pose proof (manual_le_slacks N st H) as [M1 M2].
  pose proof (both_equal N st0 H0 true false) as E. cbn [qp_l1] in E.
  assert (B : qp_l1 u N st <= manually N st0 - phi) by (destruct u; cbn [qp_l1]; lra).
  assert (P : 0 <= manually N st0) by (apply manual_le_slacks; intros i Hi; destruct (H0 i Hi) as (? & ? & _); split; assumption).
  split; [|exact B]. unfold pred_l1. cbn [nltb real n0 nsub]. destruct nominal; [lra|].
  destruct (Rltb _ _); lra.
Qed.

Definition vecl (l : list R) (i : nat) : R := nth i l 0.
(** one variable with 0 <= x <= 1 and x = 0; the added lower slack is 1 although nothing is violated *)
Definition loose : stage real := mkStage (A := real) 1 1 0 0 1 (fun _ => 0%nat) (fun _ _ => 0%R) (vecl [0; -1]%R) (fun _ => true) (fun _ => 0%Z) (vecl [0; 1; 0]%R).
(** x = 2; 0 <= x <= 1 relaxed by an added slack, 7 <= 3 x <= 100 softened by the user *)
Definition mixed : stage real := mkStage (A := real) 1 1 1 1 1 (fun _ => 0%nat) (fun _ _ => 3%R) (vecl [0; 7; -1; -100]%R) (fun _ => true)
  (fun j => match j with 0%nat => 1%Z | _ => 0%Z end) (vecl [2; 1; 0; 0; 1]%R).

Ltac two j := destruct j as [|[|j]]; [| |exfalso; unfold nc in *; cbn in *; lia].
Lemma loose_ok : relaxed_ok loose /\ one_each loose.
Proof.
  split; split.
  - intros [|j] Hj _; [|unfold nc in Hj; cbn in Hj; lia]. cbn. lra.
  - intros [|j] Hj _; [|unfold nc in Hj; cbn in Hj; lia]. cbn. lra.
  - intros j Hj. cbn. lia.
  - intros i j Hi Hj _ _. unfold nc in Hi, Hj; cbn in Hi, Hj; lia.
Qed.
Lemma pos_0 : pos 0 = 0. Proof. apply pos_zero. lra. Qed.
Lemma loose_gap : manually 0 (fun _ => loose) = 0 /\ from_slacks 0 (fun _ => loose) = 1.
Proof.
  rewrite manually_eq, from_slacks_eq. unfold viol, added. cbn. unfold viol_lo, viol_up, slack_lo, slack_up; cbn.
  rewrite !(pos_zero (_ - _)), !(pos_zero (_ + _)), pos_0 by lra. unfold pos. rewrite Rmax_right by lra. split; lra.
Qed.
Lemma slacks_too_large : exists st : stage real, relaxed_ok st /\ one_each st /\ manually 0 (fun _ => st) = 0 /\ from_slacks 0 (fun _ => st) = 1 /\
  pred_l1 (A := real) false (1 / 2)%R (1 / 1000000)%R (1 / 1000000)%R (qp_l1 true 0 (fun _ => st)) < 0.
Proof.
  exists loose. destruct loose_ok as [A B]. destruct loose_gap as [E F]. split; [exact A|split; [exact B|split; [exact E|split; [exact F|]]]].
  unfold qp_l1. rewrite F. unfold pred_l1. rewrite nmin_real. cbn [nltb real n0 nsub].
  rewrite Rmin_left by lra. destruct (Rltb_spec (1 / 2) (1 / 1000000)); lra.
Qed.
Lemma mixed_ok : relaxed_ok mixed /\ one_each mixed /\ minimal mixed.
Proof.
  split; [split|split; [split|]].
  - intros j Hj _. two j; cbn; change (Pos.to_nat 1) with 1%nat; cbn; lra.
  - intros j Hj _. two j; cbn; change (Pos.to_nat 1) with 1%nat; cbn; lra.
  - intros j Hj. two j; cbn; lia.
  - intros i j Hi Hj. two i; two j; cbn; lia.
  - intros k Hk. cbn in Hk. assert (k = 0%nat) as -> by lia. exists 0%nat. split; [unfold nc; cbn; lia|].
    split; [reflexivity|]. cbn. split; intros; [lra|split; [reflexivity|lra]].
Qed.
Lemma mixed_value : forall u, qp_l1 u 0 (fun _ => mixed) = 1.
Proof.
  assert (E : from_slacks 0 (fun _ => mixed) = 1).
  { rewrite from_slacks_eq. unfold added. cbn. unfold slack_lo, slack_up; cbn. rewrite pos_0. unfold pos. rewrite Rmax_right by lra. lra. }
  intros u. rewrite (both_equal 0 (fun _ => mixed) (fun _ _ => mixed_ok) u true). exact E.
Qed.
Lemma pred_cases (l1 tol_ineq tol_eq q : R) :
  (l1 < tol_ineq -> l1 < tol_eq -> pred_l1 (A := real) false l1 tol_ineq tol_eq q = 0) /\
  (tol_ineq <= l1 \/ tol_eq <= l1 -> pred_l1 (A := real) false l1 tol_ineq tol_eq q = l1 - q) /\
  pred_l1 (A := real) true l1 tol_ineq tol_eq q = l1.
Proof.
  unfold pred_l1. rewrite nmin_real. cbn [nltb real n0 nsub]. pose proof (Rmin_l tol_ineq tol_eq). pose proof (Rmin_r tol_ineq tol_eq).
  split; [|split; [|reflexivity]].
  - intros H1 H2. destruct (Rltb_spec l1 (Rmin tol_ineq tol_eq)) as [_|N]; [reflexivity|]. exfalso. apply N, Rmin_glb_lt; assumption.
  - intros H1. destruct (Rltb_spec l1 (Rmin tol_ineq tol_eq)); [lra|reflexivity].
Qed.
