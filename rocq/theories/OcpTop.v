(** Statements and concrete cases for the QP objective, second order correction, Levenberg-Marquardt, parameter gradient. *)
From Coq Require Import ZArith List Bool Lia Reals Lra Psatz.
From Verif Require Import Arith Vec LinModel LinProofs RSum Poly OcpModel OcpProofs.
Import ListNotations.
Open Scope R_scope.

Section Soc.
Variable d : odims.
Variable qp : nat -> qp_stage real.
Variable ux : nat -> vecR.
Variables dyn con : nat -> vecR.
Notation nux i := (onx d i + onu d i)%nat.
Definition Cv (v : nat -> vecR) i j : R := sum (nux i) (fun r => q_DCt (qp i) r j * v i r).
(** slack steps of constraint j (bounds first): lower and upper, zero when not softened *)
Definition s_lower (v : nat -> vecR) i j : R := if (0 <=? q_idxs_rev (qp i) j)%Z then v i (nux i + Z.to_nat (q_idxs_rev (qp i) j))%nat else 0.
Definition s_upper (v : nat -> vecR) i j : R := if (0 <=? q_idxs_rev (qp i) j)%Z then v i (nux i + (Z.to_nat (q_idxs_rev (qp i) j) + ons d i))%nat else 0.
Lemma Cv_split v i j : sum (nux i) (fun r => q_DCt (qp i) r j * (v i r - ux i r)) = Cv v i j - Cv ux i j.
Proof. unfold Cv. rewrite <- sum_minus. apply sum_ext. intros; ring. Qed.
(** the rows of the corrected QP for a general constraint, against the linearisation about the trial point *)
Lemma soc_lower_actual v i j : (j < ong d i)%nat ->
  (soc_d d qp ux con i (onb d i + j)%nat <= Cv v i j + s_lower v i (onb d i + j) <->
   con i (onb d i + j)%nat - sum (nux i) (fun r => q_DCt (qp i) r j * (v i r - ux i r)) - (s_lower v i (onb d i + j) - s_lower ux i (onb d i + j)) <= 2 * s_lower ux i (onb d i + j)).
Proof.
  intros Hj. rewrite soc_lower by exact Hj. rewrite Cv_split. unfold Cp, s_lower, Cv, soft, sidx, slack. destruct (0 <=? _)%Z; split; intros; lra.
Qed.
Lemma soc_upper_actual v i j : (j < ong d i)%nat ->
  (soc_d d qp ux con i (2 * onb d i + ong d i + j)%nat <= - Cv v i j + s_upper v i (onb d i + j) <->
   con i (2 * onb d i + ong d i + j)%nat + sum (nux i) (fun r => q_DCt (qp i) r j * (v i r - ux i r)) - (s_upper v i (onb d i + j) - s_upper ux i (onb d i + j)) <= 2 * s_upper ux i (onb d i + j)).
Proof.
  intros Hj. rewrite soc_upper by exact Hj. rewrite Cv_split. unfold Cp, s_upper, Cv, soft, sidx, slack. destruct (0 <=? _)%Z; split; intros; lra.
Qed.
(** hard constraints: the property as wanted *)
Lemma soc_hard v i j : (j < ong d i)%nat -> (q_idxs_rev (qp i) (onb d i + j) < 0)%Z ->
  (soc_d d qp ux con i (onb d i + j)%nat <= Cv v i j <-> con i (onb d i + j)%nat - sum (nux i) (fun r => q_DCt (qp i) r j * (v i r - ux i r)) <= 0) /\
  (soc_d d qp ux con i (2 * onb d i + ong d i + j)%nat <= - Cv v i j <-> con i (2 * onb d i + ong d i + j)%nat + sum (nux i) (fun r => q_DCt (qp i) r j * (v i r - ux i r)) <= 0).
Proof.
  intros Hj Hs. pose proof (soc_lower_actual v i j Hj) as L. pose proof (soc_upper_actual v i j Hj) as U. unfold s_lower, s_upper in *. destruct (Z.leb_spec 0 (q_idxs_rev (qp i) (onb d i + j))); [lia|].
  split; split; intros H1.
  - assert (H2 := proj1 L ltac:(lra)). lra.
  - assert (H2 := proj2 L ltac:(lra)). lra.
  - assert (H2 := proj1 U ltac:(lra)). lra.
  - assert (H2 := proj2 U ltac:(lra)). lra.
Qed.
Lemma soc_hard_bound i j : (j < onb d i)%nat -> (q_idxs_rev (qp i) j < 0)%Z -> soc_d d qp ux con i j = q_d (qp i) j.
Proof. intros Hj Hs. rewrite soc_bound_lower by exact Hj. unfold soft. destruct (Z.leb_spec 0 (q_idxs_rev (qp i) j)); [lia|]. lra. Qed.
End Soc.

(** one control, one state, horizon 1, A = B = 1, one general constraint with gradient 1, optionally softened *)
Definition d1 := mkOdims 1 (fun _ => 1%nat) (fun i => if (i =? 0)%nat then 1%nat else 0%nat) (fun _ => 1%nat) (fun _ => 0%nat) (fun _ => 1%nat).
Definition qp1 (s : Z) : nat -> qp_stage real := fun _ => mkQpStage (A := real) (fun r c => if (r =? c)%nat then 2 else 0) (fun _ => 1) (fun _ => 4) (fun _ _ => 1) (fun _ => 0) (fun _ _ => 1) (fun _ => 0) (fun _ => s).
Definition p1 : nat -> vecR := fun _ _ => 1.
Definition zero2 : nat -> vecR := fun _ _ => 0.
Definition one2 : nat -> vecR := fun _ _ => 1.
Lemma soc_dynamics_refuted : exists d qp ux dyn v i c, qp_dynamics d qp (soc_b d qp ux dyn i) v i c /\ lin_dynamics d qp ux dyn v i c <> 0.
Proof.
  (* the step v = (0, 0; -2): x_next = b = -1 - 2 + 1 *)
  exists d1, (qp1 (-1)), p1, one2, (fun i _ => if (i =? 0)%nat then 0 else -2), 0%nat, 0%nat. rewrite soc_dynamics_actual. unfold lin_dynamics. cbn. unfold one2, p1. split; lra.
Qed.
Definition v1 : nat -> vecR := fun _ k => if (k <? 2)%nat then 1 else 0.
Lemma soc_soft_refuted : exists d qp ux con v i j, (j < ong d i)%nat /\ soc_d d qp ux con i (onb d i + j)%nat <= Cv d qp v i j + s_lower d qp v i (onb d i + j) /\
  0 < con i (onb d i + j)%nat - sum (onx d i + onu d i) (fun r => q_DCt (qp i) r j * (v i r - ux i r)) - (s_lower d qp v i (onb d i + j) - s_lower d qp ux i (onb d i + j)).
Proof.
  exists d1, (qp1 0), p1, zero2, v1, 0%nat, 0%nat. split; [cbn; lia|]. rewrite soc_lower_actual by (cbn; lia). cbn. unfold s_lower. cbn. unfold zero2, v1, p1. cbn. split; lra.
Qed.
Definition db := mkOdims 0 (fun _ => 1%nat) (fun i => 0%nat) (fun _ => 1%nat) (fun _ => 1%nat) (fun _ => 0%nat).
Lemma soc_soft_bound_refuted : exists d (qp : nat -> qp_stage real) ux con i j, (j < onb d i)%nat /\ soc_d d qp ux con i j <> q_d (qp i) j.
Proof. exists db, (qp1 0), p1, zero2, 0%nat, 0%nat. split; [cbn; lia|]. rewrite soc_bound_lower by (cbn; lia). unfold soft, slack, sidx, p1. cbn. lra. Qed.
Lemma soc_case : soc_b d1 (qp1 (-1)) p1 zero2 0%nat 0%nat = -1 /\ soc_d d1 (qp1 (-1)) p1 one2 0%nat 0%nat = 3 /\ soc_d d1 (qp1 (-1)) p1 one2 0%nat 1%nat = -1.
Proof.
  split; [rewrite soc_b_val; cbn; unfold zero2, p1; lra|]. split.
  - etransitivity; [exact (soc_lower d1 (qp1 (-1)) p1 one2 0 0 ltac:(cbn; lia))|]. unfold Cp, soft, one2, p1. cbn. lra.
  - etransitivity; [exact (soc_upper d1 (qp1 (-1)) p1 one2 0 0 ltac:(cbn; lia))|]. unfold Cp, soft, one2, p1. cbn. lra.
Qed.

(** ** QP objective *)
Lemma d1_sym s : sym_of d1 (qp1 s) (fun _ r c => if (r =? c)%nat then 2 else 0).
Proof. intros i r c _ _ _. split; [rewrite (Nat.eqb_sym r c); reflexivity|reflexivity]. Qed.
Lemma objective_refuted : exists d qp ux H, sym_of d qp H /\ qp_objective_value d qp ux <> qp_objective d qp ux H.
Proof.
  exists d1, (qp1 0), p1, (fun _ r c => if (r =? c)%nat then 2 else 0). split; [apply d1_sym|].
  pose proof (qp_objective_over d1 (qp1 0) p1 (fun _ r c => if (r =? c)%nat then 2 else 0) 0 0 (d1_sym 0) ltac:(cbn; lia) ltac:(cbn; lia)) as L. specialize (L ltac:(unfold slack, p1; lra)). lra.
Qed.
Lemma objective_case : qp_objective_value d1 (qp1 0) (fun _ k => if (k <? 1)%nat then 3 else 0) = 24.
Proof.
  rewrite (qp_objective_no_slack d1 (qp1 0) _ (fun _ r c => if (r =? c)%nat then 2 else 0) (d1_sym 0)).
  - unfold qp_objective, slack. cbn. lra.
  - intros i k Hi Hk. unfold slack. destruct i as [|[|i]]; cbn in *; [reflexivity|reflexivity|lia].
Qed.

(** ** Levenberg-Marquardt *)
Definition lm5 : lm_opts real := mkLmOpts (A := real) (1 / 1000)%R (1 / 10000000000000000)%R 5%R 2%R true.
(** rejected full step, then two full steps: the second full step raises the parameter *)
Lemma lm_grows : let m := lm_run lm5 [1 / 2; 1] (mkLmMem (A := real) 0%R 0%R) in lm_mu m = 1 / 5000 /\ lm_mu (lm_update lm5 false (1 : R) m) = 1 / 1000.
Proof.
  cbv zeta. unfold lm_run. cbn [fold_left].
  set (m0 := lm_update lm5 true 0 _). assert (E0 : m0 = mkLmMem (A := real) (1 / 1000)%R (1 / 1000)%R) by reflexivity.
  set (ma := lm_update lm5 false (1 / 2)%R m0). assert (Ea : ma = mkLmMem (A := real) (1 / 200)%R (1 / 1000)%R).
  { unfold ma, lm_update. destruct (nleb _ _ && nleb _ _)%bool eqn:E; [apply lm_full_spec in E; lra|]. rewrite E0. cbn [lm_mu lm_mu_bar]. rewrite nmin_real. f_equal. change (nmul (a := real)) with Rmult. change (n1 (a := real)) with 1. cbn [lm_lam lm5]. rewrite Rmin_left; lra. }
  assert (F : forall m, lm_update lm5 false (1 : R) m = mkLmMem (A := real) (Rmax (1 / 10000000000000000) (lm_mu_bar m / 5)) (lm_mu m)).
  { intros m'. unfold lm_update. replace (nleb _ _ && nleb _ _)%bool with true by (symmetry; apply lm_full_spec; reflexivity). rewrite nmax_real. reflexivity. }
  rewrite !F, Ea. cbn [lm_mu lm_mu_bar]. split; rewrite Rmax_right; lra.
Qed.
Lemma lm_good_refuted : exists o m, 0 < lm_mu_min o <= lm_mu0 o /\ lm_mu0 o <= 1 /\ 1 < lm_lam o /\ (exists steps m0, m = lm_run o steps m0) /\ lm_mu m < lm_mu (lm_update o false (1 : R) m).
Proof.
  exists lm5, (lm_run lm5 [1 / 2; 1] (mkLmMem (A := real) 0%R 0%R)). cbn [lm_mu_min lm_mu0 lm_lam lm5]. split; [lra|]. split; [lra|]. split; [lra|]. split; [eauto|]. destruct lm_grows as [E1 E2]. cbv zeta in E1, E2. rewrite E1, E2. lra.
Qed.
(** the term is the scaled parameter times the identity, or nothing *)
Lemma lm_add_val hess (lm sc : R) n (H : matR) r c : lm_add hess lm sc n H r c = H r c + (if (hess && Rltb 0 lm && (r =? c)%nat && (r <? n)%nat)%bool then sc * lm else 0).
Proof.
  unfold lm_add. change (nltb (a := real)) with Rltb. change (n0 (a := real)) with 0. destruct hess, (Rltb 0 lm); cbn [andb]; cbv beta iota; destruct (r =? c)%nat, (r <? n)%nat; cbn [andb]; rr; change (num real) with R in *; lra.
Qed.
(** with a negative cost value the adaptive parameter is negative and no regularisation is added *)
Lemma lm_negative_cost (o : lm_opts real) iter0 (alpha cost lm0 : R) m hess sc n (H : matR) : lm_adaptive o = true -> 0 <= lm_obj_scalar o -> 0 <= lm_mu (lm_update o iter0 alpha m) -> cost <= 0 ->
  let lm := fst (lm_parameter o iter0 alpha cost lm0 m) in lm_add hess lm sc n H = H.
Proof.
  intros Ad Ho Hm Hc. cbv zeta. unfold lm_parameter. rewrite Ad. cbn [fst]. unfold lm_add. change (nltb (a := real)) with Rltb. change (n0 (a := real)) with 0. change (nmul (a := real)) with Rmult.
  destruct (Rltb_spec 0 (lm_obj_scalar o * cost * lm_mu (lm_update o iter0 alpha m))) as [L|L]; [|rewrite andb_false_r; reflexivity]. exfalso.
  assert (lm_obj_scalar o * cost <= 0) by nra. assert (lm_obj_scalar o * cost * lm_mu (lm_update o iter0 alpha m) <= 0) by nra. lra.
Qed.
Lemma lm_case : lm_add true (1 / 2)%R (4 : R) 2 (fun _ _ => 1) 1%nat 1%nat = 3 /\ lm_add true (1 / 2)%R (4 : R) 2 (fun _ _ => 1) 2%nat 2%nat = 1.
Proof. rewrite !lm_add_val. destruct (Rltb_spec 0 (1 / 2)); cbn; lra. Qed.

(** ** parameter gradient *)
Lemma lagr_grad_terminal d (dynp costp conp : nat -> vecR) k :
  lagr_grad_p d dynp costp conp k = sum (oN d) (fun i => dynp i k) + sum (S (oN d)) (fun i => costp i k) + sum (S (oN d)) (fun i => conp i k) - conp (oN d) k.
Proof. rewrite lagr_grad_code, (sum_S (oN d) (fun i => conp i k)). lra. Qed.
Lemma lagr_grad_refuted : exists d dynp costp conp k, lagr_grad_p d dynp costp conp k <> sum (oN d) (fun i => dynp i k) + sum (S (oN d)) (fun i => costp i k) + sum (S (oN d)) (fun i => conp i k).
Proof. exists d1, zero2, zero2, one2, 0%nat. rewrite lagr_grad_terminal. unfold zero2, one2. cbn. lra. Qed.
Lemma lagr_grad_good d (dynp costp conp : nat -> vecR) k : conp (oN d) k = 0 ->
  lagr_grad_p d dynp costp conp k = sum (oN d) (fun i => dynp i k) + sum (S (oN d)) (fun i => costp i k) + sum (S (oN d)) (fun i => conp i k).
Proof. intros E. rewrite lagr_grad_terminal, E. lra. Qed.
