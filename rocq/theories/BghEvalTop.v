From Coq Require Import ZArith List Bool Lia Reals Lra FunctionalExtensionality.
From Coquelicot Require Import Coquelicot.
From Verif Require Import Arith Vec LinModel Poly LinProofs OcpProofs BghEvalModel RSum BghEvalSpec BghEvalProofs BghAdjProofs.
Import ListNotations.
Open Scope R_scope.

Section S.
Variable b : bgh_in real.
Notation nv := (bnu b + bnx b)%nat.
Notation nc := (bnb b + bng b + bnh b)%nat.

Lemma step_DCt m c : m_DCt (step b m c) = m_DCt (update_qp_matrices b (c_ux c) (c_z c) (c_lam c) (c_dz c) m). Proof. reflexivity. Qed.
Lemma run_snoc D0 m cs c : run b D0 m (cs ++ [c]) = step b (run b D0 m cs) c.
Proof. unfold run. rewrite fold_left_app. reflexivity. Qed.
Lemma run_lin D0 m cs r c : good b -> (r < nv)%nat -> (c < bng b)%nat -> m_DCt (run b D0 m cs) r c = D0 r c.
Proof.
  intros G Hr Hc. induction cs as [|c0 cs IH] using rev_ind.
  - unfold run. cbn [fold_left init_DCt m_DCt]. nb. reflexivity.
  - rewrite run_snoc, step_DCt, DCt_lin; auto.
Qed.
Lemma jacobian_ok D0 m cs c : good b ->
  (forall r j, (r < nv)%nat -> (j < bng b)%nat -> m_DCt (run b D0 m (cs ++ [c])) r j = D0 r j) /\
  (forall r j, (r < nv)%nat -> (j < bnh b)%nat -> m_DCt (run b D0 m (cs ++ [c])) r (bng b + j)%nat =
     b_Jux b (c_ux c) (c_z c) r j + sum (bnz b) (fun k => c_dz c r k * b_Jz b (c_ux c) (c_z c) k j)).
Proof.
  intro G. split; intros r j Hr Hj; [apply run_lin; auto|]. rewrite run_snoc, step_DCt, DCt_h; auto.
Qed.
Lemma jacobian_exact D0 m cs c r j : m_DCt (run b D0 m (cs ++ [c])) r j =
  (if (r <? nv)%nat && (bng b <=? j)%nat && (j <? bng b + bnh b)%nat then b_Jux b (c_ux c) (c_z c) r (j - bng b)%nat else m_DCt (run b D0 m cs) r j) +
  (if (0 <? bnh b)%nat && (bng b <=? r)%nat && (r <? bng b + nv)%nat && (j <? bnh b)%nat then sum (bnz b) (fun k => c_dz c (r - bng b)%nat k * b_Jz b (c_ux c) (c_z c) k j) else 0).
Proof. rewrite run_snoc, step_DCt. apply DCt_exact. Qed.
Lemma run_oob D0 m cs c : (0 < bnh b)%nat -> (0 < nv)%nat -> (0 < bng b)%nat -> m_oob (run b D0 m (cs ++ [c])) = true.
Proof.
  intros A B C. rewrite run_snoc. unfold step, update_qp_vectors. cbn [m_oob]. rewrite oob_exact. rewrite !(proj2 (Nat.ltb_lt 0 _)) by lia. apply orb_true_r.
Qed.
Lemma run_in D0 m cs : m_oob m = false -> (bnh b = 0 \/ nv = 0 \/ bng b = 0)%nat -> m_oob (run b D0 m cs) = false.
Proof.
  intros H G. induction cs as [|c cs IH] using rev_ind; [exact H|]. rewrite run_snoc. unfold step, update_qp_vectors. cbn [m_oob]. rewrite oob_exact, IH. cbn [orb].
  destruct G as [G|[G|G]]; rewrite G; cbn [Nat.ltb Nat.leb andb]; rewrite ?andb_false_r; reflexivity.
Qed.

Hypothesis R0 : in_range b.
Lemma val_ext C C' h i v : (forall r c, (r < nv)%nat -> (c < bng b)%nat -> C r c = C' r c) -> (i < nc)%nat -> val b C h i v = val b C' h i v.
Proof. intros H Hi. unfold val. nb; try reflexivity. apply sum_ext. intros k Hk. rewrite H by lia. reflexivity. Qed.
Lemma run_fun D0 m cs c i : good b -> (i < 2 * (nc + bns b))%nat ->
  m_fun (run b D0 m (cs ++ [c])) i = b_mask b i * ineq b D0 (fun v => b_h b v (c_z c)) i (c_ux c).
Proof.
  intros G Hi. rewrite run_snoc. unfold step, update_qp_vectors. cbn [m_fun]. apply values_val; auto.
  intros k Hk. rewrite m_eval_val by exact Hk. apply val_ext; [|exact Hk]. intros r c' Hr Hc. apply run_lin; auto.
Qed.
Lemma compute_fun_ok D0 m cs ux z t : (bnz b = 0 \/ bnh b = 0)%nat ->
  exists M, compute_fun b ux z t (run b D0 m cs) = Some M /\ forall i, (i < 2 * (nc + bns b))%nat -> m_fun M i = b_mask b i * ineq b D0 (fun v => b_h b v z) i ux.
Proof.
  intro Hz. assert (G : good b) by (unfold good; tauto). unfold compute_fun.
  replace ((0 <? bnh b)%nat && (0 <? bnz b)%nat) with false by (symmetry; destruct Hz as [-> | ->]; [apply andb_false_r|reflexivity]).
  eexists; split; [reflexivity|]. cbn [m_fun]. intros i Hi. apply values_val; auto. intros k Hk.
  rewrite (eval_val b (m_DCt (run b D0 m cs)) (b_h b ux z) ux t k Hk). transitivity (val b (m_DCt (run b D0 m cs)) (fun v => b_h b v z) k ux); [reflexivity|].
  apply val_ext; [|exact Hk]. intros; apply run_lin; auto.
Qed.

Lemma adjoint_derivative D0 m cs c (zf : vecR -> vecR) : good b ->
  c_z c = zf (c_ux c) -> is_jac b (c_ux c) (c_z c) -> is_sens b zf (c_dz c) (c_ux c) ->
  (forall i, (i < 2 * (nc + bns b))%nat -> c_lam c i * b_mask b i = c_lam c i) ->
  forall d : vecR, is_derive (fun t => sum (2 * (nc + bns b)) (fun i => c_lam c i * (b_mask b i * ineq b D0 (fun v => b_h b v (zf v)) i (fun r => c_ux c r + t * d r)))) 0
    (- sum (nv + 2 * bns b) (fun k => m_adj (run b D0 m (cs ++ [c])) k * d k)).
Proof.
  intros G Ez HJ HS HM d.
  set (dh := fun j => sum nv (fun r => b_Jux b (c_ux c) (c_z c) r j * d r) + sum (bnz b) (fun k => b_Jz b (c_ux c) (c_z c) k j * sum nv (fun r => c_dz c r k * d r))).
  assert (E0 : (fun r => c_ux c r + 0 * d r) = c_ux c) by (apply functional_extensionality; intro; lra).
  assert (H1 : forall j, (j < bnh b)%nat -> is_derive (fun t => b_h b (fun r => c_ux c r + t * d r) (zf (fun r => c_ux c r + t * d r)) j) 0 (dh j)).
  { intros j Hj. unfold dh. apply (HJ (fun t r => c_ux c r + t * d r) (fun t => zf (fun r => c_ux c r + t * d r)) d (fun k => sum nv (fun r => c_dz c r k * d r)) j Hj).
    - intro k. lra.
    - intro k. rewrite E0, Ez. reflexivity.
    - intro k. apply line_derive.
    - intros k Hk. apply HS. exact Hk. }
  rewrite run_snoc. unfold step, update_qp_vectors. cbn [m_adj]. set (m1 := run b D0 m cs).
  set (D := m_DCt (update_qp_matrices b (c_ux c) (c_z c) (c_lam c) (c_dz c) m1)).
  assert (EA : exists adj, m_adj (update_qp_matrices b (c_ux c) (c_z c) (c_lam c) (c_dz c) m1) = adjoint b D (c_lam c) adj).
  { unfold D, update_qp_matrices. cbn [m_adj m_DCt]. eexists. reflexivity. }
  destruct EA as (adj & ->).
  rewrite <- (adjoint_ok b R0 D0 dh D (c_lam c) d adj).
  - apply (is_derive_sum (2 * (nc + bns b)) (fun i t => c_lam c i * (b_mask b i * ineq b D0 (fun v => b_h b v (zf v)) i (fun r => c_ux c r + t * d r))) (fun i => c_lam c i * dineq b D0 dh d i)).
    intros i Hi. apply is_derive_val with (l := c_lam c i * (b_mask b i * dineq b D0 dh d i)); [|rewrite <- Rmult_assoc, HM by exact Hi; reflexivity].
    apply (scal_derive (c_lam c i) (fun t => b_mask b i * ineq b D0 (fun v => b_h b v (zf v)) i (fun r => c_ux c r + t * d r))).
    apply (scal_derive (b_mask b i) (fun t => ineq b D0 (fun v => b_h b v (zf v)) i (fun r => c_ux c r + t * d r))).
    apply (ineq_derive b D0 (fun v => b_h b v (zf v)) (c_ux c) d dh i); [exact H1|exact Hi].
  - intros r j Hr Hj. unfold D, m1. rewrite DCt_lin; auto. apply run_lin; auto.
  - intros j Hj. unfold D. rewrite (sum_ext nv _ (fun r => b_Jux b (c_ux c) (c_z c) r j * d r + sum (bnz b) (fun k => b_Jz b (c_ux c) (c_z c) k j * (c_dz c r k * d r)))).
    2: { intros r Hr. rewrite DCt_h by auto. unfold zpart. rewrite Rmult_plus_distr_r. f_equal. rewrite <- sum_scal_r. apply sum_ext. intros; lra. }
    rewrite sum_plus, (sum_swap nv (bnz b)). unfold dh. f_equal. apply sum_ext. intros k Hk. now rewrite sum_scal.
Qed.

(** *** the two declarations of slacks *)
Hypothesis SS : same_slacks b.
Lemma same_relax o i v : (i < nc)%nat -> relax (with_rev b true) o i v = relax (with_rev b false) o i v.
Proof.
  intro Hi. destruct R0 as (_ & _ & R2). specialize (R2 i Hi). unfold relax. cbn [b_use_rev with_rev b_idxs_rev b_idxs bnu bnx bns].
  destruct (Z.leb_spec 0 (b_idxs_rev b i)).
  - rewrite (sum_one (bns b) (Z.to_nat (b_idxs_rev b i))); [| |].
    + rewrite (proj2 (Nat.eqb_eq _ _)); [reflexivity|]. apply (SS i (Z.to_nat (b_idxs_rev b i)) Hi); lia.
    + lia.
    + intros j H1 H2. destruct (Nat.eqb_spec (b_idxs b j) i); [|reflexivity]. exfalso. apply H2. apply (SS i j Hi H1) in e. rewrite e. lia.
  - symmetry. apply sum_zero. intros j Hj. destruct (Nat.eqb_spec (b_idxs b j) i); [|reflexivity]. apply (SS i j Hi Hj) in e. lia.
Qed.
Lemma same_relaxed_by o lam j : (j < bns b)%nat -> relaxed_by (with_rev b true) o lam j = relaxed_by (with_rev b false) o lam j.
Proof.
  intro Hj. destruct R0 as (_ & R1 & _). specialize (R1 j Hj). unfold relaxed_by. cbn [b_use_rev with_rev b_idxs_rev b_idxs bnu bnx bns bnb bng bnh].
  rewrite (sum_one nc (b_idxs b j)); [|exact R1|].
  - rewrite (proj1 (SS (b_idxs b j) j R1 Hj) eq_refl), Z.eqb_refl. reflexivity.
  - intros i H1 H2. destruct (Z.eqb_spec (b_idxs_rev b i) (Z.of_nat j)); [|reflexivity]. apply (SS i j H1 Hj) in e. congruence.
Qed.
Lemma same_ineq C h i v : (i < 2 * (nc + bns b))%nat -> ineq (with_rev b true) C h i v = ineq (with_rev b false) C h i v.
Proof.
  intro Hi. unfold ineq. cbn [with_rev bnb bng bnh bnu bnx bns b_d].
  change (val (with_rev b true) C h) with (val b C h). change (val (with_rev b false) C h) with (val b C h). fold (with_rev b true) (with_rev b false).
  destruct (Nat.ltb_spec i nc); [rewrite same_relax by lia; reflexivity|].
  destruct (Nat.ltb_spec i (2 * nc)); [rewrite same_relax by lia; reflexivity|reflexivity].
Qed.
Lemma same_run_DCt D0 m cs : m_DCt (run (with_rev b true) D0 m cs) = m_DCt (run (with_rev b false) D0 m cs).
Proof.
  induction cs as [|c cs IH] using rev_ind; [reflexivity|]. unfold run. rewrite !fold_left_app. cbn [fold_left]. fold (run (with_rev b true) D0 m cs). fold (run (with_rev b false) D0 m cs).
  apply functional_extensionality; intro r; apply functional_extensionality; intro k.
  change (m_DCt (update_qp_matrices (with_rev b true) (c_ux c) (c_z c) (c_lam c) (c_dz c) (run (with_rev b true) D0 m cs)) r k = m_DCt (update_qp_matrices (with_rev b false) (c_ux c) (c_z c) (c_lam c) (c_dz c) (run (with_rev b false) D0 m cs)) r k).
  rewrite !DCt_exact. rewrite IH. reflexivity.
Qed.
End S.

Lemma same_all b D0 m cs c : good b -> in_range b -> same_slacks b ->
  (forall k, (k < bnu b + bnx b + 2 * bns b)%nat -> m_adj (run (with_rev b true) D0 m (cs ++ [c])) k = m_adj (run (with_rev b false) D0 m (cs ++ [c])) k) /\
  (forall i, (i < 2 * (bnb b + bng b + bnh b + bns b))%nat -> m_fun (run (with_rev b true) D0 m (cs ++ [c])) i = m_fun (run (with_rev b false) D0 m (cs ++ [c])) i).
Proof.
  intros G R0 SS. split.
  - intros k Hk. rewrite !run_snoc. pose proof (same_run_DCt b D0 m (cs ++ [c])) as E. rewrite !run_snoc in E.
    change (adjoint (with_rev b true) (m_DCt (step (with_rev b true) (run (with_rev b true) D0 m cs) c)) (c_lam c) (m_adj (z_fun (with_rev b true) (c_ux c) (c_z c) (c_dz c) (nonlinear (with_rev b true) (c_ux c) (c_z c) (c_lam c) (c_dz c)
      (mkBM (m_DCt (run (with_rev b true) D0 m cs)) (m_RSQ (run (with_rev b true) D0 m cs)) (lin_eval (with_rev b true) (m_DCt (run (with_rev b true) D0 m cs)) (c_ux c) (box_eval (with_rev b true) (c_ux c) (m_eval (run (with_rev b true) D0 m cs)))) (m_fun (run (with_rev b true) D0 m cs)) (m_adj (run (with_rev b true) D0 m cs)) (m_oob (run (with_rev b true) D0 m cs)))))) k
    = adjoint (with_rev b false) (m_DCt (step (with_rev b false) (run (with_rev b false) D0 m cs) c)) (c_lam c) (m_adj (z_fun (with_rev b false) (c_ux c) (c_z c) (c_dz c) (nonlinear (with_rev b false) (c_ux c) (c_z c) (c_lam c) (c_dz c)
      (mkBM (m_DCt (run (with_rev b false) D0 m cs)) (m_RSQ (run (with_rev b false) D0 m cs)) (lin_eval (with_rev b false) (m_DCt (run (with_rev b false) D0 m cs)) (c_ux c) (box_eval (with_rev b false) (c_ux c) (m_eval (run (with_rev b false) D0 m cs)))) (m_fun (run (with_rev b false) D0 m cs)) (m_adj (run (with_rev b false) D0 m cs)) (m_oob (run (with_rev b false) D0 m cs)))))) k).
    rewrite E. destruct (Nat.ltb_spec k (bnu b + bnx b)).
    + rewrite !(adj_low (with_rev b _)) by exact H. reflexivity.
    + destruct (Nat.ltb_spec k (bnu b + bnx b + bns b)).
      * replace k with (bnu b + bnx b + (k - (bnu b + bnx b)))%nat by lia. rewrite (adj_slack (with_rev b true)), (adj_slack (with_rev b false)); [|exact R0|cbn; lia|exact R0|cbn; lia].
        f_equal. apply same_relaxed_by; [exact R0|exact SS|lia].
      * replace k with (bnu b + bnx b + bns b + (k - (bnu b + bnx b + bns b)))%nat by lia. rewrite (adj_slack_upper (with_rev b true)), (adj_slack_upper (with_rev b false)); [|exact R0|cbn; lia|exact R0|cbn; lia].
        f_equal. apply same_relaxed_by; [exact R0|exact SS|lia].
  - intros i Hi. rewrite (run_fun (with_rev b true)), (run_fun (with_rev b false)); [|exact R0|exact G|exact Hi|exact R0|exact G|exact Hi].
    f_equal. apply same_ineq; auto.
Qed.
