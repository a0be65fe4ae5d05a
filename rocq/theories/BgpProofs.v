(** The module bgp computes what the module bgh computes, except for slack bounds and the Hessian. *)
From Coq Require Import ZArith List Bool Arith Lia Reals Lra.
From Coquelicot Require Import Coquelicot.
From Verif Require Import Arith Vec LinModel BghEvalModel RSum BghEvalSpec BghEvalProofs BghAdjProofs BghEvalTop BgpModel.
Import ListNotations.
Open Scope R_scope.

Section S.
Variable g : bgp_in real.
Notation b := (g_b g).
Notation nv := (bnu b + bnx b)%nat.
Notation nc := (bnb b + bng b + bnh b)%nat.
Definition pstep (m : bgh_mem real) (c : call) : bgh_mem real :=
  p_update_qp_vectors g (c_ux c) (p_update_qp_matrices g (c_ux c) (c_z c) (c_lam c) (c_dz c) m).
Definition prun (D0 : matR) (m : bgh_mem real) (cs : list call) : bgh_mem real := fold_left pstep cs (init_DCt b D0 m).
Lemma prun_snoc D0 m cs c : prun D0 m (cs ++ [c]) = pstep (prun D0 m cs) c.
Proof. unfold prun. rewrite fold_left_app. reflexivity. Qed.

Hypothesis NH : b_compute_hess b = false.
Definition agree (m m' : bgh_mem real) : Prop := m_DCt m = m_DCt m' /\ m_eval m = m_eval m' /\ m_oob m = m_oob m'.
Lemma matrices_agree ux z lam dz m m' : agree m m' -> agree (p_update_qp_matrices g ux z lam dz m) (update_qp_matrices b ux z lam dz m').
Proof.
  intros (E1 & E2 & E3). unfold p_update_qp_matrices, update_qp_matrices, p_nonlinear, nonlinear, z_fun. rewrite NH, E1, E2. cbn [m_DCt m_RSQ m_eval m_fun m_adj m_oob].
  destruct (0 <? bnh b)%nat, (0 <? bnz b)%nat; cbn; unfold agree; cbn; rewrite ?E3, ?orb_false_r; auto.
Qed.
Lemma run_agree D0 m cs : agree (prun D0 m cs) (run b D0 m cs).
Proof.
  induction cs as [|c cs IH] using rev_ind; [unfold agree, prun, run; cbn; auto|].
  rewrite prun_snoc, run_snoc. unfold pstep, step. destruct (matrices_agree (c_ux c) (c_z c) (c_lam c) (c_dz c) _ _ IH) as (A & B & C).
  unfold agree, p_update_qp_vectors, update_qp_vectors. cbn. auto.
Qed.
Lemma p_values_ok n ux ev f : p_values g n ux ev f = fun k => if (k <? n)%nat then b_mask b k * p_values g 0 ux ev f k else p_values g 0 ux ev f k.
Proof. reflexivity. Qed.
Lemma values_p ux ev f : values b ux ev f = p_values g (2 * (nc + bns b)) ux ev f.
Proof. reflexivity. Qed.

Hypothesis R0 : in_range b.
Lemma prun_fun D0 m cs c i : good b -> (i < 2 * (nc + bns b))%nat ->
  m_fun (prun D0 m (cs ++ [c])) i = b_mask b i * ineq b D0 (fun v => b_h b v (c_z c)) i (c_ux c).
Proof.
  intros G Hi. rewrite prun_snoc. unfold pstep, p_update_qp_vectors. cbn [m_fun]. rewrite <- values_p. apply values_val; auto.
  intros k Hk. destruct (matrices_agree (c_ux c) (c_z c) (c_lam c) (c_dz c) _ _ (run_agree D0 m cs)) as (_ & B & _). rewrite B.
  rewrite m_eval_val by exact Hk. apply val_ext; [|exact Hk]. intros r c' Hr Hc. apply run_lin; auto.
Qed.
(** compute_fun: the mask covers the constraints, not the slack bounds *)
Lemma p_compute_fun_ok D0 m cs ux z t : (bnz b = 0 \/ bnh b = 0)%nat ->
  exists M, p_compute_fun g ux z t (prun D0 m cs) = Some M /\
    (forall i, (i < 2 * nc)%nat -> m_fun M i = b_mask b i * ineq b D0 (fun v => b_h b v z) i ux) /\
    (forall i, (2 * nc <= i)%nat -> (i < 2 * (nc + bns b))%nat -> m_fun M i = ineq b D0 (fun v => b_h b v z) i ux).
Proof.
  intro Hz. assert (G : good b) by (unfold good; tauto). unfold p_compute_fun.
  replace ((0 <? bnh b)%nat && (0 <? bnz b)%nat) with false by (symmetry; destruct Hz as [-> | ->]; [apply andb_false_r|reflexivity]).
  destruct (run_agree D0 m cs) as (E & _ & _). rewrite E.
  set (ev := if (0 <? bnh b)%nat then _ else _).
  assert (V : forall k, (k < nc)%nat -> ev k = val b D0 (fun v => b_h b v z) k ux).
  { intros k Hk. unfold ev. rewrite (eval_val b (m_DCt (run b D0 m cs)) (b_h b ux z) ux t k Hk). transitivity (val b (m_DCt (run b D0 m cs)) (fun v => b_h b v z) k ux); [reflexivity|].
    apply val_ext; [|exact Hk]. intros; apply run_lin; auto. }
  eexists; split; [reflexivity|]. cbn [m_fun]. split.
  - intros i Hi. assert (W := values_val b R0 D0 (fun v => b_h b v z) ux ev (m_fun (prun D0 m cs)) i V ltac:(lia)).
    rewrite values_p, p_values_ok in W. rewrite p_values_ok. cbv beta in *. replace (i <? 2 * nc)%nat with true by (symmetry; apply Nat.ltb_lt; lia).
    replace (i <? 2 * (nc + bns b))%nat with true in W by (symmetry; apply Nat.ltb_lt; lia). exact W.
  - intros i H1 H2. unfold p_values. replace (i <? 2 * nc)%nat with false by (symmetry; apply Nat.ltb_ge; lia). unfold daxpyv at 1.
    replace (2 * bnb b + 2 * bng b + 2 * bnh b)%nat with (2 * nc)%nat by lia.
    replace (2 * nc <=? i)%nat with true by (symmetry; apply Nat.leb_le; lia). replace (i <? 2 * nc + 2 * bns b)%nat with true by (symmetry; apply Nat.ltb_lt; lia).
    cbn [andb]. replace (2 * nc + (i - 2 * nc))%nat with i by lia. unfold ineq.
    replace (i <? nc)%nat with false by (symmetry; apply Nat.ltb_ge; lia). replace (i <? 2 * nc)%nat with false by (symmetry; apply Nat.ltb_ge; lia). cbn. lra.
Qed.

(** the adjoint: without the multipliers of the slack bounds when idxs_rev is used *)
Lemma adj_indep D lam adj adj' k : (k < nv + 2 * bns b)%nat -> adjoint b D lam adj k = adjoint b D lam adj' k.
Proof.
  intros Hk. destruct (Nat.lt_ge_cases k nv) as [H|H].
  - rewrite !adj_low by assumption. reflexivity.
  - destruct (Nat.lt_ge_cases k (nv + bns b)) as [H2|H2].
    + replace k with (nv + (k - nv))%nat by lia. rewrite !adj_slack by (auto; lia). reflexivity.
    + replace k with (nv + bns b + (k - (nv + bns b)))%nat by lia. rewrite !adj_slack_upper by (auto; lia). reflexivity.
Qed.
Definition missing (lam : vecR) (k : nat) : R := if b_use_rev b && (nv <=? k)%nat then lam (2 * nc + (k - nv))%nat else 0.
Lemma p_adj D lam adj adj' k : (k < nv + 2 * bns b)%nat -> p_adjoint g D lam adj k = adjoint b D lam adj' k - missing lam k.
Proof.
  intros Hk. rewrite (adj_indep D lam adj' adj k Hk). unfold p_adjoint, adjoint, missing. cbv zeta. destruct (b_use_rev b); cbn [andb]; [|lra].
  set (s := slack_rev _ _ _). unfold daxpyv. replace (k <? nv + 2 * bns b)%nat with true by (symmetry; apply Nat.ltb_lt; lia).
  rewrite andb_true_r. destruct (Nat.leb_spec nv k); cbn; [|lra]. replace (nv + (k - nv))%nat with k by lia.
  replace (2 * bnb b + 2 * bng b + 2 * bnh b + (k - nv))%nat with (2 * nc + (k - nv))%nat by lia.
  replace (bnb b + (bnb b + 0) + (bng b + (bng b + 0)) + (bnh b + (bnh b + 0)) + (k - nv))%nat with (2 * nc + (k - nv))%nat by lia.
  replace (nc + (nc + 0) + (k - nv))%nat with (2 * nc + (k - nv))%nat by lia. lra.
Qed.
Lemma prun_adj D0 m cs c k : (k < nv + 2 * bns b)%nat ->
  m_adj (prun D0 m (cs ++ [c])) k = m_adj (run b D0 m (cs ++ [c])) k - missing (c_lam c) k.
Proof.
  intros Hk. rewrite prun_snoc, run_snoc. unfold pstep, step, p_update_qp_vectors, update_qp_vectors. cbn [m_adj].
  destruct (matrices_agree (c_ux c) (c_z c) (c_lam c) (c_dz c) _ _ (run_agree D0 m cs)) as (A & _ & _).
  unfold p_update_qp_matrices, update_qp_matrices in *. cbn [m_adj m_DCt] in *. rewrite A. apply p_adj. exact Hk.
Qed.
Lemma p_adjoint_derivative D0 m cs c (zf : vecR -> vecR) : good b -> b_use_rev b = false \/ (forall j, (j < 2 * bns b)%nat -> c_lam c (2 * nc + j)%nat = 0) ->
  c_z c = zf (c_ux c) -> is_jac b (c_ux c) (c_z c) -> is_sens b zf (c_dz c) (c_ux c) ->
  (forall i, (i < 2 * (nc + bns b))%nat -> c_lam c i * b_mask b i = c_lam c i) ->
  forall d : vecR,
    is_derive (fun t => sum (2 * (nc + bns b)) (fun i => c_lam c i * (b_mask b i * ineq b D0 (fun v => b_h b v (zf v)) i (fun r => c_ux c r + t * d r)))) 0
      (- sum (nv + 2 * bns b) (fun k => m_adj (prun D0 m (cs ++ [c])) k * d k)).
Proof.
  intros G H Hz HJ HS HM d.
  rewrite (sum_ext (nv + 2 * bns b) _ (fun k => m_adj (run b D0 m (cs ++ [c])) k * d k)).
  - apply adjoint_derivative; auto.
  - intros k Hk. rewrite prun_adj by exact Hk. assert (E : missing (c_lam c) k = 0).
    { unfold missing. destruct H as [H|H]; [rewrite H; reflexivity|]. destruct (b_use_rev b); cbn [andb]; [|reflexivity]. destruct (Nat.leb_spec nv k); [|reflexivity]. apply H. lia. }
    rewrite E. lra.
Qed.

Lemma p_adjoint_exact D0 m cs c (zf : vecR -> vecR) : good b ->
  c_z c = zf (c_ux c) -> is_jac b (c_ux c) (c_z c) -> is_sens b zf (c_dz c) (c_ux c) ->
  (forall i, (i < 2 * (nc + bns b))%nat -> c_lam c i * b_mask b i = c_lam c i) ->
  (forall d : vecR,
    is_derive (fun t => sum (2 * (nc + bns b)) (fun i => c_lam c i * (b_mask b i * ineq b D0 (fun v => b_h b v (zf v)) i (fun r => c_ux c r + t * d r)))) 0
      (- sum (nv + 2 * bns b) (fun k => m_adj (prun D0 m (cs ++ [c])) k * d k))) <->
  b_use_rev b = false \/ (forall j, (j < 2 * bns b)%nat -> c_lam c (2 * nc + j)%nat = 0).
Proof.
  intros G Hz HJ HS HM. split; [|intros H d; now apply p_adjoint_derivative].
  intros H. destruct (b_use_rev b) eqn:U; [right|now left]. intros j Hj.
  set (d := fun k => if (k =? nv + j)%nat then 1 else 0).
  pose proof (is_derive_unique _ _ _ (H d)) as E1. pose proof (is_derive_unique _ _ _ (adjoint_derivative b R0 D0 m cs c zf G Hz HJ HS HM d)) as E2.
  rewrite E1 in E2. apply (f_equal Ropp) in E2. rewrite !Ropp_involutive in E2.
  assert (P : forall v : vecR, sum (nv + 2 * bns b) (fun k => v k * d k) = v (nv + j)%nat).
  { intros v. rewrite (sum_one (nv + 2 * bns b) (nv + j)%nat); [unfold d; rewrite Nat.eqb_refl; lra|lia|].
    intros k Hk N. unfold d. destruct (Nat.eqb_spec k (nv + j)); [contradiction|lra]. }
  rewrite !P in E2. rewrite prun_adj in E2 by lia. unfold missing in E2. rewrite U in E2. cbn [andb] in E2.
  replace (nv <=? nv + j)%nat with true in E2 by (symmetry; apply Nat.leb_le; lia). replace (nv + j - nv)%nat with j in E2 by lia. lra.
Qed.

(** ** the Hessian contribution *)
Definition curv (ux z lam : vecR) (r c : nat) : R :=
  sum (bnh b) (fun i => lam (2 * (bnb b + bng b) + bnh b + i)%nat * sum (g_nr g) (fun q => sum (g_nr g) (fun p => g_Jr g ux z r p * g_Hr g ux z (g_nr g * i + q)%nat p) * g_Jr g ux z c q)).
Lemma scqp_loop ux z lam n Q r c : 
  loop n (scqp g ux z lam) Q r c = if (r <? nv)%nat && (c <=? r)%nat then
    Q r c + sum n (fun i => lam (2 * (bnb b + bng b) + bnh b + i)%nat * sum (g_nr g) (fun q => sum (g_nr g) (fun p => g_Jr g ux z r p * g_Hr g ux z (g_nr g * i + q)%nat p) * g_Jr g ux z c q))
  else Q r c.
Proof.
  induction n as [|n IH]; cbn [loop sum].
  - destruct ((r <? nv)%nat && (c <=? r)%nat); cbn; lra.
  - transitivity (if (r <? nv)%nat && (c <=? r)%nat then 1 * loop n (scqp g ux z lam) Q r c + 1 * sum (g_nr g) (fun q =>
      lam (2 * (bnb b + bng b) + bnh b + n)%nat * sum (g_nr g) (fun p => g_Jr g ux z r p * g_Hr g ux z (g_nr g * n + q)%nat p) * g_Jr g ux z c q)
      else loop n (scqp g ux z lam) Q r c); [reflexivity|].
    destruct ((r <? nv)%nat && (c <=? r)%nat); [|exact IH]. rewrite IH, !Rmult_1_l, Rplus_assoc. f_equal. f_equal.
    rewrite <- sum_scal. apply sum_ext. intros q Hq. ring.
Qed.
Lemma prun_hess D0 m cs c r k :
  m_RSQ (prun D0 m (cs ++ [c])) r k = m_RSQ (prun D0 m cs) r k + (if (r <? nv)%nat && (k <=? r)%nat then curv (c_ux c) (c_z c) (c_lam c) r k else 0).
Proof.
  rewrite prun_snoc. unfold pstep, p_update_qp_vectors, p_update_qp_matrices. cbn [m_RSQ]. 
  assert (E : m_RSQ (p_nonlinear g (c_ux c) (c_z c) (c_dz c) (mkBM (m_DCt (prun D0 m cs)) (m_RSQ (prun D0 m cs)) (lin_eval b (m_DCt (prun D0 m cs)) (c_ux c) (box_eval b (c_ux c) (m_eval (prun D0 m cs)))) (m_fun (prun D0 m cs)) (m_adj (prun D0 m cs)) (m_oob (prun D0 m cs)))) = m_RSQ (prun D0 m cs)).
  { unfold p_nonlinear. destruct (0 <? bnh b)%nat; reflexivity. }
  rewrite E, scqp_loop. unfold curv. destruct ((r <? nv)%nat && (k <=? r)%nat); lra.
Qed.
(** with convex phi and nonnegative upper multipliers the added form is nonnegative, and the added matrix symmetric *)
Definition convex_phi (ux z : vecR) : Prop := forall i, (i < bnh b)%nat ->
  (forall p q, (p < g_nr g)%nat -> (q < g_nr g)%nat -> g_Hr g ux z (g_nr g * i + p)%nat q = g_Hr g ux z (g_nr g * i + q)%nat p) /\
  (forall v : vecR, 0 <= sum (g_nr g) (fun p => sum (g_nr g) (fun q => v p * g_Hr g ux z (g_nr g * i + p)%nat q * v q))).
Lemma quad_form (n m : nat) (J : matR) (H : matR) (v : vecR) :
  sum n (fun r => sum n (fun c => v r * sum m (fun q => sum m (fun p => J r p * H q p) * J c q) * v c)) =
  sum m (fun q => sum m (fun p => sum n (fun r => v r * J r q) * H q p * sum n (fun r => v r * J r p))).
Proof.
  set (w := fun q => sum n (fun r => v r * J r q)).
  transitivity (sum n (fun r => sum m (fun q => v r * sum m (fun p => J r p * H q p) * w q))).
  { apply sum_ext. intros r Hr. rewrite <- (sum_ext n (fun c => sum m (fun q => v r * sum m (fun p => J r p * H q p) * (v c * J c q)))).
    - rewrite sum_swap. apply sum_ext. intros q Hq. rewrite sum_scal. reflexivity.
    - intros c Hc. set (F := fun q => sum m (fun p => J r p * H q p) * J c q). replace (v r * sum m F * v c) with (v r * v c * sum m F) by ring.
      rewrite <- sum_scal. apply sum_ext. intros q Hq. unfold F. ring. }
  rewrite sum_swap. apply sum_ext. intros q Hq. 
  transitivity (sum n (fun r => v r * sum m (fun p => J r p * H q p)) * w q).
  { rewrite <- sum_scal_r. apply sum_ext. intros; ring. }
  transitivity (sum m (fun p => w p * H q p) * w q).
  { f_equal. rewrite <- (sum_ext n (fun r => sum m (fun p => v r * J r p * H q p))).
    - rewrite sum_swap. apply sum_ext. intros p Hp. unfold w. rewrite <- sum_scal_r. reflexivity.
    - intros r Hr. rewrite <- sum_scal. apply sum_ext. intros; ring. }
  transitivity (sum m (fun p => w q * H q p * w p)); [|reflexivity]. rewrite <- (sum_scal_r m (w q) (fun p => w p * H q p)). apply sum_ext. intros. ring.
Qed.
Lemma curv_psd ux z lam : convex_phi ux z -> (forall i, (i < bnh b)%nat -> 0 <= lam (2 * (bnb b + bng b) + bnh b + i)%nat) ->
  (forall v : vecR, 0 <= sum nv (fun r => sum nv (fun c => v r * curv ux z lam r c * v c))) /\
  (forall r c, curv ux z lam r c = curv ux z lam c r).
Proof.
  intros HC HL. split.
  - intros v. 
    rewrite (sum_ext nv _ (fun r => sum (bnh b) (fun i => lam (2 * (bnb b + bng b) + bnh b + i)%nat *
      sum nv (fun c => v r * sum (g_nr g) (fun q => sum (g_nr g) (fun p => g_Jr g ux z r p * g_Hr g ux z (g_nr g * i + q)%nat p) * g_Jr g ux z c q) * v c)))).
    + rewrite sum_swap. apply sum_nonneg. intros i Hi. rewrite sum_scal. apply Rmult_le_pos; [auto|].
      rewrite (quad_form nv (g_nr g) (g_Jr g ux z) (fun q p => g_Hr g ux z (g_nr g * i + q)%nat p) v). apply (proj2 (HC i Hi)).
    + intros r Hr. rewrite <- (sum_ext nv (fun c => sum (bnh b) (fun i => lam (2 * (bnb b + bng b) + bnh b + i)%nat *
        (v r * sum (g_nr g) (fun q => sum (g_nr g) (fun p => g_Jr g ux z r p * g_Hr g ux z (g_nr g * i + q)%nat p) * g_Jr g ux z c q) * v c)))).
      * rewrite sum_swap. apply sum_ext. intros i Hi. rewrite sum_scal. reflexivity.
      * intros c Hc. unfold curv. match goal with |- _ = v r * sum ?n ?F * v c => replace (v r * sum n F * v c) with (v r * v c * sum n F) by ring end.
        rewrite <- sum_scal. apply sum_ext. intros; ring.
  - intros r c. unfold curv. apply sum_ext. intros i Hi. f_equal.
    rewrite (sum_ext (g_nr g) _ (fun q => sum (g_nr g) (fun p => g_Jr g ux z r p * g_Hr g ux z (g_nr g * i + q)%nat p * g_Jr g ux z c q))) by (intros; rewrite <- sum_scal_r; reflexivity).
    rewrite sum_swap. rewrite (sum_ext (g_nr g) (fun q => sum (g_nr g) (fun p => g_Jr g ux z c p * _) * _) (fun q => sum (g_nr g) (fun p => g_Jr g ux z c p * g_Hr g ux z (g_nr g * i + q)%nat p * g_Jr g ux z r q))) by (intros; rewrite <- sum_scal_r; reflexivity).
    apply sum_ext. intros p Hp. apply sum_ext. intros q Hq. rewrite (proj1 (HC i Hi) p q Hp Hq). ring.
Qed.
End S.
