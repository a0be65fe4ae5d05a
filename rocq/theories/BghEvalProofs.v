From Coq Require Import ZArith List Bool Lia Reals Lra.
From Coquelicot Require Import Coquelicot.
From Verif Require Import Arith Vec LinModel Poly LinProofs OcpProofs BghEvalModel RSum BghEvalSpec.
Open Scope R_scope.

(** a loop whose steps add to the entries *)
Lemma acc_loop n (F : nat -> vecR -> vecR) (g : nat -> nat -> R) v k : (forall j w k, (j < n)%nat -> F j w k = w k + g j k) -> loop n F v k = v k + sum n (fun j => g j k).
Proof. intro H. induction n as [|n IH]; cbn [loop]; [cbn; lra|]. rewrite H, IH, sum_S by (try lia; intros; apply H; lia). lra. Qed.
Definition ind (a c : nat) (x : R) : R := if (a =? c)%nat then x else 0.
Lemma add_entry (v : vecR) p a k : vset (A := real) v p (v p + a) k = v k + ind p k a.
Proof. unfold vset, ind. rewrite (Nat.eqb_sym k p). destruct (Nat.eqb_spec p k); [subst; reflexivity|lra]. Qed.
Lemma sub_entry (v : vecR) p a k : vset (A := real) v p (nsub (a := real) (v p) a) k = v k + ind p k (- a).
Proof. rr. replace (v p - a) with (v p + - a) by lra. apply add_entry. Qed.
Lemma sum_ind n a (f : nat -> R) : sum n (fun k => ind a k (f k)) = if (a <? n)%nat then f a else 0.
Proof.
  destruct (Nat.ltb_spec a n).
  - rewrite (sum_one n a) by (auto; intros k H1 H2; unfold ind; destruct (Nat.eqb_spec a k); congruence). unfold ind. now rewrite Nat.eqb_refl.
  - apply sum_zero. intros k Hk. unfold ind. destruct (Nat.eqb_spec a k); [lia|reflexivity].
Qed.
Lemma dvecad_sp_val m al (x : vecR) xi idx (z : vecR) zi k :
  dvecad_sp (A := real) m al x xi idx z zi k = z k + sum m (fun j => ind (zi + idx j) k (al * x (xi + j)%nat)).
Proof. unfold dvecad_sp. apply (acc_loop m _ (fun j k => ind (zi + idx j) k (al * x (xi + j)%nat))). intros j w k' _. apply add_entry. Qed.
Lemma dvecex_sp_val m al idx (x : vecR) xi (z : vecR) zi k :
  dvecex_sp (A := real) m al idx x xi z zi k = if (zi <=? k)%nat && (k <? zi + m)%nat then al * x (xi + idx (k - zi))%nat else z k.
Proof.
  unfold dvecex_sp. induction m as [|m IH]; cbn [loop].
  - destruct (Nat.leb_spec zi k); destruct (Nat.ltb_spec k (zi + 0)); cbn [andb]; try reflexivity; lia.
  - unfold vset at 1. rewrite IH. destruct (Nat.eqb_spec k (zi + m)).
    + subst. rewrite (proj2 (Nat.leb_le _ _)), (proj2 (Nat.ltb_lt _ _)) by lia. cbn [andb]. now replace (zi + m - zi)%nat with m by lia.
    + destruct (Nat.leb_spec zi k); destruct (Nat.ltb_spec k (zi + m)); destruct (Nat.ltb_spec k (zi + S m)); cbn [andb]; try reflexivity; lia.
Qed.

Ltac nb := repeat match goal with |- context [(?a <? ?b)%nat] => destruct (Nat.ltb_spec a b); try lia | |- context [(?a <=? ?b)%nat] => destruct (Nat.leb_spec a b); try lia end; cbn [andb orb negb].

Section S.
Variable b : bgh_in real.
Notation nv := (bnu b + bnx b)%nat.
Notation nc := (bnb b + bng b + bnh b)%nat.
Hypothesis R0 : in_range b.

(** *** Jacobian *)
Lemma z_jac_val (dz Jz : matR) r c : z_jac b dz Jz r c = sum (bnz b) (fun k => dz r k * Jz k c).
Proof. unfold z_jac. rrs. lra. Qed.
Definition zpart (ux z : vecR) (dz : matR) r c : R := sum (bnz b) (fun k => dz r k * b_Jz b ux z k c).
Lemma DCt_exact ux z lam dz m r c : m_DCt (update_qp_matrices b ux z lam dz m) r c =
  (if (r <? nv)%nat && (bng b <=? c)%nat && (c <? bng b + bnh b)%nat then b_Jux b ux z r (c - bng b)%nat else m_DCt m r c) +
  (if (0 <? bnh b)%nat && (bng b <=? r)%nat && (r <? bng b + nv)%nat && (c <? bnh b)%nat then zpart ux z dz (r - bng b) c else 0).
Proof.
  unfold update_qp_matrices, z_fun, nonlinear. cbn [m_DCt m_RSQ m_eval m_fun m_adj m_oob].
  destruct (Nat.ltb_spec 0 (bnh b)).
  - destruct (b_compute_hess b); unfold dgead; cbn [fst snd]; destruct (0 <? bnz b)%nat; cbn [m_DCt];
    unfold h_jac; rr; rewrite z_jac_val, Nat.sub_0_r; cbn [Nat.add andb]; change (0 <=? c)%nat with true; rewrite andb_true_r;
    fold (zpart ux z dz (r - bng b) c); destruct ((bng b <=? r)%nat && (r <? bng b + nv)%nat && (c <? bnh b)%nat); rewrite ?Rmult_1_l, ?Rplus_0_r; reflexivity.
  - cbn [andb]. destruct (0 <? bnz b)%nat; cbn [m_DCt]; replace ((r <? nv)%nat && (bng b <=? c)%nat && (c <? bng b + bnh b)%nat) with false;
    try lra; symmetry; destruct (r <? nv)%nat; cbn [andb]; try reflexivity; nb; reflexivity.
Qed.
Lemma oob_exact ux z lam dz m : m_oob (update_qp_matrices b ux z lam dz m) = m_oob m || ((0 <? bnh b)%nat && (0 <? nv)%nat && (0 <? bng b)%nat).
Proof.
  unfold update_qp_matrices, z_fun, nonlinear. cbn [m_DCt m_RSQ m_eval m_fun m_adj m_oob].
  destruct (Nat.ltb_spec 0 (bnh b)); cbn [andb]; [|destruct (0 <? bnz b)%nat; cbn [m_oob]; now rewrite orb_false_r].
  destruct (b_compute_hess b); unfold dgead; cbn [fst snd]; destruct (0 <? bnz b)%nat; cbn [m_oob]; destruct (m_oob m); cbn [orb]; try reflexivity;
  nb; reflexivity.
Qed.

(** *** function values *)
Definition good : Prop := bnz b = 0%nat \/ bng b = 0%nat \/ bnh b = 0%nat.
Lemma zpart_0 ux z dz r c : bnz b = 0%nat -> zpart ux z dz r c = 0.
Proof. intro E. unfold zpart. rewrite E. reflexivity. Qed.
Lemma DCt_lin ux z lam dz m r c : good -> (r < nv)%nat -> (c < bng b)%nat -> m_DCt (update_qp_matrices b ux z lam dz m) r c = m_DCt m r c.
Proof.
  intros G Hr Hc. rewrite DCt_exact. destruct (Nat.leb_spec (bng b) c); [lia|]. rewrite andb_false_r. cbn [andb].
  destruct G as [G|[G|G]]; [|lia|].
  - rewrite zpart_0 by exact G. destruct (_ && _ && _ && _); lra.
  - rewrite G. cbn [Nat.ltb Nat.leb andb]. lra.
Qed.
Lemma DCt_h ux z lam dz m r j : good -> (r < nv)%nat -> (j < bnh b)%nat -> m_DCt (update_qp_matrices b ux z lam dz m) r (bng b + j)%nat = b_Jux b ux z r j + zpart ux z dz r j.
Proof.
  intros G Hr Hj. rewrite DCt_exact. rewrite (proj2 (Nat.ltb_lt r nv)), (proj2 (Nat.leb_le _ (bng b + j))), (proj2 (Nat.ltb_lt (bng b + j) _)) by lia. cbn [andb].
  replace (bng b + j - bng b)%nat with j by lia. f_equal. destruct G as [G|[G|G]]; [|rewrite G in *|lia].
  - rewrite !zpart_0 by exact G. destruct (_ && _ && _ && _); reflexivity.
  - rewrite Nat.sub_0_r. cbn [Nat.add]. nb. reflexivity.
Qed.

Lemma eval_val (D : matR) (hv ux ev : vecR) i : (i < nc)%nat ->
  (if (0 <? bnh b)%nat then h_eval b hv (lin_eval b D ux (box_eval b ux ev)) else lin_eval b D ux (box_eval b ux ev)) i = val b D (fun _ => hv) i ux.
Proof.
  intro Hi. unfold h_eval, lin_eval, box_eval, val.
  destruct (Nat.ltb_spec 0 (bnh b)); cbv beta; rewrite dvecex_sp_val; unfold mvt; rrs; cbn [Nat.add Nat.leb]; nb; rewrite ?Nat.sub_0_r; rr; rewrite ?Rmult_1_l; reflexivity.
Qed.
Lemma m_eval_val ux z lam dz m i : (i < nc)%nat -> m_eval (update_qp_matrices b ux z lam dz m) i = val b (m_DCt m) (fun v => b_h b v z) i ux.
Proof.
  intro Hi. transitivity (val b (m_DCt m) (fun _ => b_h b ux z) i ux); [|reflexivity]. rewrite <- (eval_val (m_DCt m) (b_h b ux z) ux (m_eval m) i Hi).
  unfold update_qp_matrices, z_fun, nonlinear. cbn [m_DCt m_RSQ m_eval m_fun m_adj m_oob].
  destruct (0 <? bnh b)%nat; destruct (b_compute_hess b); unfold dgead; cbn [fst snd]; destruct (0 <? bnz b)%nat; reflexivity.
Qed.

Lemma soft_rev_val (ux f : vecR) k : soft_rev b ux f k =
  f k - (if (k <? nc)%nat && (0 <=? b_idxs_rev b k)%Z then ux (nv + Z.to_nat (b_idxs_rev b k))%nat else 0)
      - (if (nc <=? k)%nat && (k <? 2 * nc)%nat && (0 <=? b_idxs_rev b (k - nc))%Z then ux (nv + bns b + Z.to_nat (b_idxs_rev b (k - nc)))%nat else 0).
Proof.
  set (A1 := fun ii => if (0 <=? b_idxs_rev b ii)%Z then - ux (nv + Z.to_nat (b_idxs_rev b ii))%nat else 0).
  set (A2 := fun ii => if (0 <=? b_idxs_rev b ii)%Z then - ux (nv + bns b + Z.to_nat (b_idxs_rev b ii))%nat else 0).
  unfold soft_rev. rewrite (acc_loop nc _ (fun ii k => ind ii k (A1 ii) + ind (nc + ii) k (A2 ii))).
  - rewrite sum_plus. replace (sum nc (fun j => ind j k (A1 j))) with (sum nc (fun j => ind k j (A1 j))) by (apply sum_ext; intros; unfold ind; now rewrite Nat.eqb_sym).
    rewrite sum_ind. 
    replace (sum nc (fun j => ind (nc + j) k (A2 j))) with (if (nc <=? k)%nat && (k <? 2 * nc)%nat then A2 (k - nc)%nat else 0).
    + unfold A1, A2. nb; try (destruct (0 <=? b_idxs_rev b k)%Z; lra); try (destruct (0 <=? b_idxs_rev b (k - nc))%Z; lra); lra.
    + nb.
      * rewrite (sum_one nc (k - nc)%nat); [unfold ind; replace (nc + (k - nc))%nat with k by lia; now rewrite Nat.eqb_refl|lia|].
        intros j H1 H2. unfold ind. destruct (Nat.eqb_spec (nc + j) k); [lia|reflexivity].
      * symmetry. apply sum_zero. intros j Hj. unfold ind. destruct (Nat.eqb_spec (nc + j) k); [lia|reflexivity].
      * symmetry. apply sum_zero. intros j Hj. unfold ind. destruct (Nat.eqb_spec (nc + j) k); [lia|reflexivity].
  - intros j w k' Hj. cbv zeta. unfold A1, A2. destruct (0 <=? b_idxs_rev b j)%Z; [|unfold ind; destruct (_ =? _)%nat, (_ =? _)%nat; lra].
    etransitivity; [apply sub_entry|]. rewrite sub_entry. apply Rplus_assoc.
Qed.
Lemma soft_idx_val (ux f : vecR) k : (k < 2 * nc)%nat -> soft_idx b ux f k =
  f k - (if (k <? nc)%nat then sum (bns b) (fun j => ind (b_idxs b j) k (ux (nv + j)%nat)) else sum (bns b) (fun j => ind (b_idxs b j) (k - nc) (ux (nv + bns b + j)%nat))).
Proof.
  intro Hk. destruct R0 as (_ & R1 & _). unfold soft_idx. rewrite !dvecad_sp_val. rr. nb.
  - rewrite (sum_zero (bns b) (fun j => ind (nc + b_idxs b j) k _)) by (intros j Hj; unfold ind; destruct (Nat.eqb_spec (nc + b_idxs b j) k); [lia|reflexivity]).
    rewrite Rplus_0_r. unfold Rminus. f_equal. rewrite <- sum_opp. apply sum_ext. intros j Hj. cbn [Nat.add]. unfold ind. destruct (_ =? _)%nat; rr; lra.
  - rewrite (sum_zero (bns b) (fun j => ind (0 + b_idxs b j) k _)) by (intros j Hj; unfold ind; specialize (R1 j Hj); destruct (Nat.eqb_spec (0 + b_idxs b j) k); [lia|reflexivity]).
    rewrite Rplus_0_r. unfold Rminus. f_equal. rewrite <- sum_opp. apply sum_ext. intros j Hj. unfold ind.
    destruct (Nat.eqb_spec (nc + b_idxs b j) k); destruct (Nat.eqb_spec (b_idxs b j) (k - nc)); try lia; lra.
Qed.
Lemma soft_val (ux f : vecR) k : (k < 2 * nc)%nat -> (if b_use_rev b then soft_rev b ux f else soft_idx b ux f) k = f k - (if (k <? nc)%nat then relax b 0 k ux else relax b (bns b) (k - nc) ux).
Proof.
  intro Hk. unfold relax. destruct (b_use_rev b).
  - rewrite soft_rev_val. rewrite Nat.add_0_r. nb; destruct (0 <=? _)%Z; lra.
  - rewrite soft_idx_val by exact Hk. rewrite Nat.add_0_r. nb; reflexivity.
Qed.
Lemma soft_above (ux f : vecR) k : (2 * nc <= k)%nat -> (if b_use_rev b then soft_rev b ux f else soft_idx b ux f) k = f k.
Proof.
  intro Hk. destruct R0 as (_ & R1 & _). destruct (b_use_rev b).
  - rewrite soft_rev_val. nb. lra.
  - unfold soft_idx. rewrite !dvecad_sp_val. rewrite !sum_zero; [lra| |]; intros j Hj; specialize (R1 j Hj); unfold ind;
    match goal with |- (if (?a =? ?c)%nat then _ else _) = _ => destruct (Nat.eqb_spec a c); [lia|reflexivity] end.
Qed.
Lemma values_val C h (ux ev f : vecR) i : (forall k, (k < nc)%nat -> ev k = val b C h k ux) -> (i < 2 * (nc + bns b))%nat -> values b ux ev f i = b_mask b i * ineq b C h i ux.
Proof.
  intros E Hi. unfold values, ineq. cbv zeta. rewrite (proj2 (Nat.ltb_lt i (2 * (nc + bns b)))) by exact Hi. rr. f_equal.
  unfold daxpyv at 1. destruct (Nat.ltb_spec i (2 * nc)).
  - rewrite (proj2 (Nat.leb_gt (2 * bnb b + 2 * bng b + 2 * bnh b) i)) by lia. cbn [andb]. rewrite soft_val by lia. unfold daxpyv. nb; rr; cbn [Nat.add]; rewrite ?Nat.sub_0_r.
    + rewrite E by lia. lra.
    + rewrite E by lia. replace (nc + (i - nc))%nat with i by lia. lra.
  - replace (2 * bnb b + 2 * bng b + 2 * bnh b)%nat with (2 * nc)%nat by lia. nb. rr. replace (2 * nc + (i - 2 * nc))%nat with i by lia. lra.
Qed.
End S.
