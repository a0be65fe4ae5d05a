From Coq Require Import ZArith List Bool Lia Reals Lra.
From Coquelicot Require Import Coquelicot.
From Verif Require Import Arith Vec LinModel Poly LinProofs OcpProofs BghEvalModel RSum BghEvalSpec BghEvalProofs.
Open Scope R_scope.

Lemma derive_const (c x : R) : is_derive (fun _ : R => c) x 0.
Proof. exact (is_derive_const (K := R_AbsRing) (V := R_NormedModule) c x). Qed.
Lemma derive_id (x : R) : is_derive (fun t : R => t) x 1.
Proof. exact (is_derive_id (K := R_AbsRing) x). Qed.
Lemma is_derive_sum (n : nat) (f : nat -> R -> R) (l : nat -> R) (t : R) : (forall k, (k < n)%nat -> is_derive (f k) t (l k)) -> is_derive (fun x => sum n (fun k => f k x)) t (sum n l).
Proof.
  induction n as [|n IH]; intros H; [exact (derive_const 0 t)|].
  change (is_derive (fun x => plus ((fun y => sum n (fun k => f k y)) x) (f n x)) t (plus (sum n l) (l n))).
  apply (is_derive_plus (K := R_AbsRing) (V := R_NormedModule)); [apply IH; intros; apply H; lia|apply H; lia].
Qed.
Lemma derive_minus (f g : R -> R) (t d e : R) : is_derive f t d -> is_derive g t e -> is_derive (fun x => f x - g x) t (d - e).
Proof. exact (is_derive_minus (K := R_AbsRing) (V := R_NormedModule) f g t d e). Qed.
Lemma derive_plus (f g : R -> R) (t d e : R) : is_derive f t d -> is_derive g t e -> is_derive (fun x => f x + g x) t (d + e).
Proof. exact (is_derive_plus (K := R_AbsRing) (V := R_NormedModule) f g t d e). Qed.
Lemma is_derive_val (f : R -> R) (x l l' : R) : is_derive f x l -> l = l' -> is_derive f x l'.
Proof. now intros H <-. Qed.

Section S.
Variable b : bgh_in real.
Notation nv := (bnu b + bnx b)%nat.
Notation nc := (bnb b + bng b + bnh b)%nat.
Hypothesis R0 : in_range b.

(** lower minus upper multiplier of constraint i *)
Definition dl (lam : vecR) i : R := lam i - lam (nc + i)%nat.
Lemma tmp_ni_val lam i : (i < nc)%nat -> tmp_ni b lam i = dl lam i.
Proof. intro H. unfold tmp_ni, daxpyv, dl. nb. rr. cbn [Nat.add]. rewrite Nat.sub_0_r. change (num real) with R in *. lra. Qed.

Lemma slack_rev_val (lam adj : vecR) k : slack_rev b lam adj k =
  (if (nv <=? k)%nat && (k <? nv + 2 * bns b)%nat then 0 else adj k) +
  sum nc (fun ii => (if (0 <=? b_idxs_rev b ii)%Z then ind (nv + Z.to_nat (b_idxs_rev b ii)) k (lam ii) + ind (nv + bns b + Z.to_nat (b_idxs_rev b ii)) k (lam (nc + ii)%nat) else 0)).
Proof.
  unfold slack_rev. rewrite (acc_loop nc _ (fun ii k => if (0 <=? b_idxs_rev b ii)%Z then ind (nv + Z.to_nat (b_idxs_rev b ii)) k (lam ii) + ind (nv + bns b + Z.to_nat (b_idxs_rev b ii)) k (lam (nc + ii)%nat) else 0)); [reflexivity|].
  intros j w k' Hj. cbv zeta. destruct (0 <=? b_idxs_rev b j)%Z; [|lra].
  etransitivity; [apply add_entry|]. etransitivity; [apply Rplus_eq_compat_r; apply add_entry|]. apply Rplus_assoc.
Qed.
Lemma adj_low D lam adj k : (k < nv)%nat -> adjoint b D lam adj k = sum (bnb b) (fun j => ind (b_idxb b j) k (dl lam j)) + sum (bng b + bnh b) (fun j => D k j * dl lam (bnb b + j)%nat).
Proof.
  intro Hk. unfold adjoint. cbv zeta. unfold daxpyv at 1. rewrite (proj2 (Nat.leb_gt nv k)) by lia. cbn [andb].
  set (a := fun k0 : nat => if (k0 <? nv)%nat then _ else _).
  assert (E : (if b_use_rev b then slack_rev b lam a else slack_idx b lam a) k = a k).
  { destruct (b_use_rev b).
    - rewrite slack_rev_val. rewrite (proj2 (Nat.leb_gt nv k)) by lia. cbn [andb]. rewrite sum_zero; [apply Rplus_0_r|]. intros ii Hi.
      destruct (0 <=? b_idxs_rev b ii)%Z; [|reflexivity]. unfold ind. destruct (Nat.eqb_spec (nv + Z.to_nat (b_idxs_rev b ii)) k); [lia|]. destruct (Nat.eqb_spec (nv + bns b + Z.to_nat (b_idxs_rev b ii)) k); [lia|]. lra.
    - unfold slack_idx. rewrite !dvecex_sp_val. rewrite !(proj2 (Nat.leb_gt _ k)) by lia. reflexivity. }
  rewrite E. unfold a. rewrite (proj2 (Nat.ltb_lt k nv)) by lia. rewrite dvecad_sp_val. unfold mvn. rrs. unfold dvecse. nb. rr.
  rewrite !Rmult_1_l, Rplus_0_l. f_equal.
  - apply sum_ext. intros j Hj. cbn [Nat.add]. rr. rewrite Rmult_1_l, tmp_ni_val by lia. reflexivity.
  - apply sum_ext. intros j Hj. rewrite tmp_ni_val by lia. reflexivity.
Qed.
(** multipliers of the constraints that a slack relaxes *)
Definition relaxed_by (o : nat) (lam : vecR) (j : nat) : R :=
  if b_use_rev b then sum nc (fun ii => if (b_idxs_rev b ii =? Z.of_nat j)%Z then lam (o + ii)%nat else 0) else lam (o + b_idxs b j)%nat.
Lemma adj_slack D lam adj j : (j < bns b)%nat -> adjoint b D lam adj (nv + j)%nat = relaxed_by 0 lam j + lam (2 * nc + j)%nat.
Proof.
  intro Hj. unfold adjoint. cbv zeta. unfold daxpyv at 1. rewrite (proj2 (Nat.leb_le nv (nv + j))), (proj2 (Nat.ltb_lt (nv + j) _)) by lia. cbn [andb]. replace (nv + (nv + j - nv))%nat with (nv + j)%nat by lia.
  set (a := fun k0 : nat => if (k0 <? nv)%nat then _ else _). rr. rewrite Rmult_1_l. f_equal; [|f_equal; lia]. unfold relaxed_by. destruct (b_use_rev b).
  - rewrite slack_rev_val. rewrite (proj2 (Nat.leb_le nv (nv + j))), (proj2 (Nat.ltb_lt (nv + j) _)) by lia. cbn [andb]. rewrite Rplus_0_l. apply sum_ext. intros ii Hi.
    destruct R0 as (_ & _ & R1). specialize (R1 ii Hi). unfold ind.
    destruct (Z.eqb_spec (b_idxs_rev b ii) (Z.of_nat j)); destruct (Z.leb_spec 0 (b_idxs_rev b ii)); try lia; try reflexivity.
    + rewrite e, Nat2Z.id, Nat.eqb_refl. destruct (Nat.eqb_spec (nv + bns b + j) (nv + j)); [lia|]. cbn [Nat.add]. lra.
    + destruct (Nat.eqb_spec (nv + Z.to_nat (b_idxs_rev b ii)) (nv + j)); [lia|]. destruct (Nat.eqb_spec (nv + bns b + Z.to_nat (b_idxs_rev b ii)) (nv + j)); [lia|]. lra.
  - unfold slack_idx. rewrite !dvecex_sp_val. nb. replace (nv + j - nv)%nat with j by lia. rr. apply Rmult_1_l.
Qed.
Lemma adj_slack_upper D lam adj j : (j < bns b)%nat -> adjoint b D lam adj (nv + bns b + j)%nat = relaxed_by nc lam j + lam (2 * nc + bns b + j)%nat.
Proof.
  intro Hj. unfold adjoint. cbv zeta. unfold daxpyv at 1. rewrite (proj2 (Nat.leb_le nv (nv + bns b + j))), (proj2 (Nat.ltb_lt (nv + bns b + j) _)) by lia. cbn [andb]. replace (nv + (nv + bns b + j - nv))%nat with (nv + bns b + j)%nat by lia.
  set (a := fun k0 : nat => if (k0 <? nv)%nat then _ else _). rr. rewrite Rmult_1_l. f_equal; [|f_equal; lia]. unfold relaxed_by. destruct (b_use_rev b).
  - rewrite slack_rev_val. rewrite (proj2 (Nat.leb_le nv (nv + bns b + j))), (proj2 (Nat.ltb_lt (nv + bns b + j) _)) by lia. cbn [andb]. rewrite Rplus_0_l. apply sum_ext. intros ii Hi.
    destruct R0 as (_ & _ & R1). specialize (R1 ii Hi). unfold ind.
    destruct (Z.eqb_spec (b_idxs_rev b ii) (Z.of_nat j)); destruct (Z.leb_spec 0 (b_idxs_rev b ii)); try lia; try reflexivity.
    + rewrite e, Nat2Z.id, Nat.eqb_refl. destruct (Nat.eqb_spec (nv + j) (nv + bns b + j)); [lia|]. lra.
    + destruct (Nat.eqb_spec (nv + Z.to_nat (b_idxs_rev b ii)) (nv + bns b + j)); [lia|]. destruct (Nat.eqb_spec (nv + bns b + Z.to_nat (b_idxs_rev b ii)) (nv + bns b + j)); [lia|]. lra.
  - unfold slack_idx. rewrite !dvecex_sp_val. nb. replace (nv + bns b + j - (nv + bns b))%nat with j by lia. rr. apply Rmult_1_l.
Qed.

(** *** derivative of the weighted inequalities *)
(** change of constraint i along d, given the Jacobian of h *)
Definition dval (C : matR) (dh : vecR) (d : vecR) i : R := if (i <? bnb b)%nat then d (b_idxb b i) else if (i <? bnb b + bng b)%nat then sum nv (fun k => C k (i - bnb b)%nat * d k) else dh (i - (bnb b + bng b))%nat.
Lemma scal_derive (c : R) (f : R -> R) (x l : R) : is_derive f x l -> is_derive (fun t => c * f t) x (c * l).
Proof. exact (fun H => is_derive_scal f x c l H). Qed.
Lemma line_derive (x d : R) : is_derive (fun t => x + t * d) 0 d.
Proof.
  apply is_derive_val with (l := 0 + d * 1); [|lra]. apply (derive_plus (fun _ => x) (fun t => t * d)); [apply derive_const|].
  apply (is_derive_ext (fun t => d * t)); [intro; apply Rmult_comm|]. apply (scal_derive d (fun t => t)). apply derive_id.
Qed.
Lemma val_derive C h (x d dh : vecR) i : (forall j, (j < bnh b)%nat -> is_derive (fun t => h (fun r => x r + t * d r) j) 0 (dh j)) -> (i < nc)%nat ->
  is_derive (fun t => val b C h i (fun r => x r + t * d r)) 0 (dval C dh d i).
Proof.
  intros H Hi. unfold val, dval. nb.
  - apply line_derive.
  - apply (is_derive_sum nv (fun k t => C k (i - bnb b)%nat * (x k + t * d k)) (fun k => C k (i - bnb b)%nat * d k)). intros k Hk. apply scal_derive, line_derive.
  - apply H. lia.
Qed.
Lemma relax_derive o (x d : vecR) i : is_derive (fun t => relax b o i (fun r => x r + t * d r)) 0 (relax b o i d).
Proof.
  unfold relax. destruct (b_use_rev b).
  - destruct (0 <=? b_idxs_rev b i)%Z; [apply line_derive|apply derive_const].
  - apply (is_derive_sum (bns b) (fun j t => if (b_idxs b j =? i)%nat then x (nv + o + j)%nat + t * d (nv + o + j)%nat else 0)). intros j Hj.
    destruct (b_idxs b j =? i)%nat; [apply line_derive|apply derive_const].
Qed.
Definition dineq C dh (d : vecR) i : R :=
  if (i <? nc)%nat then - dval C dh d i - relax b 0 i d else if (i <? 2 * nc)%nat then dval C dh d (i - nc) - relax b (bns b) (i - nc) d else - d (nv + (i - 2 * nc))%nat.
Lemma ineq_derive C h (x d dh : vecR) i : (forall j, (j < bnh b)%nat -> is_derive (fun t => h (fun r => x r + t * d r) j) 0 (dh j)) -> (i < 2 * (nc + bns b))%nat ->
  is_derive (fun t => ineq b C h i (fun r => x r + t * d r)) 0 (dineq C dh d i).
Proof.
  intros H Hi. unfold ineq, dineq. nb.
  - apply is_derive_val with (l := (0 - dval C dh d i) - relax b 0 i d); [|lra].
    apply derive_minus; [|apply relax_derive]. apply derive_minus; [apply derive_const|apply val_derive; [exact H|lia]].
  - apply is_derive_val with (l := (dval C dh d (i - nc) - 0) - relax b (bns b) (i - nc) d); [|lra].
    apply derive_minus; [|apply relax_derive]. apply derive_minus; [apply val_derive; [exact H|lia]|apply derive_const].
  - apply is_derive_val with (l := 0 - d (nv + (i - 2 * nc))%nat); [|lra]. apply derive_minus; [apply derive_const|apply line_derive].
Qed.

Lemma relax_dual o (lam d : vecR) p : sum nc (fun i => lam (p + i)%nat * relax b o i d) = sum (bns b) (fun j => relaxed_by p lam j * d (nv + o + j)%nat).
Proof.
  destruct R0 as (_ & R1 & R2). unfold relax, relaxed_by. destruct (b_use_rev b).
  - rewrite (sum_ext (bns b) _ (fun j => sum nc (fun ii => (if (b_idxs_rev b ii =? Z.of_nat j)%Z then lam (p + ii)%nat else 0) * d (nv + o + j)%nat))) by (intros; now rewrite sum_scal_r).
    rewrite sum_swap. apply sum_ext. intros ii Hi. specialize (R2 ii Hi). destruct (Z.leb_spec 0 (b_idxs_rev b ii)).
    + rewrite (sum_one (bns b) (Z.to_nat (b_idxs_rev b ii))).
      * rewrite Z2Nat.id by lia. rewrite Z.eqb_refl. reflexivity.
      * lia.
      * intros j H1 H2. destruct (Z.eqb_spec (b_idxs_rev b ii) (Z.of_nat j)); [lia|lra].
    + rewrite sum_zero; [lra|]. intros j Hj. destruct (Z.eqb_spec (b_idxs_rev b ii) (Z.of_nat j)); [lia|lra].
  - rewrite (sum_ext nc _ (fun i => sum (bns b) (fun j => lam (p + i)%nat * (if (b_idxs b j =? i)%nat then d (nv + o + j)%nat else 0)))) by (intros; now rewrite sum_scal).
    rewrite sum_swap. apply sum_ext. intros j Hj. specialize (R1 j Hj). rewrite (sum_one nc (b_idxs b j)); [now rewrite Nat.eqb_refl|exact R1|].
    intros i H1 H2. destruct (Nat.eqb_spec (b_idxs b j) i); [congruence|lra].
Qed.
Lemma val_dual C dh D (lam d : vecR) :
  (forall r c, (r < nv)%nat -> (c < bng b)%nat -> D r c = C r c) ->
  (forall j, (j < bnh b)%nat -> dh j = sum nv (fun r => D r (bng b + j)%nat * d r)) ->
  sum nc (fun i => dl lam i * dval C dh d i) = sum nv (fun k => (sum (bnb b) (fun j => ind (b_idxb b j) k (dl lam j)) + sum (bng b + bnh b) (fun j => D k j * dl lam (bnb b + j)%nat)) * d k).
Proof.
  intros HC Hh. destruct R0 as (R1 & _ & _).
  rewrite (sum_ext nv _ (fun k => sum (bnb b) (fun j => ind (b_idxb b j) k (dl lam j * d k)) + sum (bng b + bnh b) (fun j => dl lam (bnb b + j)%nat * (D k j * d k)))).
  2: { intros k Hk. rewrite Rmult_plus_distr_r. f_equal; rewrite <- sum_scal_r; apply sum_ext; intros j Hj; [unfold ind; destruct (_ =? _)%nat; lra|lra]. }
  rewrite sum_plus, sum_swap, (sum_swap nv (bng b + bnh b)).
  replace nc with (bnb b + (bng b + bnh b))%nat by lia. rewrite (sum_split (bnb b) (bng b + bnh b)). f_equal.
  - apply sum_ext. intros j Hj. rewrite (sum_ind nv (b_idxb b j) (fun k => dl lam j * d k)). rewrite (proj2 (Nat.ltb_lt _ _)) by (apply R1; lia). unfold dval. now rewrite (proj2 (Nat.ltb_lt _ _)) by lia.
  - apply sum_ext. intros j Hj. rewrite sum_scal. f_equal. unfold dval. nb.
    + replace (bnb b + j - bnb b)%nat with j by lia. apply sum_ext. intros k Hk. now rewrite HC by lia.
    + replace (bnb b + j - (bnb b + bng b))%nat with (j - bng b)%nat by lia. rewrite Hh by lia. replace (bng b + (j - bng b))%nat with j by lia. reflexivity.
Qed.
Lemma adjoint_ok C dh D (lam d adj : vecR) :
  (forall r c, (r < nv)%nat -> (c < bng b)%nat -> D r c = C r c) ->
  (forall j, (j < bnh b)%nat -> dh j = sum nv (fun r => D r (bng b + j)%nat * d r)) ->
  sum (2 * (nc + bns b)) (fun i => lam i * dineq C dh d i) = - sum (nv + 2 * bns b) (fun k => adjoint b D lam adj k * d k).
Proof.
  intros HC Hh. replace (2 * (nc + bns b))%nat with (nc + (nc + 2 * bns b))%nat by lia. rewrite (sum_split nc (nc + 2 * bns b)), (sum_split nc (2 * bns b)), (sum_split nv (2 * bns b)).
  rewrite (sum_ext nv _ (fun k => (sum (bnb b) (fun j => ind (b_idxb b j) k (dl lam j)) + sum (bng b + bnh b) (fun j => D k j * dl lam (bnb b + j)%nat)) * d k)) by (intros; now rewrite adj_low).
  rewrite <- (val_dual C dh D lam d HC Hh).
  replace (2 * bns b)%nat with (bns b + bns b)%nat by lia. rewrite !(sum_split (bns b) (bns b)).
  rewrite (sum_ext nc _ (fun i => - (lam i * dval C dh d i) - lam (0 + i)%nat * relax b 0 i d)).
  2: { intros i Hi. unfold dineq. rewrite (proj2 (Nat.ltb_lt i nc)) by lia. cbn [Nat.add]. lra. }
  rewrite (sum_ext nc (fun k => lam (nc + k)%nat * _) (fun i => lam (nc + i)%nat * dval C dh d i - lam (nc + i)%nat * relax b (bns b) i d)).
  2: { intros i Hi. unfold dineq. rewrite (proj2 (Nat.ltb_ge (nc + i) nc)), (proj2 (Nat.ltb_lt (nc + i) (2 * nc))) by lia. replace (nc + i - nc)%nat with i by lia. lra. }
  rewrite !sum_minus, !relax_dual.
  rewrite (sum_ext (bns b) (fun k => lam (nc + (nc + k))%nat * _) (fun j => - (lam (2 * nc + j)%nat * d (nv + j)%nat))).
  2: { intros j Hj. unfold dineq. rewrite (proj2 (Nat.ltb_ge _ _)), (proj2 (Nat.ltb_ge _ _)) by lia. replace (nc + (nc + j))%nat with (2 * nc + j)%nat by lia. replace (2 * nc + j - 2 * nc)%nat with j by lia. lra. }
  rewrite (sum_ext (bns b) (fun k => lam (nc + (nc + (bns b + k)))%nat * _) (fun j => - (lam (2 * nc + bns b + j)%nat * d (nv + bns b + j)%nat))).
  2: { intros j Hj. unfold dineq. rewrite (proj2 (Nat.ltb_ge _ _)), (proj2 (Nat.ltb_ge _ _)) by lia. replace (nc + (nc + (bns b + j)))%nat with (2 * nc + bns b + j)%nat by lia. replace (nv + (2 * nc + bns b + j - 2 * nc))%nat with (nv + bns b + j)%nat by lia. lra. }
  rewrite (sum_ext (bns b) (fun k => adjoint b D lam adj (nv + k)%nat * _) (fun j => relaxed_by 0 lam j * d (nv + 0 + j)%nat + lam (2 * nc + j)%nat * d (nv + j)%nat)).
  2: { intros j Hj. rewrite adj_slack by exact Hj. rewrite Nat.add_0_r. lra. }
  rewrite (sum_ext (bns b) (fun k => adjoint b D lam adj (nv + (bns b + k))%nat * _) (fun j => relaxed_by nc lam j * d (nv + bns b + j)%nat + lam (2 * nc + bns b + j)%nat * d (nv + bns b + j)%nat)).
  2: { intros j Hj. replace (nv + (bns b + j))%nat with (nv + bns b + j)%nat by lia. rewrite adj_slack_upper by exact Hj. lra. }
  rewrite !sum_plus, !sum_opp. rewrite (sum_ext nc (fun i => dl lam i * dval C dh d i) (fun i => lam i * dval C dh d i - lam (nc + i)%nat * dval C dh d i)) by (intros; unfold dl; lra).
  rewrite sum_minus. lra.
Qed.
End S.
