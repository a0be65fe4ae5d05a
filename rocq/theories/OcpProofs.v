(** Proofs about the QP objective value, the second order correction, the Levenberg-Marquardt parameter and the
    parameter gradient, over the reals. *)
From Coq Require Import ZArith List Bool Lia Reals Lra Psatz.
From Verif Require Import Arith Vec LinModel LinProofs RSum Poly OcpModel.
Import ListNotations.
Open Scope R_scope.

Ltac vs := repeat match goal with |- context [vsum (A := real) ?n ?f] => rewrite (vsum_sum n f) end.
Ltac rrs := rr; change (num real) with R in *; vs.
Lemma rcst_half : ncst (a := real) 5 (-1) = 1 / 2. Proof. cbn. unfold rcst. cbn. lra. Qed.
Lemma rcst_two : ncst (a := real) 2 0 = 2. Proof. cbn. unfold rcst. cbn. lra. Qed.
Lemma loop_sum n (f : nat -> R) c0 : loop n (fun i c => c + f i) c0 = c0 + sum n f.
Proof. induction n as [|n IH]; cbn [loop]; [cbn; lra|]. rewrite IH, sum_S. lra. Qed.
Lemma loop_ext {X} n (f g : nat -> X -> X) s : (forall i s, (i < n)%nat -> f i s = g i s) -> loop n f s = loop n g s.
Proof. induction n as [|n IH]; intros H; cbn [loop]; [reflexivity|]. rewrite IH by (intros; apply H; lia). apply H. lia. Qed.

Section Ocp.
Variable d : odims.
Variable qp : nat -> qp_stage real.
Variable ux : nat -> vecR.
Notation nux i := (onx d i + onu d i)%nat.
Definition slack i k : R := ux i (nux i + k)%nat.
(** the QP objective: quadratic form of the symmetric matrix stored in the lower triangle, linear term, slack terms *)
Definition qp_objective (H : nat -> matR) : R :=
  sum (S (oN d)) (fun i => 1 / 2 * sum (nux i) (fun r => sum (nux i) (fun c => ux i r * H i r c * ux i c)) + sum (nux i) (fun k => q_rqz (qp i) k * ux i k)
    + sum (2 * ons d i) (fun k => 1 / 2 * q_Z (qp i) k * (slack i k * slack i k) + q_rqz (qp i) (nux i + k)%nat * slack i k)).
Definition sym_of (H : nat -> matR) : Prop := forall i r c, (i <= oN d)%nat -> (r < nux i)%nat -> (c < nux i)%nat -> H i r c = H i c r /\ ((c <= r)%nat -> q_RSQ (qp i) r c = H i r c).
Lemma sym_l_val H i r c : sym_of H -> (i <= oN d)%nat -> (r < nux i)%nat -> (c < nux i)%nat -> sym_l (A := real) (q_RSQ (qp i)) r c = H i r c.
Proof.
  intros S Hi Hr Hc. unfold sym_l. destruct (Nat.leb_spec c r) as [L|L]; [apply S; assumption|]. destruct (S i c r Hi Hc Hr) as [E1 E2]. rewrite E2 by lia. exact E1.
Qed.
Lemma qp_objective_code H : sym_of H -> qp_objective_value d qp ux = qp_objective H + sum (S (oN d)) (fun i => sum (2 * ons d i) (fun k => slack i k * slack i k)).
Proof.
  intros S. unfold qp_objective_value, qp_objective.
  rewrite (loop_ext _ _ (fun i c => c + ((1 / 2 * sum (nux i) (fun r => sum (nux i) (fun c => ux i r * H i r c * ux i c)) + sum (nux i) (fun k => q_rqz (qp i) k * ux i k)
    + sum (2 * ons d i) (fun k => 1 / 2 * q_Z (qp i) k * (slack i k * slack i k) + q_rqz (qp i) (nux i + k)%nat * slack i k)) + sum (2 * ons d i) (fun k => slack i k * slack i k)))).
  - rewrite loop_sum. rewrite sum_plus. change (n0 (a := real)) with 0. lra.
  - intros i c Hi. cbv zeta. rewrite rcst_half, rcst_two. rr. change (num real) with R in *. rewrite (vsum_sum (nux i) (fun k => _ * (_ * _))), !(vsum_sum (2 * ons d i)), (vsum_sum (nux i) (fun k => ux i k * q_rqz (qp i) k)).
    rewrite (sum_ext (nux i) _ (fun r => 1 / 2 * sum (nux i) (fun c => ux i r * H i r c * ux i c))).
    2:{ intros r Hr. rewrite vsum_sum. rewrite (sum_ext (nux i) _ (fun c => H i r c * ux i c)) by (intros c' Hc; rewrite (sym_l_val H) by (assumption || lia); reflexivity).
        rewrite (sum_ext (nux i) (fun c => ux i r * H i r c * ux i c) (fun c => ux i r * (H i r c * ux i c))) by (intros; ring). rewrite sum_scal. lra. }
    rewrite sum_scal.
    rewrite (sum_ext (nux i) (fun k => ux i k * q_rqz (qp i) k) (fun k => q_rqz (qp i) k * ux i k)) by (intros; ring).
    rewrite (sum_ext (2 * ons d i) (fun k => 1 / 2 * q_Z (qp i) k * (slack i k * slack i k) + q_rqz (qp i) (nux i + k)%nat * slack i k) (fun k => (1 / 2) * (q_Z (qp i) k * slack i k * slack i k) + slack i k * q_rqz (qp i) (nux i + k)%nat)) by (intros; lra).
    rewrite sum_plus, sum_scal. fold (slack i).
    rewrite (sum_ext (2 * ons d i) (fun k => (q_Z (qp i) k * ux i (nux i + k)%nat + 2 * ux i (nux i + k)%nat) * ux i (nux i + k)%nat) (fun k => q_Z (qp i) k * slack i k * slack i k + 2 * (slack i k * slack i k))) by (intros; unfold slack; ring).
    rewrite sum_plus, sum_scal. unfold slack. rewrite ?vsum_sum. change (num real) with R in *. set (p1 := sum _ _). set (p2 := sum _ _). set (p3 := sum _ _). set (p4 := sum _ _). set (p5 := sum _ _). match goal with |- _ + ?v = _ => assert (E5 : v = p5) by apply vsum_sum; rewrite E5; clear E5 end. clearbody p1 p2 p3 p4 p5. lra.
Qed.
Lemma qp_objective_no_slack H : sym_of H -> (forall i k, (i <= oN d)%nat -> (k < 2 * ons d i)%nat -> slack i k = 0) -> qp_objective_value d qp ux = qp_objective H.
Proof.
  intros S Z. rewrite (qp_objective_code H S). rewrite (sum_zero (Datatypes.S (oN d)) (fun i => sum (2 * ons d i) (fun k => slack i k * slack i k))).
  - lra.
  - intros i Hi. apply sum_zero. intros k Hk. rewrite Z by lia. ring.
Qed.
(** the error is strictly positive as soon as a slack step is nonzero *)
Lemma qp_objective_over H i k : sym_of H -> (i <= oN d)%nat -> (k < 2 * ons d i)%nat -> slack i k <> 0 -> qp_objective H < qp_objective_value d qp ux.
Proof.
  intros S Hi Hk Hs. rewrite (qp_objective_code H S).
  assert (P : 0 < sum (Datatypes.S (oN d)) (fun i => sum (2 * ons d i) (fun k => slack i k * slack i k))); [|lra].
  assert (N : forall j, 0 <= sum (2 * ons d j) (fun k => slack j k * slack j k)) by (intros; apply sum_nonneg; intros; nra).
  destruct (Rle_lt_or_eq_dec 0 _ (sum_nonneg (Datatypes.S (oN d)) (fun i => sum (2 * ons d i) (fun k => slack i k * slack i k)) (fun i _ => N i))) as [L|E]; [exact L|exfalso].
  assert (Le : sum (2 * ons d i) (fun k => slack i k * slack i k) <= sum (Datatypes.S (oN d)) (fun i => sum (2 * ons d i) (fun k => slack i k * slack i k))).
  { rewrite (sum_pick (Datatypes.S (oN d)) i (fun i => sum (2 * ons d i) (fun k => slack i k * slack i k))) by lia.
    assert (0 <= sum (Datatypes.S (oN d)) (fun k => if Nat.eqb k i then 0 else sum (2 * ons d k) (fun k0 => slack k k0 * slack k k0))); [|lra]. apply sum_nonneg. intros j _. destruct (Nat.eqb j i); [lra|apply N]. }
  assert (Le2 : slack i k * slack i k <= sum (2 * ons d i) (fun k => slack i k * slack i k)).
  { rewrite (sum_pick (2 * ons d i) k (fun k => slack i k * slack i k)) by lia.
    assert (0 <= sum (2 * ons d i) (fun k0 => if Nat.eqb k0 k then 0 else slack i k0 * slack i k0)); [|lra]. apply sum_nonneg. intros j _. destruct (Nat.eqb j k); nra. }
  nra.
Qed.
Lemma directional_derivative : gradient_directional_derivative d qp ux = sum (S (oN d)) (fun i => sum (nux i + 2 * ons d i) (fun k => q_rqz (qp i) k * ux i k)).
Proof.
  unfold gradient_directional_derivative. rewrite (loop_ext _ _ (fun i c => c + sum (nux i + 2 * ons d i) (fun k => q_rqz (qp i) k * ux i k))).
  - rewrite loop_sum. change (n0 (a := real)) with 0. lra.
  - intros i c _. cbv zeta. rrs. rewrite (sum_split (nux i) (2 * ons d i)).
    rewrite (sum_ext (nux i) (fun k => ux i k * q_rqz (qp i) k) (fun k => q_rqz (qp i) k * ux i k)) by (intros; ring).
    rewrite (sum_ext (2 * ons d i) (fun k => ux i (nux i + k)%nat * q_rqz (qp i) (nux i + k)%nat) (fun k => q_rqz (qp i) (nux i + k)%nat * ux i (nux i + k)%nat)) by (intros; ring).
    lra.
Qed.

(** ** second order correction *)
Variables dyn con : nat -> vecR.
(** a step v satisfies the corrected dynamics constraint of the QP *)
Definition qp_dynamics (b : vecR) (v : nat -> vecR) i c : Prop := v (S i) (onu d (S i) + c)%nat = sum (nux i) (fun r => q_BAbt (qp i) r c * v i r) + b c.
(** linearisation of the dynamics constraint about the trial point x + p, p = ux *)
Definition lin_dynamics (v : nat -> vecR) i c : R := dyn i c + sum (nux i) (fun r => q_BAbt (qp i) r c * (v i r - ux i r)) - (v (S i) (onu d (S i) + c)%nat - ux (S i) (onu d (S i) + c)%nat).
Lemma soc_b_val i c : soc_b d qp ux dyn i c = - dyn i c - sum (nux i) (fun r => q_BAbt (qp i) r c * ux i r) + ux (S i) (onu d (S i) + c)%nat.
Proof. unfold soc_b. rewrite vsum_sum. rr; change (num real) with R in *. cbv beta. lra. Qed.
Lemma lin_split v i c : sum (nux i) (fun r => q_BAbt (qp i) r c * (v i r - ux i r)) = sum (nux i) (fun r => q_BAbt (qp i) r c * v i r) - sum (nux i) (fun r => q_BAbt (qp i) r c * ux i r).
Proof. rewrite <- sum_minus. apply sum_ext. intros; ring. Qed.
(** what the code imposes: the sign of the function value is wrong *)
Lemma soc_dynamics_actual v i c : qp_dynamics (soc_b d qp ux dyn i) v i c <-> lin_dynamics v i c = 2 * dyn i c.
Proof. unfold qp_dynamics, lin_dynamics. rewrite soc_b_val, lin_split. split; intros; lra. Qed.
Lemma soc_dynamics_good v i c : dyn i c = 0 -> (qp_dynamics (soc_b d qp ux dyn i) v i c <-> lin_dynamics v i c = 0).
Proof. intros E. rewrite soc_dynamics_actual, E. split; intros; lra. Qed.

Let nb i := onb d i. Let ng i := ong d i.
Let pre i : vecR := fun k =>
  if ((2 * nb i + ng i <=? k)%nat && (k <? 2 * nb i + 2 * ng i)%nat)%bool then con i k - sum (nux i) (fun r => q_DCt (qp i) r (k - (2 * nb i + ng i))%nat * ux i r)
  else if ((nb i <=? k)%nat && (k <? nb i + ng i)%nat)%bool then con i k + sum (nux i) (fun r => q_DCt (qp i) r (k - nb i)%nat * ux i r) else q_d (qp i) k.
Definition sidx i j := Z.to_nat (q_idxs_rev (qp i) j).
Definition soft i j := (0 <=? q_idxs_rev (qp i) j)%Z.
Definition soc_body i (j : nat) (v : vecR) : vecR := let s := q_idxs_rev (qp i) j in if (0 <=? s)%Z then let v := vset (A := real) v j (nsub (a := real) (v j) (ux i (Z.to_nat s + nux i)%nat)) in vset (A := real) v (j + nb i + ng i) (nsub (a := real) (v (j + nb i + ng i)%nat) (ux i (Z.to_nat s + nux i + ons d i)%nat)) else v.
Lemma soc_d_pre i : soc_d d qp ux con i = loop (nb i + ng i) (soc_body i)
   (fun k => if ((2 * nb i + ng i <=? k)%nat && (k <? 2 * nb i + 2 * ng i)%nat)%bool
      then nadd (a := real) (if ((nb i <=? k)%nat && (k <? nb i + ng i)%nat)%bool then nadd (a := real) (if ((2 * nb i + ng i <=? k)%nat && (k <? 2 * nb i + 2 * ng i)%nat)%bool then con i k else if ((nb i <=? k)%nat && (k <? nb i + ng i)%nat)%bool then con i k else q_d (qp i) k) (1 * vsum (nux i) (fun r => q_DCt (qp i) r (k - nb i)%nat * ux i r))%num else (if ((2 * nb i + ng i <=? k)%nat && (k <? 2 * nb i + 2 * ng i)%nat)%bool then con i k else if ((nb i <=? k)%nat && (k <? nb i + ng i)%nat)%bool then con i k else q_d (qp i) k)) ((0 - 1) * vsum (nux i) (fun r => q_DCt (qp i) r (k - (2 * nb i + ng i))%nat * ux i r))%num
      else (if ((nb i <=? k)%nat && (k <? nb i + ng i)%nat)%bool then nadd (a := real) (if ((2 * nb i + ng i <=? k)%nat && (k <? 2 * nb i + 2 * ng i)%nat)%bool then con i k else if ((nb i <=? k)%nat && (k <? nb i + ng i)%nat)%bool then con i k else q_d (qp i) k) (1 * vsum (nux i) (fun r => q_DCt (qp i) r (k - nb i)%nat * ux i r))%num else (if ((2 * nb i + ng i <=? k)%nat && (k <? 2 * nb i + 2 * ng i)%nat)%bool then con i k else if ((nb i <=? k)%nat && (k <? nb i + ng i)%nat)%bool then con i k else q_d (qp i) k))).
Proof. reflexivity. Qed.
Lemma slack_loop i m (v : vecR) k : (m <= nb i + ng i)%nat ->
  loop m (soc_body i) v k =
  v k - (if ((k <? m)%nat && soft i k)%bool then slack i (sidx i k) else 0) - (if ((nb i + ng i <=? k)%nat && (k - (nb i + ng i) <? m)%nat && soft i (k - (nb i + ng i)))%bool then slack i (sidx i (k - (nb i + ng i)) + ons d i) else 0).
Proof.
  revert k. induction m as [|m IH]; intros k Hm; cbn [loop].
  - cbn. rewrite andb_false_r. cbn. lra.
  - assert (IH' : forall k, loop m (soc_body i) v k = v k - (if ((k <? m)%nat && soft i k)%bool then slack i (sidx i k) else 0) - (if ((nb i + ng i <=? k)%nat && (k - (nb i + ng i) <? m)%nat && soft i (k - (nb i + ng i)))%bool then slack i (sidx i (k - (nb i + ng i)) + ons d i) else 0)) by (intros; apply IH; lia). clear IH. rename IH' into IH.
    set (w := loop m (soc_body i) v) in *. clearbody w. unfold soc_body. cbv zeta. fold (soft i m). fold (sidx i m).
    destruct (soft i m) eqn:Es.
    + unfold vset.
      replace (m + nb i + ng i)%nat with (nb i + ng i + m)%nat by lia.
      destruct (Nat.eqb_spec k (nb i + ng i + m)) as [->|N1].
      * destruct (Nat.eqb_spec (nb i + ng i + m) m) as [E|_]; [exfalso|].
        { lia. }
        rewrite IH. replace (nb i + ng i + m - (nb i + ng i))%nat with m by lia. rewrite Nat.ltb_irrefl.
        destruct (Nat.ltb_spec (nb i + ng i + m) m); [lia|]. destruct (Nat.ltb_spec (nb i + ng i + m) (S m)); [lia|]. destruct (Nat.leb_spec (nb i + ng i) (nb i + ng i + m)); [|lia]. destruct (Nat.ltb_spec m (S m)); [|lia]. rewrite Es. cbn [andb].
        unfold slack. replace (nux i + (sidx i m + ons d i))%nat with (sidx i m + nux i + ons d i)%nat by lia. rr; change (num real) with R in *. lra.
      * destruct (Nat.eqb_spec k m) as [->|N2].
        -- rewrite IH. rewrite Nat.ltb_irrefl. destruct (Nat.ltb_spec m (S m)); [|lia]. rewrite Es. destruct (Nat.leb_spec (nb i + ng i) m); [lia|]. cbn [andb]. unfold slack. replace (nux i + sidx i m)%nat with (sidx i m + nux i)%nat by lia. rr; change (num real) with R in *. lra.
        -- rewrite IH. f_equal; [f_equal|].
           ++ destruct (Nat.ltb_spec k m), (Nat.ltb_spec k (S m)); try reflexivity; lia.
           ++ destruct (Nat.leb_spec (nb i + ng i) k); [|reflexivity]. destruct (Nat.ltb_spec (k - (nb i + ng i)) m), (Nat.ltb_spec (k - (nb i + ng i)) (S m)); try reflexivity; lia.
    + rewrite IH. f_equal; [f_equal|].
      * destruct (Nat.eq_dec k m) as [->|]; [rewrite Es, !andb_false_r; reflexivity|]. destruct (Nat.ltb_spec k m), (Nat.ltb_spec k (S m)); try reflexivity; lia.
      * destruct (Nat.leb_spec (nb i + ng i) k); [|reflexivity]. cbn [andb]. destruct (Nat.eq_dec (k - (nb i + ng i)) m) as [E|]; [rewrite E, Es, !andb_false_r; reflexivity|]. destruct (Nat.ltb_spec (k - (nb i + ng i)) m), (Nat.ltb_spec (k - (nb i + ng i)) (S m)); try reflexivity; lia.
Qed.
Definition Cp i c := sum (nux i) (fun r => q_DCt (qp i) r c * ux i r).
(** entries of the corrected right-hand side *)
Lemma soc_lower i j : (j < ng i)%nat -> soc_d d qp ux con i (nb i + j)%nat = con i (nb i + j)%nat + Cp i j - (if soft i (nb i + j) then slack i (sidx i (nb i + j)) else 0).
Proof.
  intros Hj. rewrite soc_d_pre, slack_loop by lia.
  destruct (Nat.ltb_spec (nb i + j) (nb i + ng i)); [|lia]. destruct (Nat.leb_spec (nb i + ng i) (nb i + j)); [lia|]. destruct (Nat.leb_spec (nb i) (nb i + j)); [|lia]. destruct (Nat.leb_spec (2 * nb i + ng i) (nb i + j)); [lia|]. cbn [andb].
  rewrite vsum_sum. replace (nb i + j - nb i)%nat with j by lia. unfold Cp. rr; change (num real) with R in *. cbv beta. lra.
Qed.
Lemma soc_upper i j : (j < ng i)%nat -> soc_d d qp ux con i (2 * nb i + ng i + j)%nat = con i (2 * nb i + ng i + j)%nat - Cp i j - (if soft i (nb i + j) then slack i (sidx i (nb i + j) + ons d i) else 0).
Proof.
  intros Hj. rewrite soc_d_pre, slack_loop by lia. replace (2 * nb i + ng i + j - (nb i + ng i))%nat with (nb i + j)%nat by lia.
  destruct (Nat.ltb_spec (2 * nb i + ng i + j) (nb i + ng i)); [lia|]. destruct (Nat.leb_spec (nb i + ng i) (2 * nb i + ng i + j)); [|lia]. destruct (Nat.ltb_spec (nb i + j) (nb i + ng i)); [|lia]. destruct (Nat.leb_spec (2 * nb i + ng i) (2 * nb i + ng i + j)); [|lia]. destruct (Nat.ltb_spec (2 * nb i + ng i + j) (2 * nb i + 2 * ng i)); [|lia]. destruct (Nat.leb_spec (nb i) (2 * nb i + ng i + j)); [|lia]. cbn [andb].
  rewrite !vsum_sum. replace (2 * nb i + ng i + j - (2 * nb i + ng i))%nat with j by lia. unfold Cp. rr; change (num real) with R in *. cbv beta. lra.
Qed.
Lemma soc_bound_lower i j : (j < nb i)%nat -> soc_d d qp ux con i j = q_d (qp i) j - (if soft i j then slack i (sidx i j) else 0).
Proof.
  intros Hj. rewrite soc_d_pre, slack_loop by lia.
  destruct (Nat.ltb_spec j (nb i + ng i)); [|lia]. destruct (Nat.leb_spec (nb i + ng i) j); [lia|]. destruct (Nat.leb_spec (nb i) j); [lia|]. destruct (Nat.leb_spec (2 * nb i + ng i) j); [lia|]. cbn [andb]. lra.
Qed.
End Ocp.

(** ** Levenberg-Marquardt *)
Section Lm.
Variable o : lm_opts real.
Hypothesis Hmin : 0 <= lm_mu_min o.
Hypothesis Hmu0 : lm_mu_min o <= lm_mu0 o <= 1.
Hypothesis Hlam : 1 <= lm_lam o.
Definition lm_ok (m : lm_mem real) : Prop := lm_mu_min o <= lm_mu m <= 1 /\ lm_mu_min o <= lm_mu_bar m <= 1.
Lemma lm_full_spec (x : R) : (nleb (a := real) x 1 && nleb (a := real) 1 x)%bool = true <-> x = 1.
Proof. change (n1 (a := real)) with 1. change (nleb (a := real)) with Rleb. destruct (Rleb_spec x 1), (Rleb_spec 1 x); cbn; split; intros; try lra; try congruence. Qed.
Lemma div_le x : 0 <= x -> x / lm_lam o <= x.
Proof. intros. apply Rmult_le_reg_r with (lm_lam o); [lra|]. unfold Rdiv. rewrite Rmult_assoc, Rinv_l by lra. nra. Qed.
Lemma lm_step_ok iter0 a m : iter0 = true \/ lm_ok m -> lm_ok (lm_update o iter0 a m).
Proof.
  intros H. unfold lm_update, lm_ok. destruct iter0; cbn [lm_mu lm_mu_bar]; [lra|]. destruct H as [H|[[M1 M2] [B1 B2]]]; [discriminate H|].
  destruct (nleb a _ && nleb _ a)%bool; cbn [lm_mu lm_mu_bar].
  - rewrite nmax_real. split; [|lra]. change (ndiv (a := real)) with Rdiv. pose proof (div_le (lm_mu_bar m) ltac:(lra)). split; [apply Rmax_l|]. apply Rmax_lub; lra.
  - rewrite nmin_real. split; [|lra]. change (nmul (a := real)) with Rmult. change (n1 (a := real)) with 1. split; [|apply Rmin_r]. apply Rmin_glb; [|lra]. apply Rle_trans with (1 * lm_mu m); [lra|apply Rmult_le_compat_r; lra].
Qed.
(** a run: the first update resets, the others see arbitrary step lengths *)
Definition lm_run (steps : list R) (m : lm_mem real) : lm_mem real := fold_left (fun m a => lm_update o false a m) steps (lm_update o true 0 m).
Lemma lm_run_ok steps m : lm_ok (lm_run steps m).
Proof.
  unfold lm_run. assert (G : lm_ok (lm_update o true 0 m)) by (apply lm_step_ok; auto). revert G. generalize (lm_update o true 0 m). induction steps as [|a l IH]; intros m' G; cbn [fold_left]; [exact G|]. apply IH, lm_step_ok. auto.
Qed.
Lemma lm_bad_step m a : lm_ok m -> a <> 1 -> lm_mu m <= lm_mu (lm_update o false a m) /\ (lm_mu m < 1 -> 1 < lm_lam o -> 0 < lm_mu m -> lm_mu m < lm_mu (lm_update o false a m)).
Proof.
  intros [[M1 M2] _] Ha. unfold lm_update. destruct (nleb a _ && nleb _ a)%bool eqn:E; [apply lm_full_spec in E; contradiction|]. cbn [lm_mu]. rewrite nmin_real. change (nmul (a := real)) with Rmult. change (n1 (a := real)) with 1. split.
  - apply Rmin_glb; [|lra]. apply Rle_trans with (1 * lm_mu m); [lra|apply Rmult_le_compat_r; lra].
  - intros H1 H2 H3. apply Rmin_glb_lt; [|exact H1]. apply Rle_lt_trans with (1 * lm_mu m); [lra|apply Rmult_lt_compat_r; lra].
Qed.
(** after two full steps in a row the parameter is at most the one before, divided by lam (or the minimum) *)
Lemma lm_two_good m : let m1 := lm_update o false 1 m in lm_mu (lm_update o false 1 m1) = Rmax (lm_mu_min o) (lm_mu m / lm_lam o).
Proof.
  cbv zeta. assert (F : forall m, lm_update o false 1 m = mkLmMem (A := real) (nmax (A := real) (lm_mu_min o) (lm_mu_bar m / lm_lam o)) (lm_mu m)).
  { intros m'. unfold lm_update. replace (nleb _ _ && nleb _ _)%bool with true; [reflexivity|]. symmetry. apply lm_full_spec. reflexivity. }
  rewrite !F. cbn [lm_mu lm_mu_bar]. rewrite nmax_real. reflexivity.
Qed.
End Lm.

(** ** parameter gradient *)
Lemma lagr_grad_code d (dynp costp conp : nat -> vecR) k : lagr_grad_p d dynp costp conp k = sum (oN d) (fun i => dynp i k) + sum (S (oN d)) (fun i => costp i k) + sum (oN d) (fun i => conp i k).
Proof.
  unfold lagr_grad_p. rewrite (loop_ext _ _ (fun i g => g + (dynp i k + costp i k + conp i k))) by (intros; rr; change (num real) with R in *; lra).
  rewrite loop_sum. rewrite !sum_plus, sum_S. rr; change (num real) with R in *. lra.
Qed.
