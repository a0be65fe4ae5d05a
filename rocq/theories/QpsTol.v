(** C65: residuals of the scaled QP below the adapted tolerances, seen in the original QP. *)
From Coq Require Import ZArith List Bool Lia Reals Lra Psatz.
From Verif Require Import Arith Vec LinModel QpsModel QpsSpec Poly RSum QpsProofs QpsTop QpsWhole.
Open Scope R_scope.

Lemma min_loop (g : nat -> R) n s : let r := loop n (fun j s => if Rltb (g j) s then g j else s) s in
  r <= s /\ (forall j, (j < n)%nat -> r <= g j) /\ (0 < s -> (forall j, (j < n)%nat -> 0 < g j) -> 0 < r).
Proof.
  cbv zeta. induction n as [|n (I1 & I2 & I3)]; cbn [loop]; [split; [lra|split; [lia|auto]]|].
  set (r := loop n _ s) in *. destruct (Rltb_spec (g n) r) as [L|L]; (split; [lra|split]).
  - intros j Hj. destruct (Nat.eq_dec j n) as [->|N]; [lra|]. specialize (I2 j ltac:(lia)). lra.
  - intros Hs Hg. apply Hg. lia.
  - intros j Hj. destruct (Nat.eq_dec j n) as [->|N]; [lra|]. apply I2. lia.
  - intros Hs Hg. apply I3; [exact Hs|]. intros j Hj. apply Hg. lia.
Qed.
Lemma min_loop2 (g : nat -> nat -> R) (ng : nat -> nat) n s :
  let r := loop n (fun i s => loop (ng i) (fun j s => if Rltb (g i j) s then g i j else s) s) s in
  r <= s /\ (forall i j, (i < n)%nat -> (j < ng i)%nat -> r <= g i j) /\ (0 < s -> (forall i j, (i < n)%nat -> (j < ng i)%nat -> 0 < g i j) -> 0 < r).
Proof.
  cbv zeta. induction n as [|n (I1 & I2 & I3)]; cbn [loop]; [split; [lra|split; [lia|auto]]|].
  set (t := loop n _ s) in *. destruct (min_loop (g n) (ng n) t) as (J1 & J2 & J3). set (r := loop (ng n) _ t) in *. cbv zeta in *. split; [lra|split].
  - intros i j Hi Hj. destruct (Nat.eq_dec i n) as [->|N]; [apply J2, Hj|]. specialize (I2 i j ltac:(lia) Hj). lra.
  - intros Hs Hg. apply J3; [apply I3; [exact Hs|]|]; intros; apply Hg; lia.
Qed.

Section T.
Variable nrm : nat -> vecR -> R.
Variables (o : qopts real) (d : qdims) (m : qmem real) (q : rqp).
Hypothesis Own : own_slacks d q.
Hypothesis M01 : masks01 d q.
Notation m1 := (scale_qp (A := real) nrm o d m q).
Hypothesis Fpos : 0 < m_fac m1.
Variable mc : R.
Hypothesis Hmc : min_scaling (A := real) o d m1 = Some mc.
Notation f := (f nrm o d m q). Notation rho := (rho o d q). Notation sig := (sig o d q).

Lemma mc_ok : 0 < mc <= 1 /\ forall i k, (i < qN d)%nat -> (k < nrow d i)%nat -> mc <= rho i k.
Proof.
  unfold min_scaling in Hmc. destruct (o_con o) eqn:Ec.
  - injection Hmc as E. destruct (min_loop2 (fun i j => m_sc m1 i j : R) (qng d) (qN d) 1) as (J1 & J2 & J3). cbv zeta in *.
    assert (E' : loop (qN d) (fun i s => loop (qng d i) (fun j s => if Rltb (m_sc m1 i j) s then (m_sc m1 i j : R) else s) s) 1 = mc) by exact E.
    rewrite E' in J1, J2, J3. clear E E'.
    assert (P : forall i j, (i < qN d)%nat -> (j < qng d i)%nat -> (m_sc m1 i j : R) = sf d q i j) by (intros i j Hi Hj; apply sc_ok; auto; lia).
    split; [split; [|exact J1]|].
    + apply J3; [lra|]. intros i j Hi Hj. rewrite P by assumption. apply sfv_pos.
    + intros i k Hi Hk. unfold QpsWhole.rho. rewrite Ec. cbn [andb]. destruct (Nat.leb_spec (qnb d i) k) as [L|L]; [|exact J1].
      rewrite <- P by (unfold nrow in Hk; lia). apply J2; unfold nrow in Hk; lia.
  - assert (E : mc = 1) by (destruct (loop _ _ _) in Hmc; [discriminate Hmc|injection Hmc as <-; reflexivity]). rewrite E.
    split; [lra|]. intros i k _ _. unfold QpsWhole.rho. rewrite Ec. cbn [andb]. lra.
Qed.
Lemma sprod_cases i k : (i <= qN d)%nat ->
  sig i k = 1 \/ exists l, (l < nrow d i)%nat /\ sig i k = rho i l.
Proof.
  intros Hi. unfold QpsWhole.sig. destruct (o_con o) eqn:Ec; [|left; reflexivity].
  destruct (List.existsb (fun j => (q_rev q i (qnb d i + j)%nat =? Z.of_nat k)%Z) (List.seq 0 (qng d i))) eqn:X.
  - apply List.existsb_exists in X. destruct X as (j & Hj & E). apply List.in_seq in Hj. apply Z.eqb_eq in E. right. exists (qnb d i + j)%nat.
    split; [unfold nrow; lia|]. pose proof (sig_rho o d q Own i (qnb d i + j) Hi ltac:(unfold nrow; lia) ltac:(lia)) as G.
    rewrite E, Nat2Z.id in G. rewrite <- G. unfold QpsWhole.sig. rewrite Ec. reflexivity.
  - left. apply sprod_one. intros j Hj E. assert (Y : List.existsb (fun j => (q_rev q i (qnb d i + j)%nat =? Z.of_nat k)%Z) (List.seq 0 (qng d i)) = true).
    { apply List.existsb_exists. exists j. split; [apply List.in_seq; lia|]. rewrite E. apply Z.eqb_refl. }
    rewrite Y in X. discriminate X.
Qed.
Lemma rho_le1 i k : rho i k <= 1.
Proof. unfold QpsWhole.rho. destruct (_ && _); [apply sfv_pos|lra]. Qed.
Lemma sig_le1 i k : (i <= qN d)%nat -> sig i k <= 1.
Proof. intros Hi. destruct (sprod_cases i k Hi) as [->|(l & _ & ->)]; [lra|apply rho_le1]. Qed.
Lemma mc_tau i k : (i < qN d)%nat -> (k < nall d i)%nat -> mc <= tau d rho sig i k.
Proof.
  intros Hi Hk. destruct mc_ok as [M1 M2]. unfold tau. destruct (Nat.ltb_spec k (nrow d i)) as [L|L]; [apply M2; assumption|].
  destruct (Nat.ltb_spec k (2 * nrow d i)) as [L2|L2]; [apply M2; lia|]. cbv zeta. destruct (sprod_cases i (if (k - 2 * nrow d i <? qns d i)%nat then k - 2 * nrow d i else k - 2 * nrow d i - qns d i)%nat ltac:(lia)) as [->|(l & Hl & ->)].
  - lra.
  - apply M2; assumption.
Qed.

Variables s' out : rsol.
Notation s1 := (rescale_solution (A := real) o d (solved m1 s') q out).
Variables (safety : R) (nlp floor t : tols real).
Hypothesis Ht : adaptive_tols (A := real) safety nlp floor o d m1 = Some t.
Hypothesis Hpos : 0 <= safety * t_stat nlp /\ 0 <= safety * t_ineq nlp /\ 0 <= t_stat floor /\ 0 <= t_ineq floor.

Lemma tols_val : (t_stat t : R) = Rmax (safety * t_stat nlp * Rmin (m_fac m1) mc) (t_stat floor) /\ (t_eq t : R) = Rmax (safety * t_eq nlp) (t_eq floor) /\
  (t_ineq t : R) = Rmax (safety * t_ineq nlp * mc) (t_ineq floor) /\ (t_comp t : R) = Rmax (safety * t_comp nlp * mc) (t_comp floor).
Proof.
  unfold adaptive_tols in Ht. rewrite Hmc in Ht. cbv zeta in Ht. generalize dependent (m_fac m1). intros ff _ Hf.
  apply (f_equal (fun x => match x with Some y => y | None => t end)) in Hf. rewrite <- Hf. cbn [t_stat t_eq t_ineq t_comp].
  rewrite !nmax_real, nmin_real. split; [reflexivity|split; [|split; reflexivity]]. apply (f_equal2 Rmax); [|reflexivity]. exact (Rmult_1_r (safety * t_eq nlp)).
Qed.
Lemma unscale a x T F : 0 < a -> a * Rabs x <= Rmax (T * a) F -> Rabs x <= Rmax T (F / a).
Proof.
  intros Ha H. apply Rmult_le_reg_l with a; [exact Ha|]. rewrite <- RmaxRmult by lra.
  replace (a * (F / a)) with F by (field; lra). rewrite (Rmult_comm a T). exact H.
Qed.

Lemma residuals_ok :
  (res_stat d (m_in m1) s' (t_stat t) -> res_stat d q s1 (Rmax (safety * t_stat nlp) (t_stat floor / m_fac m1))) /\
  (res_dyn d (m_in m1) (s_ux s') (t_eq t) -> res_dyn d q (s_ux s1) (Rmax (safety * t_eq nlp) (t_eq floor))) /\
  (res_ineq d (m_in m1) (qN d) (s_ux s') (t_ineq t) -> res_ineq d q (qN d) (s_ux s1) (Rmax (safety * t_ineq nlp) (t_ineq floor / mc))) /\
  (res_comp d (m_in m1) s' (t_comp t) -> res_comp d q s1 (Rmax (safety * t_comp nlp * mc) (t_comp floor) / m_fac m1)).
Proof.
  pose proof (scaled_ok nrm o d m q Own M01 Fpos) as Sc. pose proof (rel_ok nrm o d m q Own Fpos s' out) as Rs. pose proof (Ru _ _ _ _ _ _ Rs) as Rw.
  destruct mc_ok as [[Mp M1] M2]. destruct tols_val as (T1 & T2 & T3 & T4). destruct Hpos as (Hs & Hi0 & Hfs & Hfi).
  pose proof Fpos as Fp. change (m_fac m1) with f in *. set (g := f) in *. change (num real) with R in *.
  assert (Tl : Rmax (safety * t_stat nlp * Rmin g mc) (t_stat floor) <= Rmax (safety * t_stat nlp * g) (t_stat floor)).
  { apply Rle_max_compat_r. apply Rmult_le_compat_l; [exact Hs|apply Rmin_l]. }
  split; [|split; [|split]].
  - intros [P Q]. rewrite T1 in P, Q. split.
    + intros i r Hi Hr. specialize (P i r Hi Hr). rewrite (stat_scaled _ _ _ _ _ _ _ _ Sc Rs i r Hi Hr) in P. fold g in P. rewrite Rabs_mult, (Rabs_pos_eq g) in P by lra.
      apply unscale; [exact Fp|]. lra.
    + intros i k up Hi Hk. specialize (Q i k up Hi Hk). rewrite (stat_slack_scaled _ _ _ _ _ _ _ _ Sc Rs i k up Hi Hk) in Q. fold g in Q.
      pose proof (sig_pos o d q i k) as Sp. pose proof (sig_le1 i k Hi) as Sl.
      assert (Gs : g <= g / sig i k) by (apply Rmult_le_reg_r with (sig i k); [exact Sp|]; unfold Rdiv; rewrite Rmult_assoc, Rinv_l by lra; nra).
      rewrite Rabs_mult, (Rabs_pos_eq (g / sig i k)) in Q by lra. apply unscale; [exact Fp|].
      pose proof (Rabs_pos (stat_slack d q s1 i k up)). apply Rle_trans with (g / sig i k * Rabs (stat_slack d q s1 i k up)); [apply Rmult_le_compat_r; assumption|]. lra.
  - intros P i c Hi Hc. specialize (P i c Hi Hc). rewrite (dyn_scaled _ _ _ _ _ _ _ _ Sc Rw i c Hi Hc), T2 in P. exact P.
  - intros P i k Hn Hi Hk Mk. assert (Mk' : q_mask (m_in m1) i k <> 0) by (rewrite (Smask _ _ _ _ _ _ Sc); exact Mk).
    specialize (P i k Hn Hi Hk Mk'). rewrite (ineq_scaled _ _ _ _ _ _ _ _ Sc Rw i k Hi Hk Mk), T3 in P.
    pose proof (mc_tau i k Hn Hk) as Tm. set (a := tau d rho sig i k) in *. set (x := ineq d q (s_ux s1) i k) in *.
    assert (D : mc * (- x) <= Rmax (safety * t_ineq nlp * mc) (t_ineq floor)).
    { destruct (Rle_lt_dec 0 x) as [L|L].
      - apply Rle_trans with 0; [nra|]. eapply Rle_trans; [|apply Rmax_r]. exact Hfi.
      - apply Rle_trans with (a * - x); [nra|lra]. }
    assert (- x <= Rmax (safety * t_ineq nlp) (t_ineq floor / mc)); [|lra].
    apply Rmult_le_reg_l with mc; [exact Mp|]. rewrite <- RmaxRmult by lra. set (fi := t_ineq floor : R) in *. replace (mc * (fi / mc)) with fi by (field; lra). unfold fi.
    rewrite (Rmult_comm mc (safety * t_ineq nlp)). exact D.
  - intros P i k Hi Hk Mk. assert (Mk' : q_mask (m_in m1) i k <> 0) by (rewrite (Smask _ _ _ _ _ _ Sc); exact Mk).
    specialize (P i k Hi Hk Mk'). rewrite (ineq_scaled _ _ _ _ _ _ _ _ Sc Rw i k Hi Hk Mk), T4 in P.
    pose proof (tau_pos _ _ _ _ _ _ Sc i k) as Tp. rewrite (Rlam _ _ _ _ _ _ Rs i k Hi Hk). fold g.
    set (a := tau d rho sig i k) in *. set (x := ineq d q (s_ux s1) i k) in *. change (num real) with R in *.
    replace (a * s_lam s' i k / g * x) with (/ g * (s_lam s' i k * (a * x))) by (field; lra).
    rewrite Rabs_mult, (Rabs_pos_eq (/ g)) by (left; apply Rinv_0_lt_compat, Fp). unfold Rdiv. rewrite Rmult_comm. apply Rmult_le_compat_r; [left; apply Rinv_0_lt_compat, Fp|exact P].
Qed.
End T.
