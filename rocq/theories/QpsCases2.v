(** More concrete QPs for C46, C47 and C65. *)
From Coq Require Import ZArith List Bool Lia Reals Lra Psatz.
From Verif Require Import FP Arith Vec LinModel QpsModel QpsSpec Poly RSum QpsProofs QpsTop QpsWhole InterpProofs QpsFactor QpsTol QpsCases.
Import ListNotations.
Open Scope R_scope.

(** * One control with a lower bound: minimise H/2 u^2 + r u subject to u >= lo *)
Definition dO : qdims := mkD 0 (fun _ => O) (fun _ => 1%nat) (fun _ => 1%nat) (fun _ => O) (fun _ => O).
Definition qO (H r lo : R) : rqp := mkQp (A := real) (fun _ _ => r) (fun _ _ => 0) (fun _ _ _ => H) (fun _ _ _ => 0) (fun _ _ => 0)
  (fun _ => lst [lo; 0]) (fun _ => lst [1; 0]) (fun _ _ _ => 0) (fun _ _ => O) (fun _ _ => (-1)%Z).
Definition oO : qopts real := mkO (A := real) 1 (/ 10) true false.
Definition sO (u lam : R) : rsol := mkSol (A := real) (fun _ _ => u) (fun _ _ => 0) (fun _ => lst [lam; 0]).
Lemma O_own H r lo : own_slacks dO (qO H r lo).
Proof. intros i k Hi Hk. cbn. split; [left; reflexivity|]. intros B. lia. Qed.
Lemma O_masks H r lo : masks01 dO (qO H r lo).
Proof. intros i m Hi Hm. unfold nall in Hm. cbn in *. do 2 (destruct m as [|m]; [cbn; lra|]). lia. Qed.
Lemma O_eig H r lo : 0 < H -> eig_grad (A := real) vnrm dO (qO H r lo) = (H, Rabs r).
Proof.
  intros Hp. unfold eig_grad. cbn [qN dO loop fst snd]. rewrite !nmax_real. rr. change (num real) with R in *.
  assert (G : gersh_max (A := real) (qnx dO 0 + qnu dO 0) (q_H (qO H r lo) 0%nat) = H).
  { unfold gersh_max, gersh_radius, cmax. cbn -[Rltb Rleb Rabs]. rr. dec. }
  assert (Z1 : vnrm (2 * qns dO 0) (q_Z (qO H r lo) 0%nat) = 0) by reflexivity.
  pose proof (Rabs_pos r) as Pr.
  assert (Z2 : vnrm (qnx dO 0 + qnu dO 0 + 2 * qns dO 0) (q_rqz (qO H r lo) 0%nat) = Rabs r) by (cbn -[Rmax Rabs]; apply Rmax_right, Pr).
  rewrite G, Z1, Z2. f_equal; [dec|]. rewrite (Rabs_pos_eq (Rabs r)) by exact Pr. apply Rmax_right, Pr.
Qed.
Notation mO H r lo := (scale_qp (A := real) vnrm oO dO mem0 (qO H r lo)).
Lemma O_fac H r lo : 1 <= H -> H / 10 < Rabs r -> m_fac (mO H r lo) = / H /\ m_status (mO H r lo) = 0%Z.
Proof.
  intros Hp Hr. unfold scale_qp. cbn [o_obj oO m_fac m_status]. rewrite (O_eig H r lo) by lra. unfold obj_factor. cbn [fst snd o_ub o_lb oO]. rr.
  cbn [nltb nleb ndiv nmul real]. change (num real) with R. rewrite (Rltb_f H 1) by lra. rewrite Rleb_f.
  - cbn [fst snd]. split; [|reflexivity]. unfold Rdiv. apply Rmult_1_l.
  - apply Rmult_lt_reg_r with H; [lra|]. replace (1 / H * Rabs r * H) with (Rabs r) by (field; lra). lra.
Qed.
Lemma O_in H r lo : 1 <= H -> H / 10 < Rabs r -> let q' := m_in (mO H r lo) in
  q_H q' 0%nat 0%nat 0%nat = 1 /\ q_rqz q' 0%nat 0%nat = r / H /\ q_d q' = q_d (qO H r lo) /\ q_mask q' = q_mask (qO H r lo) /\
  q_idxb q' = q_idxb (qO H r lo) /\ q_rev q' = q_rev (qO H r lo).
Proof.
  intros Hp Hr. destruct (O_fac H r lo Hp Hr) as [F _]. cbv zeta. rewrite (m_in_obj vnrm oO dO mem0 (qO H r lo) eq_refl). cbv zeta.
  unfold scale_objective, cpsc, mcpsc, QpsWhole.f. cbn [o_obj oO q_H q_rqz q_d q_mask q_idxb q_rev qN dO Nat.leb qnx qnu Nat.add Nat.ltb andb].
  change (m_fac (mO H r lo)) with (m_fac (mO H r lo) : R). rewrite F. unfold qO, alias_in. cbn -[lst]. repeat split; rr; rR; field; lra.
Qed.
(** KKT of a QP with the shape of [qO] *)
Lemma O_kkt (q : rqp) u lam : q_mask q 0%nat = lst [1; 0] -> q_idxb q 0%nat = (fun _ => O) -> q_rev q 0%nat = (fun _ => (-1)%Z) ->
  kkt dO q (sO u lam) <-> q_H q 0%nat 0%nat 0%nat * u + q_rqz q 0%nat 0%nat = lam /\ 0 <= u - q_d q 0%nat 0%nat /\ 0 <= lam /\ lam * (u - q_d q 0%nat 0%nat) = 0.
Proof.
  intros Em Ei Er. change (num real) with R in *.
  assert (St : stat dO q (sO u lam) 0 0 = q_H q 0%nat 0%nat 0%nat * u + q_rqz q 0%nat 0%nat - lam).
  { unfold stat, sym, coef. cbn -[lst q_H q_rqz]. rewrite Ei. unfold lst. cbn [nth Nat.eqb]. rr. rR. lra. }
  assert (In : ineq dO q (s_ux (sO u lam)) 0 0 = u - q_d q 0%nat 0%nat).
  { unfold ineq, lin, slack, coef. rewrite Ei, Er. cbn -[q_d]. rr. rR. lra. }
  split.
  - intros (P1 & _ & _ & P4). specialize (P1 0%nat 0%nat (le_n _) ltac:(cbn; lia)). rewrite St in P1.
    destruct (P4 0%nat 0%nat (le_n _) ltac:(cbn; lia)) as [Q _]. rewrite Em, In in Q.
    destruct Q as (Q1 & Q2 & Q3); [unfold lst; cbn; lra|]. cbn in Q2, Q3. unfold lst in Q2, Q3. cbn [nth] in Q2, Q3. repeat split; try assumption. lra.
  - intros (Q1 & Q2 & Q3 & Q4). split; [|split; [|split]].
    + intros i r Hi Hr. cbn in Hi, Hr. replace i with O by lia. replace r with O by lia. rewrite St. lra.
    + intros i k up Hi Hk. cbn in Hk. lia.
    + intros i c Hi. cbn in Hi. lia.
    + intros i m Hi Hm. unfold nall in Hm. cbn in Hi, Hm. replace i with O by lia. rewrite Em. destruct m as [|[|m]]; [| |lia].
      * rewrite In. unfold lst. cbn [nth]. split; [intros _|intros B; exfalso; lra]. unfold sO. cbn. unfold lst. cbn [nth]. auto.
      * unfold lst. cbn [nth]. split; [intros B; exfalso; lra|]. intros _. reflexivity.
Qed.
(** the feasibility QP of the feasible-QP solver, unscaled with the memory of the nominal one *)
Lemma abs_n4 : Rabs (-4) = 4. Proof. rewrite Rabs_left1; lra. Qed.
Lemma O_nominal : kkt dO (m_in (mO 2 (-4) 0)) (sO 2 0).
Proof.
  destruct (O_in 2 (-4) 0 ltac:(lra) ltac:(rewrite abs_n4; lra)) as (H0 & r0 & d0 & Em & Ei & Er). cbv zeta in *.
  apply O_kkt; [rewrite Em; reflexivity|rewrite Ei; reflexivity|rewrite Er; reflexivity|]. rewrite H0, r0, d0. unfold qO, lst. cbn [q_d nth]. lra.
Qed.
Lemma O_feas : kkt dO (m_in (mO 1 1 1)) (sO 1 2).
Proof.
  destruct (O_in 1 1 1 ltac:(lra) ltac:(rewrite Rabs_R1; lra)) as (H0 & r0 & d0 & Em & Ei & Er). cbv zeta in *.
  apply O_kkt; [rewrite Em; reflexivity|rewrite Ei; reflexivity|rewrite Er; reflexivity|]. rewrite H0, r0, d0. unfold qO, lst. cbn [q_d nth]. lra.
Qed.
Lemma O_feas_wrong : ~ kkt dO (qO 1 1 1) (feasibility_solution (A := real) oO dO (solved (mO 2 (-4) 0) (sO 2 0)) (qO 1 1 1) (sO 1 2) out0).
Proof.
  intros (P & _). specialize (P 0%nat 0%nat (le_n _) ltac:(cbn; lia)). revert P.
  set (s := feasibility_solution _ _ _ _ _ _).
  assert (L : forall k, (k < 2)%nat -> (s_lam s 0%nat k : R) = 0).
  { intros k Hk. unfold s, feasibility_solution, rescale, scale_duals, cpsc. cbn [o_obj o_con oO s_lam qN dO Nat.leb]. cbn [qnb qng qns Nat.add Nat.mul].
    destruct (Nat.ltb_spec k 2); [|lia]. unfold solved. cbn [m_out m_fac s_lam sO]. destruct k as [|[|k]]; unfold lst; cbn [nth]; [apply Rmult_0_r|apply Rmult_0_r|lia]. }
  assert (U : (s_ux s 0%nat 0%nat : R) = 1) by reflexivity. clearbody s.
  unfold stat, sym, coef. cbn -[s_lam s_ux]. rewrite U, !L by lia. rr. rR. lra.
Qed.

(** * DDP: the scaled QP is never filled *)
Definition dD : qdims := mkD 0 (fun _ => O) (fun _ => 1%nat) (fun _ => O) (fun _ => O) (fun _ => O).
Lemma D_kkt (q : rqp) (s : rsol) : kkt dD q s <-> q_H q 0%nat 0%nat 0%nat * s_ux s 0%nat 0%nat + q_rqz q 0%nat 0%nat = 0.
Proof.
  assert (St : stat dD q s 0 0 = q_H q 0%nat 0%nat 0%nat * s_ux s 0%nat 0%nat + q_rqz q 0%nat 0%nat) by (unfold stat, sym; cbn; rr; rR; lra).
  rewrite <- St. split; [intros (P & _); apply P; cbn; lia|]. intros E. split; [|split; [|split]].
  - intros i r Hi Hr. cbn in Hi, Hr. replace i with O by lia. replace r with O by lia. exact E.
  - intros i k up Hi Hk. cbn in Hk. lia.
  - intros i c Hi. cbn in Hi. lia.
  - intros i m Hi Hm. unfold nall in Hm. cbn in Hm. lia.
Qed.
Lemma D_wrong (m : qmem real) : ~ forall q s' out, own_slacks dD q -> masks01 dD q ->
  (kkt dD (alias_in (A := real) oO q (m_in m)) s' <-> kkt dD q (rescale_solution (A := real) oO dD (solved m s') q out)).
Proof.
  intros H. assert (O1 : forall r, own_slacks dD (qO 1 r 0)) by (intros r i k Hi Hk; cbn in Hk; lia).
  assert (M1 : forall r, masks01 dD (qO 1 r 0)) by (intros r i k Hi Hk; unfold nall in Hk; cbn in Hk; lia).
  set (s := sO 0 0).
  pose proof (H (qO 1 0 0) s out0 (O1 0) (M1 0)) as E1. pose proof (H (qO 1 1 0) s out0 (O1 1) (M1 1)) as E2. rewrite !D_kkt in E1, E2.
  assert (X1 : q_H (qO 1 0 0) 0%nat 0%nat 0%nat * s_ux (rescale_solution (A := real) oO dD (solved m s) (qO 1 0 0) out0) 0%nat 0%nat + q_rqz (qO 1 0 0) 0%nat 0%nat = 0) by (cbn; rr; lra).
  assert (X2 : ~ q_H (qO 1 1 0) 0%nat 0%nat 0%nat * s_ux (rescale_solution (A := real) oO dD (solved m s) (qO 1 1 0) out0) 0%nat 0%nat + q_rqz (qO 1 1 0) 0%nat 0%nat = 0) by (cbn; rr; lra).
  apply X2, E2. apply E1 in X1. exact X1.
Qed.

(** * Objective factor *)
Lemma factor_case : obj_factor (A := real) 100000 (/ 10000) 1000000 1000 = (/ 10, false).
Proof. unfold obj_factor. cbn [nltb nleb ndiv nmul real]. rr. change (num real) with R. dec. f_equal. lra. Qed.
Lemma factor_lifted : obj_factor (A := real) 100000 (/ 10000) 1 (/ 100000) = (10, true).
Proof.
  unfold obj_factor. cbn [nltb nleb ndiv nmul real]. rr. change (num real) with R. rewrite (Rltb_t 1 100000) by lra. rewrite Rleb_t by lra.
  rewrite nmax_real, nmin_real. f_equal. replace (100000 / 1) with 100000 by field. replace (/ 10000 / / 100000) with 10 by field. dec.
Qed.
Definition dE : qdims := mkD 0 (fun _ => O) (fun _ => 5%nat) (fun _ => O) (fun _ => O) (fun _ => O).
Definition vE : vecR := lst [2; 1; 1; 1; 1].
(** the lower triangle of v v^T; the upper one as a freshly allocated matrix has it *)
Definition qE : rqp := mkQp (A := real) (fun _ _ => 10) (fun _ _ => 0) (fun _ r c => if (c <=? r)%nat then vE r * vE c else 0) (fun _ _ _ => 0) (fun _ _ => 0)
  (fun _ _ => 0) (fun _ _ => 0) (fun _ _ _ => 0) (fun _ _ => O) (fun _ _ => (-1)%Z).
Definition oE : qopts real := mkO (A := real) 7 (/ 10) true false.
Notation mE := (scale_qp (A := real) vnrm oE dE mem0 qE).
Lemma E_eig : eig_grad (A := real) vnrm dE qE = (6, 10).
Proof.
  unfold eig_grad. cbn [qN dE loop fst snd]. rewrite !nmax_real. rr. change (num real) with R in *.
  assert (G : gersh_max (A := real) (qnx dE 0 + qnu dE 0) (q_H qE 0%nat) = 6).
  { unfold gersh_max, gersh_radius. cbn [qnx qnu dE Nat.add loop]. rewrite !cmax_real. cbn -[Rmax Rabs]. rr. unfold vE, lst. cbn [nth]. dec. }
  assert (Z1 : vnrm (2 * qns dE 0) (q_Z qE 0%nat) = 0) by reflexivity.
  assert (Z2 : vnrm (qnx dE 0 + qnu dE 0 + 2 * qns dE 0) (q_rqz qE 0%nat) = 10) by (cbn -[Rmax Rabs]; dec).
  rewrite G, Z1, Z2. f_equal; dec.
Qed.
Lemma E_fac : m_fac mE = 1 /\ m_status mE = 0%Z.
Proof.
  unfold scale_qp. cbn [o_obj oE m_fac m_status]. rewrite E_eig. unfold obj_factor. cbn [fst snd o_ub o_lb oE]. rr.
  cbn [nltb nleb ndiv nmul real]. change (num real) with R. dec. cbn [fst snd]. split; reflexivity.
Qed.
Lemma E_large : eigenpair 5 (sym (m_in mE) 0) 8 vE /\ m_status mE = 0%Z.
Proof.
  split; [|exact (proj2 E_fac)]. split; [exists 0%nat; split; [lia|]; unfold vE, lst; cbn; lra|].
  assert (S : forall r c, (r < 5)%nat -> (c < 5)%nat -> sym (m_in mE) 0 r c = vE r * vE c).
  { intros r c Hr Hc. unfold sym. rewrite (m_in_obj vnrm oE dE mem0 qE eq_refl). cbv zeta. unfold scale_objective, mcpsc, QpsWhole.f.
    cbn [o_obj oE q_H qN dE Nat.leb qnx qnu Nat.add]. change (m_fac mE) with (m_fac mE : R). rewrite (proj1 E_fac). unfold qE. cbn [q_H].
    destruct (Nat.leb_spec c r) as [L|L].
    - destruct (Nat.ltb_spec r 5), (Nat.ltb_spec c 5); try lia. cbn [andb]. rr. rR. ring.
    - destruct (Nat.ltb_spec r 5), (Nat.ltb_spec c 5); try lia. cbn [andb]. destruct (Nat.leb_spec r c); [|lia]. rr. rR. ring. }
  intros i Hi. rewrite (sum_ext 5 _ (fun j => vE i * (vE j * vE j))) by (intros j Hj; rewrite S by assumption; ring).
  rewrite sum_scal. rewrite Rmult_comm. f_equal. cbn. unfold vE, lst. cbn [nth]. lra.
Qed.

(** doubles: zero Hessian and zero gradient; zero gradient with a zero lower limit *)
Local Notation c5 := (dcst 1 5). Local Notation c4 := (dcst 1 (-4)).
Lemma zero_inf : isinf (fst (obj_factor (A := dbl) c5 c4 f0 f0)) = true /\ snd (obj_factor (A := dbl) c5 c4 f0 f0) = true.
Proof. split; vm_compute; reflexivity. Qed.
Lemma zero_nan : isnan (fst (obj_factor (A := dbl) c5 f0 f1 f0)) = true.
Proof. vm_compute; reflexivity. Qed.
Definition dnrm (n : nat) (x : nat -> double) : double := loop n (fun k a => nmax (A := dbl) a (fabs (x k))) f0.
Definition q0 : qp dbl := mkQp (A := dbl) (fun _ _ => f0) (fun _ _ => f0) (fun _ _ _ => f0) (fun _ _ _ => f0) (fun _ _ => f0)
  (fun _ _ => f0) (fun _ _ => f0) (fun _ _ _ => f0) (fun _ _ => O) (fun _ _ => (-1)%Z).
Definition o0 : qopts dbl := mkO (A := dbl) c5 c4 true false.
Definition mm0 : qmem dbl := mkQM (A := dbl) 0 f1 (fun _ _ => f1) q0 (mkSol (fun _ _ => f0) (fun _ _ => f0) (fun _ _ => f0)).
Lemma zero_qp_nan : isnan (q_rqz (m_in (scale_qp (A := dbl) dnrm o0 dD mm0 q0)) 0%nat 0%nat) = true.
Proof. vm_compute; reflexivity. Qed.

(** * Adapted tolerances *)
Definition tol1 : tols real := mkT (A := real) 1 1 1 1.
Definition tol0 : tols real := mkT (A := real) 0 0 0 0.
(** complementarity: scaled objective, factor 1/2; u = 1/2, scaled multiplier 2 *)
Lemma O_comp : exists t, adaptive_tols (A := real) 1 tol1 tol0 oO dO (mO 2 3 0) = Some t /\
  within dO (m_in (mO 2 3 0)) (sO (/ 2) 2) t /\ ~ res_comp dO (qO 2 3 0) (rescale_solution (A := real) oO dO (solved (mO 2 3 0) (sO (/ 2) 2)) (qO 2 3 0) out0) 1.
Proof.
  assert (A3 : 2 / 10 < Rabs 3) by (rewrite Rabs_pos_eq; lra).
  destruct (O_in 2 3 0 ltac:(lra) A3) as (H0 & r0 & d0 & Em & Ei & Er). cbv zeta in *. destruct (O_fac 2 3 0 ltac:(lra) A3) as [F _].
  assert (Fr : (m_fac (mO 2 3 0) : R) = / 2) by exact F. set (m1 := mO 2 3 0) in *. clearbody m1.
  eexists. split; [reflexivity|]. split.
  - assert (Im : forall m, (m < 2)%nat -> q_mask (m_in m1) 0%nat m <> 0 -> m = 0%nat).
    { intros m Hm. rewrite Em. unfold qO, lst. cbn [q_mask]. destruct m as [|[|m]]; [auto| |lia]. cbn [nth]. intros B. exfalso. apply B. reflexivity. }
    assert (In : ineq dO (m_in m1) (s_ux (sO (/ 2) 2)) 0 0 = / 2).
    { unfold ineq, lin, slack, coef. rewrite Ei, Er, d0. cbn. unfold lst. cbn [nth]. rr. rR. lra. }
    split; [split|split; [|split]]; cbn [t_stat t_eq t_ineq t_comp tol1 tol0]; rewrite ?nmax_real, ?nmin_real.
    + intros i r Hi Hr. cbn in Hi, Hr. replace i with O by lia. replace r with O by lia.
      assert (St : stat dO (m_in m1) (sO (/ 2) 2) 0 0 = 0).
      { unfold stat, sym, coef. rewrite Ei. cbn -[q_H q_rqz]. unfold lst. cbn [nth]. rR. rewrite H0, r0. lra. }
      rewrite St, Rabs_R0. apply Rmax_r.
    + intros i k up Hi Hk. cbn in Hk. lia.
    + intros i c Hi. cbn in Hi. lia.
    + intros i m Hn Hi Hm K. cbn in Hi. unfold nall in Hm. cbn in Hm. replace i with O in * by lia. rewrite (Im m Hm K), In. rr. rR. dec.
    + intros i m Hi Hm K. cbn in Hi. unfold nall in Hm. cbn in Hm. replace i with O in * by lia. rewrite (Im m Hm K), In.
      unfold sO, lst. cbn [s_lam nth]. rr. rR. dec.
  - intros B. specialize (B 0%nat 0%nat (le_n _) ltac:(cbn; lia)). cbn [q_mask qO] in B. unfold lst at 1 in B. cbn [nth] in B. specialize (B ltac:(rr; lra)). revert B.
    assert (L : (s_lam (rescale_solution (A := real) oO dO (solved m1 (sO (/ 2) 2)) (qO 2 3 0) out0) 0%nat 0%nat : R) = 4).
    { transitivity (1 / m_fac m1 * 2)%R; [reflexivity|]. rewrite Fr. field. }
    assert (In : ineq dO (qO 2 3 0) (s_ux (rescale_solution (A := real) oO dO (solved m1 (sO (/ 2) 2)) (qO 2 3 0) out0)) 0 0 = / 2).
    { unfold ineq, lin, slack, coef. cbn. unfold lst. cbn [nth]. rr. rR. lra. }
    rewrite L, In. dec.
Qed.
(** the last stage: minimise u^2/2 + u subject to 10 u >= 0; at u = -1 the scaled row is violated by 1, the original one by 10 *)
Definition dT : qdims := mkD 0 (fun _ => O) (fun _ => 1%nat) (fun _ => O) (fun _ => 1%nat) (fun _ => O).
Definition qT : rqp := mkQp (A := real) (fun _ _ => 1) (fun _ _ => 0) (fun _ _ _ => 1) (fun _ _ _ => 0) (fun _ _ => 0)
  (fun _ _ => 0) (fun _ => lst [1; 0]) (fun _ _ _ => 10) (fun _ _ => O) (fun _ _ => (-1)%Z).
Definition oT : qopts real := mkO (A := real) 1 (/ 10) false true.
Notation mT := (scale_qp (A := real) vnrm oT dT mem0 qT).
Lemma T_own : own_slacks dT qT.
Proof. intros i k Hi Hk. cbn. split; [left; reflexivity|]. intros B. lia. Qed.
Lemma T_masks : masks01 dT qT.
Proof. intros i m Hi Hm. unfold nall in Hm. cbn in *. do 2 (destruct m as [|m]; [cbn; lra|]). lia. Qed.
Lemma T_sf : sf dT qT 0 0 = / 10.
Proof. unfold sf, sfv, col_norm. cbn -[Rmax Rabs nmax]. rewrite !nmax_real. rr. unfold lst. cbn [nth]. dec. Qed.
Lemma T_term : exists t, adaptive_tols (A := real) 1 tol1 tol0 oT dT mT = Some t /\
  within dT (m_in mT) (sO (-1) 0) t /\ ~ res_ineq dT qT (S (qN dT)) (s_ux (rescale_solution (A := real) oT dT (solved mT (sO (-1) 0)) qT out0)) 1.
Proof.
  assert (F : m_fac mT = 1) by reflexivity. assert (Fp : 0 < m_fac mT) by (rewrite F; lra).
  pose proof (scaled_ok vnrm oT dT mem0 qT T_own T_masks Fp) as Sc. assert (Ff : QpsWhole.f vnrm oT dT mem0 qT = 1) by exact F.
  pose proof (SH _ _ _ _ _ _ Sc 0 0 0 (le_n _) ltac:(cbn; lia) ltac:(cbn; lia))%nat as H0. pose proof (Srq _ _ _ _ _ _ Sc 0 0 (le_n _) ltac:(cbn; lia))%nat as r0.
  pose proof (SDC _ _ _ _ _ _ Sc 0 0 0 (le_n _) ltac:(cbn; lia) ltac:(cbn; lia))%nat as D0. pose proof (fun k => Sd _ _ _ _ _ _ Sc 0 k (le_n _))%nat as d0.
  pose proof (Smask _ _ _ _ _ _ Sc) as Em. pose proof (Srv _ _ _ _ _ _ Sc) as Er. rewrite Ff in H0, r0.
  assert (Rh : rho oT dT qT 0 0 = / 10) by (unfold rho; cbn [o_con oT andb qnb dT Nat.leb Nat.sub]; exact T_sf).
  change (qnb dT 0 + 0)%nat with 0%nat in D0. rewrite Rh in D0. clear Sc.
  eexists. split; [reflexivity|]. split.
  - set (q' := m_in mT) in *. clearbody q'.
    assert (Im : forall m, (m < 2)%nat -> q_mask q' 0%nat m <> 0 -> m = 0%nat).
    { intros m Hm. rewrite Em. unfold qT, lst. cbn [q_mask]. destruct m as [|[|m]]; [auto| |lia]. cbn [nth]. intros B. exfalso. apply B. reflexivity. }
    assert (dz : (q_d q' 0%nat 0%nat : R) = 0).
    { rewrite (d0 0%nat) by (first [cbn; lia | cbn; unfold lst; cbn [nth]; rr; lra]). cbn. rr. rR. ring. }
    assert (In : ineq dT q' (s_ux (sO (-1) 0)) 0 0 = -1).
    { unfold ineq, lin, slack, coef. rewrite Er. cbn -[q_d q_DC]. rR. rewrite D0, dz. cbn. rR. lra. }
    split; [split|split; [|split]]; cbn [t_stat t_eq t_ineq t_comp tol1 tol0]; rewrite ?nmax_real, ?nmin_real.
    + intros i r Hi Hr. cbn in Hi, Hr. replace i with O by lia. replace r with O by lia.
      assert (St : stat dT q' (sO (-1) 0) 0 0 = 0).
      { unfold stat, sym, coef. cbn -[q_H q_rqz q_DC]. unfold lst. cbn [nth]. rR. rewrite H0, r0. cbn. rR. lra. }
      rewrite St, Rabs_R0. apply Rmax_r.
    + intros i k up Hi Hk. cbn in Hk. lia.
    + intros i c Hi. cbn in Hi. lia.
    + intros i m Hn Hi Hm K. cbn in Hi. unfold nall in Hm. cbn in Hm. replace i with O in * by lia. rewrite (Im m Hm K), In. cbn. rr. rR. dec.
    + intros i m Hi Hm K. cbn in Hi. unfold nall in Hm. cbn in Hm. replace i with O in * by lia. rewrite (Im m Hm K), In.
      unfold sO, lst. cbn [s_lam nth]. rewrite Rmult_0_l, Rabs_R0. apply Rmax_r.
  - intros B. specialize (B 0%nat 0%nat (le_n _) (le_n _) ltac:(cbn; lia)). cbn [q_mask qT] in B. unfold lst at 1 in B. cbn [nth] in B. specialize (B ltac:(rr; lra)). revert B.
    assert (In : ineq dT qT (s_ux (rescale_solution (A := real) oT dT (solved mT (sO (-1) 0)) qT out0)) 0 0 = -10).
    { unfold ineq, lin, slack, coef. cbn. rr. rR. lra. }
    rewrite In. lra.
Qed.
(** objective scaling alone: a null pointer is read as soon as some stage before the last has a general constraint *)
Lemma min_null (o : qopts real) d m i : o_con o = false -> (i < qN d)%nat -> (0 < qng d i)%nat -> forall safety nlp floor, adaptive_tols (A := real) safety nlp floor o d m = None.
Proof.
  intros Ec Hi Hg safety nlp floor. unfold adaptive_tols, min_scaling. rewrite Ec.
  assert (L : forall n b, (i < n)%nat -> loop n (fun i b => b || (0 <? qng d i)%nat) b = true).
  { induction n as [|n IH]; intros b Hn; [lia|]. cbn [loop]. destruct (Nat.eq_dec i n) as [->|N].
    - apply orb_true_iff. right. apply Nat.ltb_lt, Hg.
    - rewrite IH by lia. reflexivity. }
  rewrite L by exact Hi. reflexivity.
Qed.

(** * Existential forms *)
Lemma shared_slack nrm : exists o d m q s' out, masks01 d q /\ let m1 := scale_qp (A := real) nrm o d m q in
  0 < m_fac m1 /\ kkt d (m_in m1) s' /\ ~ kkt d q (rescale_solution (A := real) o d (solved m1 s') q out).
Proof.
  exists oB, dB, mem0, qB, sB', out0. split; [|split; [|split; [exact (B_scaled nrm)|exact (B_wrong nrm)]]].
  - intros i m Hi Hm. unfold nall in Hm. cbn in *. do 6 (destruct m as [|m]; [cbn; lra|]). lia.
  - cbn. rr. lra.
Qed.
Lemma feasibility_wrong : exists nrm o d m qn qf sn sf out, nrm_ok nrm /\ own_slacks d qf /\ masks01 d qf /\
  let mn := scale_qp (A := real) nrm o d m qn in let mf := scale_qp (A := real) nrm o d m qf in 0 < m_fac mn /\ 0 < m_fac mf /\
  kkt d (m_in mn) sn /\ kkt d (m_in mf) sf /\ ~ kkt d qf (feasibility_solution (A := real) o d (solved mn sn) qf sf out).
Proof.
  exists vnrm, oO, dO, mem0, (qO 2 (-4) 0), (qO 1 1 1), (sO 2 0), (sO 1 2), out0. split; [exact vnrm_ok|]. split; [apply O_own|]. split; [apply O_masks|]. cbv zeta.
  split; [rewrite (proj1 (O_fac 2 (-4) 0 ltac:(lra) ltac:(rewrite abs_n4; lra))); lra|].
  split; [rewrite (proj1 (O_fac 1 1 1 ltac:(lra) ltac:(rewrite Rabs_R1; lra))); lra|].
  exact (conj O_nominal (conj O_feas O_feas_wrong)).
Qed.
Lemma feasibility_ignored (o : qopts real) d m q sf1 sf2 out : o_con o = true -> feasibility_solution (A := real) o d m q sf1 out = feasibility_solution (A := real) o d m q sf2 out.
Proof. intros E. unfold feasibility_solution, alias_out. rewrite E. reflexivity. Qed.
Lemma triangle : exists nrm o d m q lam v, nrm_ok nrm /\ o_obj o = true /\ let m1 := scale_qp (A := real) nrm o d m q in
  eigenpair (nv d 0) (sym (m_in m1) 0) lam v /\ o_ub o < lam /\ m_status m1 = 0%Z.
Proof.
  exists vnrm, oE, dE, mem0, qE, 8, vE. split; [exact vnrm_ok|]. split; [reflexivity|]. cbv zeta. split; [exact (proj1 E_large)|]. split; [cbn; rr; lra|exact (proj2 E_large)].
Qed.
Lemma lifted : exists ub lb eig grad f, 0 < ub /\ 0 < lb /\ 0 < eig /\ 0 < grad /\ obj_factor (A := real) ub lb eig grad = (f, true) /\ lb <= f * grad /\ f * eig <= ub.
Proof. exists 100000, (/ 10000), 1, (/ 100000), 10. repeat split; try lra. exact factor_lifted. Qed.
Lemma comp_wrong : exists nrm o d m q s' out nlp floor t, own_slacks d q /\ masks01 d q /\ let m1 := scale_qp (A := real) nrm o d m q in
  0 < m_fac m1 /\ adaptive_tols (A := real) 1 nlp floor o d m1 = Some t /\ within d (m_in m1) s' t /\
  ~ res_comp d q (rescale_solution (A := real) o d (solved m1 s') q out) (t_comp nlp).
Proof.
  destruct O_comp as (t & H1 & H2 & H3). exists vnrm, oO, dO, mem0, (qO 2 3 0), (sO (/ 2) 2), out0, tol1, tol0, t. split; [apply O_own|]. split; [apply O_masks|].
  cbv zeta. split; [rewrite (proj1 (O_fac 2 3 0 ltac:(lra) ltac:(rewrite Rabs_pos_eq; lra))); lra|]. exact (conj H1 (conj H2 H3)).
Qed.
Lemma term_wrong : exists nrm o d m q s' out nlp floor t, own_slacks d q /\ masks01 d q /\ let m1 := scale_qp (A := real) nrm o d m q in
  0 < m_fac m1 /\ adaptive_tols (A := real) 1 nlp floor o d m1 = Some t /\ within d (m_in m1) s' t /\
  ~ res_ineq d q (S (qN d)) (s_ux (rescale_solution (A := real) o d (solved m1 s') q out)) (t_ineq nlp).
Proof.
  destruct T_term as (t & H1 & H2 & H3). exists vnrm, oT, dT, mem0, qT, (sO (-1) 0), out0, tol1, tol0, t. split; [apply T_own|]. split; [apply T_masks|].
  cbv zeta. split; [cbn; rr; lra|]. exact (conj H1 (conj H2 H3)).
Qed.
