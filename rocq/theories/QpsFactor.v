(** C47: the objective scaling factor, over the reals and over doubles. *)
From Coq Require Import ZArith List Bool Lia Reals Lra Psatz.
From Flocq Require Import IEEE754.BinarySingleNaN.
From Verif Require Import FP FPProofs FPRound Arith Vec LinModel QpsModel QpsSpec Poly RSum QpsProofs QpsTop QpsWhole InterpProofs.
Open Scope R_scope.

Lemma factor_limits ub lb eig grad f v : 0 < ub -> 0 < eig -> 0 < grad -> obj_factor (A := real) ub lb eig grad = (f, v) ->
  0 < f /\ f * eig <= ub /\
  (v = false -> f = Rmin 1 (ub / eig) /\ lb < f * grad) /\
  (v = true -> f * grad <= lb /\ (f * grad = lb \/ f * eig = ub)).
Proof.
  intros Hu He Hg E. unfold obj_factor in E. rewrite nmin_real, nmax_real in E. rr. cbn [nltb nleb ndiv real] in E. change (num real) with R in *.
  assert (Q : 0 < ub / eig) by (apply Rdiv_lt_0_compat; assumption).
  assert (Qe : ub / eig * eig = ub) by (field; lra).
  set (f0 := if Rltb eig ub then 1 else ub / eig) in E.
  set (up := if Rltb eig ub then ub / eig else f0) in E.
  assert (F : 0 < f0 /\ f0 <= ub / eig /\ up = ub / eig /\ f0 = Rmin 1 (ub / eig)).
  { unfold up, f0. destruct (Rltb_spec eig ub) as [L|L].
    - assert (1 <= ub / eig) by (apply Rmult_le_reg_r with eig; lra). rewrite Rmin_left by lra. lra.
    - assert (ub / eig <= 1) by (apply Rmult_le_reg_r with eig; lra). rewrite Rmin_right by lra. lra. }
  clearbody f0 up. destruct F as (F1 & F2 & -> & F3).
  assert (G : lb / grad * grad = lb) by (field; lra).
  destruct (Rleb_spec (f0 * grad) lb) as [L|L]; injection E as <- <-.
  - assert (f0 <= lb / grad) by (apply Rmult_le_reg_r with grad; lra).
    assert (M : Rmax f0 (Rmin (ub / eig) (lb / grad)) = Rmin (ub / eig) (lb / grad)).
    { apply Rmax_right. apply Rmin_glb; assumption. }
    rewrite M. split; [|split; [|split]].
    + apply Rmin_glb_lt; lra.
    + rewrite <- Qe at 2. apply Rmult_le_compat_r; [lra|apply Rmin_l].
    + intros K. discriminate K.
    + intros _. split.
      * rewrite <- G at 2. apply Rmult_le_compat_r; [lra|apply Rmin_r].
      * unfold Rmin. destruct (Rle_dec (ub / eig) (lb / grad)); [right; exact Qe|left; exact G].
  - split; [exact F1|]. split; [|split].
    + rewrite <- Qe. apply Rmult_le_compat_r; [lra|exact F2].
    + intros _. split; [exact F3|lra].
    + intros K. discriminate K.
Qed.

Section E.
Variable nrm : nat -> vecR -> R.
Hypothesis Nrm : nrm_ok nrm.
Variables (d : qdims) (q : rqp).
Let step := fun i (s : R * R) =>
    let e := nmax (A := real) (fst s) (gersh_max (A := real) (qnx d i + qnu d i) (q_H q i)) in
    let e := nmax (A := real) e (nrm (2 * qns d i)%nat (q_Z q i)) in
    (e, nmax (A := real) (snd s) (nabs (a := real) (nrm (qnx d i + qnu d i + 2 * qns d i)%nat (q_rqz q i)))).
Let gm (i : nat) : R := gersh_max (A := real) (qnx d i + qnu d i) (q_H q i).
Let zm (i : nat) : R := nrm (2 * qns d i)%nat (q_Z q i).
Let rm (i : nat) : R := nrm (qnx d i + qnu d i + 2 * qns d i)%nat (q_rqz q i).
Lemma eig_grad_loop n : let s := loop n step (0, 0) in
  forall i, (i < n)%nat -> gm i <= fst s /\ zm i <= fst s /\ rm i <= snd s.
Proof.
  cbv zeta. induction n as [|n IH]; cbn [loop]; intros i Hi; [lia|].
  set (t := loop n step (0, 0)) in *.
  assert (Es : step n t = (Rmax (Rmax (fst t) (gm n)) (zm n), Rmax (snd t) (Rabs (rm n)))) by (unfold step; rewrite !nmax_real; reflexivity).
  rewrite Es. cbn [fst snd]. clear Es.
  assert (P : 0 <= rm n) by apply Nrm. rewrite (Rabs_pos_eq _ P).
  pose proof (Rmax_l (fst t) (gm n)) as A1. pose proof (Rmax_r (fst t) (gm n)) as A2.
  pose proof (Rmax_l (Rmax (fst t) (gm n)) (zm n)) as A3. pose proof (Rmax_r (Rmax (fst t) (gm n)) (zm n)) as A4.
  pose proof (Rmax_l (snd t) (rm n)) as A5. pose proof (Rmax_r (snd t) (rm n)) as A6.
  destruct (Nat.eq_dec i n) as [->|N].
  - repeat split; lra.
  - destruct (IH i ltac:(lia)) as (B1 & B2 & B3). repeat split; lra.
Qed.
Lemma grad_attained n : 0 < snd (loop n step (0, 0)) -> exists i, (i < n)%nat /\ snd (loop n step (0, 0)) = rm i.
Proof.
  induction n as [|n IH]; cbn [loop]; [cbn; lra|]. set (t := loop n step (0, 0)) in *.
  assert (Es : snd (step n t) = Rmax (snd t) (Rabs (rm n))) by (unfold step; cbn [snd]; rewrite !nmax_real; reflexivity).
  change (num real) with R in *. match goal with |- _ -> exists i, _ /\ ?x = _ => replace x with (snd (step n t)) by reflexivity end. change (0 < snd (step n t) -> exists i, (i < S n)%nat /\ snd (step n t) = rm i). rewrite Es.
  assert (P : 0 <= rm n) by apply Nrm. rewrite (Rabs_pos_eq _ P). unfold Rmax. destruct (Rle_dec (snd t) (rm n)) as [L|L]; intros H.
  - exists n. split; [lia|reflexivity].
  - destruct (IH H) as (i & Hi & E). exists i. split; [lia|exact E].
Qed.
End E.

(** scaled Hessians and slack Hessians stay below the limit *)
Lemma eigenpair_scal n (M M' : matR) f lam v : 0 < f -> (forall r c, (r < n)%nat -> (c < n)%nat -> M' r c = f * M r c) -> eigenpair n M' lam v -> eigenpair n M (lam / f) v.
Proof.
  intros Hf E [K P]. split; [exact K|]. intros i Hi. specialize (P i Hi).
  rewrite (sum_ext n _ (fun j => f * (M i j * v j))) in P by (intros j Hj; rewrite E by assumption; ring). rewrite sum_scal in P.
  apply Rmult_eq_reg_l with f; [|lra]. rewrite P. field. lra.
Qed.
Lemma hessian_limit nrm o d m q i lam v : nrm_ok nrm -> own_slacks d q -> masks01 d q -> o_obj o = true -> 0 < o_ub o ->
  let eg := eig_grad (A := real) nrm d q in 0 < fst eg -> 0 < snd eg -> (i <= qN d)%nat ->
  let q' := m_in (scale_qp (A := real) nrm o d m q) in
  (eigenpair (nv d i) (q_H q' i) lam v -> Rabs lam <= o_ub o) /\
  (o_con o = false -> forall k, (k < 2 * qns d i)%nat -> Rabs (q_Z q' i k) <= o_ub o).
Proof.
  intros Hn Ow Mk Eo Hu eg He Hg Hi q'.
  destruct (obj_factor (A := real) (o_ub o) (o_lb o) (fst eg) (snd eg)) as [f v0] eqn:Ef.
  destruct (factor_limits _ _ _ _ _ _ Hu He Hg Ef) as (F1 & F2 & _).
  assert (Em : m_fac (scale_qp (A := real) nrm o d m q) = f).
  { unfold scale_qp. cbv zeta. rewrite Eo. fold eg. cbn [m_fac]. etransitivity; [|exact (f_equal fst Ef)]. reflexivity. }
  assert (Fp : 0 < m_fac (scale_qp (A := real) nrm o d m q)) by (rewrite Em; exact F1).
  pose proof (scaled_ok nrm o d m q Ow Mk Fp) as Sc. pose proof (eig_grad_loop nrm Hn d q (S (qN d))) as G. cbv zeta in G. destruct (G i ltac:(lia)) as (G1 & G2 & _).
  change (gersh_max (A := real) (qnx d i + qnu d i) (q_H q i) <= fst eg) in G1. change (nrm (2 * qns d i)%nat (q_Z q i) <= fst eg) in G2.
  assert (Ff : QpsWhole.f nrm o d m q = f) by exact Em. split.
  - intros E. apply (eigenpair_scal (nv d i) (q_H q i) (q_H q' i) f) in E; [|exact F1|].
    + apply gersh_max_bounds in E. unfold nv in E. rewrite Nat.add_comm in E. unfold Rdiv in E. rewrite Rabs_mult, (Rabs_pos_eq (/ f)) in E by (left; apply Rinv_0_lt_compat, F1).
      change (num real) with R in *. apply Rle_trans with (f * fst eg); [|exact F2]. apply Rmult_le_reg_r with (/ f); [apply Rinv_0_lt_compat, F1|].
      replace (f * fst eg * / f) with (fst eg) by (field; lra). lra.
    + intros r c Hr Hc. rewrite <- Ff. exact (SH _ _ _ _ _ _ Sc i r c Hi Hr Hc).
  - intros Ec k Hk. unfold q'. assert (Z1 : (q_Z (m_in (scale_qp (A := real) nrm o d m q)) i k : R) = f * q_Z q i k).
    { rewrite (m_in_obj nrm o d m q Ec). cbv zeta. rewrite Eo. unfold scale_objective, cpsc. cbn [q_Z]. destruct (Nat.leb_spec i (qN d)); [|lia].
      destruct (Nat.ltb_spec k (2 * qns d i)); [|lia]. rewrite Ff. reflexivity. }
    rewrite Z1. rr. rewrite Rabs_mult, (Rabs_pos_eq f) by lra. pose proof (proj2 (Hn (2 * qns d i)%nat (q_Z q i)) k Hk) as B.
    change (num real) with R in *. apply Rle_trans with (f * fst eg); [|exact F2]. apply Rmult_le_compat_l; lra.
Qed.

Lemma status_ok nrm o d m q : nrm_ok nrm -> o_obj o = true -> 0 < o_ub o ->
  let eg := eig_grad (A := real) nrm d q in 0 < fst eg -> 0 < snd eg ->
  let m1 := scale_qp (A := real) nrm o d m q in let g i := m_fac m1 * nrm (qnx d i + qnu d i + 2 * qns d i)%nat (q_rqz q i) in
  0 < m_fac m1 /\ m_fac m1 * fst eg <= o_ub o /\
  (m_status m1 = 0%Z /\ m_fac m1 = Rmin 1 (o_ub o / fst eg) /\ (exists i, (i <= qN d)%nat /\ o_lb o < g i) \/
   m_status m1 = 8%Z /\ (m_fac m1 * snd eg = o_lb o \/ m_fac m1 * fst eg = o_ub o) /\ (forall i, (i <= qN d)%nat -> g i <= o_lb o)).
Proof.
  intros Hn Eo Hu eg He Hg m1 g.
  destruct (obj_factor (A := real) (o_ub o) (o_lb o) (fst eg) (snd eg)) as [f v] eqn:Ef.
  destruct (factor_limits _ _ _ _ _ _ Hu He Hg Ef) as (F1 & F2 & F3 & F4).
  assert (Em : m_fac m1 = f /\ m_status m1 = (if v then 8 else 0)%Z).
  { unfold m1, scale_qp. cbv zeta. rewrite Eo. fold eg. cbn [m_fac m_status]. change (num real) with R in *. rewrite Ef. split; reflexivity. }
  destruct Em as [E1 E2]. unfold g. change (num real) with R in *. rewrite E1, E2. split; [exact F1|]. split; [exact F2|]. destruct v.
  - right. destruct (F4 eq_refl) as [G1 G2]. split; [reflexivity|]. split; [exact G2|]. intros i Hi.
    destruct (eig_grad_loop nrm Hn d q (S (qN d)) i ltac:(lia)) as (_ & _ & G3). eapply Rle_trans; [|exact G1]. apply Rmult_le_compat_l; [lra|exact G3].
  - left. destruct (F3 eq_refl) as [G1 G2]. split; [reflexivity|]. split; [exact G1|].
    destruct (grad_attained nrm Hn d q (S (qN d)) Hg) as (i & Hi & E). exists i. split; [lia|]. eapply Rlt_le_trans; [exact G2|]. apply Req_le. f_equal. exact E.
Qed.

(** doubles: without a violation the factor is a positive number at most one *)
Lemma dbl_factor (ub lb eig grad : double) f : is_finite ub = true -> flt f0 ub = true -> fle f0 lb = true ->
  is_finite eig = true -> fle f0 eig = true -> is_finite grad = true ->
  obj_factor (A := dbl) ub lb eig grad = (f, false) -> flt f0 f = true /\ fle f f1 = true /\ is_finite f = true.
Proof.
  intros Fu Hu Hl Fe He Fg E. unfold obj_factor in E. cbn [nltb nleb ndiv nmul n1 dbl] in E.
  destruct (flt eig ub) eqn:L.
  - destruct (fle (fmul f1 grad) lb) eqn:V; [inversion E|]. injection E as <-. repeat split; vm_compute; reflexivity.
  - destruct (fle (fmul (fdiv ub eig) grad) lb) eqn:V; [inversion E|]. apply (f_equal fst) in E. cbn [fst] in E. subst f.
    assert (Nu : isnan ub = false) by (destruct ub; try discriminate Fu; reflexivity).
    assert (Ne : isnan eig = false) by (destruct eig; try discriminate Fe; reflexivity).
    pose proof (flt_false eig ub Ne Nu L) as Le. rewrite !er_fin in Le by assumption.
    pose proof (flt_er _ _ Hu) as Pu. rewrite (er_fin ub Fu) in Pu. change (er f0) with 0 in Pu.
    assert (Hd : B2R eig <> 0) by lra. destruct (fdiv_spec ub eig Fu Hd) as (D1 & D2 & D3).
    assert (Q : 0 <= B2R ub / B2R eig <= 1).
    { split; [apply Rlt_le, Rdiv_lt_0_compat; lra|]. apply Rmult_le_reg_r with (B2R eig); [lra|]. unfold Rdiv. rewrite Rmult_assoc, Rinv_l by lra. lra. }
    assert (B1 : B2R f1 = 1) by (vm_compute B2R; lra).
    assert (C : 0 <= crnd (B2R ub / B2R eig) <= 1) by (split; [apply crnd_ge0; lra|apply Rle_trans with (B2R f1); [apply crnd_le_f; lra|lra]]).
    assert (Ff : is_finite (fdiv ub eig) = true).
    { apply (fin_between _ f0 f1); try reflexivity; apply fle_spec; try reflexivity; try exact D1; rewrite D2; [change (er f0) with 0|rewrite er_fin, B1 by reflexivity]; lra. }
    assert (Ef1 : fle (fdiv ub eig) f1 = true) by (apply fle_spec; [exact D1|reflexivity|rewrite D2, (er_fin f1), B1 by reflexivity; lra]).
    repeat split; try assumption. apply flt_spec; [reflexivity|exact D1|]. change (er f0) with 0. rewrite D2.
    destruct (Rle_lt_or_eq_dec 0 _ (proj1 C)) as [Z|Z]; [exact Z|]. exfalso.
    destruct (fmul_spec (fdiv ub eig) grad Ff Fg) as (M1 & M2 & _). rewrite er_fin in D2 by exact Ff. rewrite D2, <- Z, Rmult_0_l, crnd_0 in M2.
    assert (X : fle (fmul (fdiv ub eig) grad) lb = true).
    { apply fle_spec; [exact M1|destruct lb; try discriminate Hl; reflexivity|]. rewrite M2. apply fle_er in Hl. exact Hl. }
    rewrite X in V. discriminate V.
Qed.
