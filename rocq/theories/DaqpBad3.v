(** One slack shared by two rows. *)
From Coq Require Import ZArith List Bool Lia Reals Lra Arith.
From Verif Require Import Arr Arith Vec LinModel RSum DenseModel QpoModel DaqpModel DenseSpec DaqpSpec DenseProofs StackProofs QpoProofs QpoTop QpoKkt DaqpProofs DaqpFill DaqpUpd DaqpKkt QpoCases DaqpCases DaqpBad.
Import ListNotations.
Open Scope R_scope.
Definition dT := mkDd 1 0 1 1 1.
Definition qT : rdqp := dense [5; 1; 1] [1; 1] [0; 0; -10; -10; 0; 0] [1; 1; 1; 1; 1; 1] eyem (fun _ _ => 1) [O] [0%Z; 0%Z].
Lemma T_m : exists m, upd_d 0 0 0 dT qT m0 = inr m /\ w_sense m 0 = mkSn false false false false false /\ w_sense m 1 = mkSn false false false true false /\ w_M m 0 0 = 1 /\ w_M m 0 1 = 1 /\ m_L m 0 0 = 1 /\ w_v m 0 = 5 /\ w_scal m 0 = 1 /\
  w_dup m 0 = 15 /\ w_dup m 1 = 15 /\ w_dlo m 0 = 5 /\ w_dlo m 1 = 5 /\ w_dls m 1 = 1 /\ w_dus m 1 = 1 /\ w_rls m 1 = 1 /\ w_rus m 1 = 1.
Proof. get_m. Qed.
Lemma T_bad : exists m s, run_d 0 (fun _ => 5) [(O, -5)] dT qT m0 s0 = (0%Z, s, Some m) /\ ldp_kkt 1 2 m (fun _ => 5) (ws_lam [(O, -5)]) /\ ds_v s 0 = 0 /\ forall sg, ~ dkkt dT qT sg s.
Proof.
  destruct T_m as (m & E & S0 & S1 & M0 & M1 & L0 & V0 & C0 & U0 & U1 & W0 & W1 & D1 & D2 & R1 & R2). exists m, (daqp_out (A := real) trsv_d dT qT m (fun _ => 5) [(O, -5)] s0). split; [apply run_some; exact E|].
  assert (X : ds_v (daqp_out (A := real) trsv_d dT qT m (fun _ => 5) [(O, -5)] s0) 0 = 0).
  { rewrite v_x by (cbn; lia). dmi L0. dmi V0. dm. rwm. lra. }
  split; [|split].
  - dmi M0. dmi M1. dmi U0. dmi U1. dmi W0. dmi W1. dmi D1. dmi D2. dmi R1. dmi R2. constructor.
    + intros r Hr. replace r with O by lia. dm. rwm. lra.
    + intros j Hj. destruct j as [|[|j]]; [| |lia]; rewrite ?S0, ?S1; discriminate.
    + intros j Hj. destruct j as [|[|j]]; [| |lia]; rewrite ?S0, ?S1; discriminate.
    + intros j Hj. destruct j as [|[|j]]; [| |lia]; rewrite ?S0, ?S1; try discriminate. intros _ _. dm. one.
    + intros j Hj. destruct j as [|[|j]]; [| |lia]; rewrite ?S0, ?S1; try discriminate. intros _ _. dm. one.
  - exact X.
  - intros sg K.
    assert (A1 : forall s : rdsol, dstat dT qT sg s 0 = ds_v s 0%nat + 5 - (ds_lam s 0%nat - ds_lam s 2%nat) - (ds_lam s 1%nat - ds_lam s 3%nat)) by (intros s; unfold dstat, dsym, dcoef; cbn; unfold lr, eyem; cbn; lra).
    assert (A2 : forall s : rdsol, dstat_slack dT qT s 0 false = ds_v s 1%nat + 1 - ds_lam s 0%nat - ds_lam s 1%nat - ds_lam s 4%nat) by (intros s; unfold dstat_slack; cbn; unfold lr; cbn; lra).
    assert (A3 : forall s : rdsol, dineq dT qT (ds_v s) 2 = - ds_v s 0%nat + ds_v s 2%nat + 10 /\ dineq dT qT (ds_v s) 3 = - ds_v s 0%nat + ds_v s 2%nat + 10 /\ dineq dT qT (ds_v s) 4 = ds_v s 1%nat /\ dineq dT qT (ds_v s) 5 = ds_v s 2%nat /\ dineq dT qT (ds_v s) 0 = ds_v s 0%nat + ds_v s 1%nat).
    { intros s. unfold dineq, dslack, dlin, dcoef. cbn. unfold lr. cbn. repeat split; lra. }
    set (s := daqp_out (A := real) trsv_d dT qT m (fun _ => 5) [(O, -5)] s0) in *.
    pose proof (dk_stat _ _ _ _ K 0%nat ltac:(cbn; lia)) as P1. pose proof (dk_slack _ _ _ _ K 0%nat false ltac:(cbn; lia)) as P2. rewrite A1 in P1. rewrite A2 in P2. destruct (A3 s) as (B1 & B2 & B3 & B4 & B5).
    destruct (dk_in _ _ _ _ K 2%nat ltac:(unfold dall; cbn; lia) ltac:(cbn; unfold lr; cbn; lra)) as (Q1 & Q2 & Q3). destruct (dk_in _ _ _ _ K 3%nat ltac:(unfold dall; cbn; lia) ltac:(cbn; unfold lr; cbn; lra)) as (Q4 & Q5 & Q6).
    destruct (dk_in _ _ _ _ K 4%nat ltac:(unfold dall; cbn; lia) ltac:(cbn; unfold lr; cbn; lra)) as (Q7 & Q8 & Q9). destruct (dk_in _ _ _ _ K 5%nat ltac:(unfold dall; cbn; lia) ltac:(cbn; unfold lr; cbn; lra)) as (QA & _ & _). destruct (dk_in _ _ _ _ K 0%nat ltac:(unfold dall; cbn; lia) ltac:(cbn; unfold lr; cbn; lra)) as (_ & QB & QC). destruct (dk_in _ _ _ _ K 1%nat ltac:(unfold dall; cbn; lia) ltac:(cbn; unfold lr; cbn; lra)) as (_ & QD & QE).
    assert (B6 : dineq dT qT (ds_v s) 1 = ds_v s 0%nat + ds_v s 1%nat). { unfold dineq, dslack, dlin, dcoef. cbn. unfold lr. cbn. lra. }
    rewrite B1 in Q3. rewrite B2 in Q6. rewrite B3 in Q7, Q9. rewrite B4 in QA. rewrite B5 in QC. rewrite B6 in QE. rewrite X in *.
    assert (ds_lam s 2%nat = 0) by nra. assert (ds_lam s 3%nat = 0) by nra.
    destruct (Req_dec (ds_v s 1%nat) 0) as [Z0|Z0]; [nra|]. assert (ds_lam s 4%nat = 0) by nra. assert (ds_lam s 0%nat = 0) by nra. assert (ds_lam s 1%nat = 0) by nra. lra.
Qed.
