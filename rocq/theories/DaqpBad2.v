(** More dense QPs that the DAQP interface does not solve although DAQP solves the LDP. *)
From Coq Require Import ZArith List Bool Lia Reals Lra Arith.
From Verif Require Import Arr Arith Vec LinModel RSum DenseModel QpoModel DaqpModel DenseSpec DaqpSpec DenseProofs StackProofs QpoProofs QpoTop QpoKkt DaqpProofs DaqpFill DaqpUpd DaqpKkt QpoCases DaqpCases DaqpBad.
Import ListNotations.
Open Scope R_scope.

(** * The slack would like to be positive: linear penalty -1 *)
Definition qN : rdqp := dense [-5; -1; -1] [1; 1] [0; -10; 0; 0] [1; 1; 1; 1] eyem (fun _ _ => 0) [O] [0%Z].
Lemma N_m : exists m, upd_d 0 0 0 dZ qN m0 = inr m /\ memv m (mkSn false false false true false) 1 1 (-5) 1 6 (-6) (-1) 11 0 0 1 1 1 1 (-1) (-1).
Proof. get_m. Qed.
Lemma N_bad : exists m s, run_d 0 (fun _ => 0) [] dZ qN m0 s0 = (0%Z, s, Some m) /\ ldp_kkt 1 1 m (fun _ => 0) (ws_lam []) /\ ds_lam s 2 = -1 /\ forall sg, ~ dkkt dZ qN sg s.
Proof.
  destruct N_m as (m & E & Q). exists m, (daqp_out (A := real) trsv_d dZ qN m (fun _ => 0) [] s0). split; [apply run_some; exact E|]. clear E. memd m Q.
  assert (X : ds_lam (daqp_out (A := real) trsv_d dZ qN m (fun _ => 0) [] s0) 2 = -1) by (ee IX). split; [|split].
  - constructor; intros j Hj; (replace j with O by lia); rewrite ?S1; try discriminate.
    + dm. one.
    + intros _ _. dm. one.
  - exact X.
  - intros sg K. destruct (dk_in _ _ _ _ K 2%nat ltac:(unfold dall; cbn; lia) ltac:(cbn; unfold lr; cbn; lra)) as (_ & P & _). rewrite X in P. lra.
Qed.

(** * The bound of the slack is masked *)
Definition qM : rdqp := dense [-5; 1; 1] [1; 1] [0; -10; 0; 0] [1; 1; 0; 0] eyem (fun _ _ => 0) [O] [0%Z].
Lemma M_m : exists m, upd_d 0 0 0 dZ qM m0 = inr m /\ memv m (mkSn false false false true false) 1 1 (-5) 1 5 (-5) 0 10 1 1 1 1 1 1 1 1.
Proof. get_m. Qed.
Lemma M_bad : exists m s, run_d 0 (fun _ => 0) [] dZ qM m0 s0 = (0%Z, s, Some m) /\ ldp_kkt 1 1 m (fun _ => 0) (ws_lam []) /\ ds_lam s 2 = 1 /\ forall sg, ~ dkkt dZ qM sg s.
Proof.
  destruct M_m as (m & E & Q). exists m, (daqp_out (A := real) trsv_d dZ qM m (fun _ => 0) [] s0). split; [apply run_some; exact E|]. clear E. memd m Q.
  assert (X : ds_lam (daqp_out (A := real) trsv_d dZ qM m (fun _ => 0) [] s0) 2 = 1) by (ee IX). split; [|split].
  - constructor; intros j Hj; (replace j with O by lia); rewrite ?S1; try discriminate.
    + dm. one.
    + intros _ _. dm. one.
  - exact X.
  - intros sg K. pose proof (dk_mask _ _ _ _ K 2%nat ltac:(unfold dall; cbn; lia) ltac:(cbn; unfold lr; cbn; lra)) as P. rewrite X in P. lra.
Qed.

(** * A softened row without variables: 1 <= 0 x *)
Definition dO := mkDd 1 0 0 1 1.
Definition qO : rdqp := dense [0; 1; 1] [1; 1] [1; -10; 0; 0] [1; 1; 1; 1] eyem (fun _ _ => 0) [] [0%Z].
Lemma O_m : exists m, upd_d 0 0 0 dO qO m0 = inr m /\ memv m (mkSn false false true false false) 0 1 0 1 10 1 1 10 1 1 1 1 1 1 1 1.
Proof. get_m. Qed.
Lemma O_in (v : vecR) : dineq dO qO v 2 = v 1%nat - 0.
Proof. de. reflexivity. Qed.
Lemma O_bad : exists m s, run_d 0 (fun _ => 0) [] dO qO m0 s0 = (0%Z, s, Some m) /\ ldp_kkt 1 1 m (fun _ => 0) (ws_lam []) /\ ds_v s 1 = 1 /\ ds_lam s 2 = 2 /\ forall sg, ~ dkkt dO qO sg s.
Proof.
  destruct O_m as (m & E & Q). exists m, (daqp_out (A := real) trsv_d dO qO m (fun _ => 0) [] s0). split; [apply run_some; exact E|]. clear E. memd m Q.
  assert (X : ds_lam (daqp_out (A := real) trsv_d dO qO m (fun _ => 0) [] s0) 2 = 2) by (ee IX).
  assert (Y : ds_v (daqp_out (A := real) trsv_d dO qO m (fun _ => 0) [] s0) 1 = 1) by (ee IX). split; [|split; [|split]].
  - constructor; intros j Hj; (replace j with O by lia); rewrite ?S1; try discriminate.
    + dm. one.
    + intros _ _. reflexivity.
  - exact Y.
  - exact X.
  - intros sg K. destruct (dk_in _ _ _ _ K 2%nat ltac:(unfold dall; cbn; lia) ltac:(cbn; unfold lr; cbn; lra)) as (_ & _ & P). rewrite X in P. rewrite O_in, Y in P. lra.
Qed.

(** * Hot start: the matrices of the first call are kept *)
Definition dH := mkDd 1 0 1 0 0.
Definition qH h g : rdqp := dense [g] [] [-100; -100] [1; 1] (fun _ _ => h) (fun _ _ => 0) [O] [(-1)%Z].
Lemma H_m : exists m1 m2, upd_d 0 0 0 dH (qH 1 (-4)) m0 = inr m1 /\ upd_d 0 0 2 dH (qH 4 (-8)) m1 = inr m2 /\ w_sense m2 0 = mkSn false false false false false /\ w_M m2 0 0 = 1 /\ m_L m2 0 0 = 1 /\ w_v m2 0 = -8 /\ w_dup m2 0 = 92 /\ w_dlo m2 0 = -108.
Proof. eexists. eexists. split; [unfold upd_d; de; dq; reflexivity|]. split; [unfold upd_d; de; dq; reflexivity|]. repeat split; de; dq; try reflexivity; lra. Qed.
Lemma H_bad : exists m1 m2 s1 s, run_d 0 (fun _ => 0) [] dH (qH 1 (-4)) m0 s0 = (0%Z, s1, Some m1) /\ run_d 2 (fun _ => 0) [] dH (qH 4 (-8)) m1 s1 = (0%Z, s, Some m2) /\ ldp_kkt 1 1 m2 (fun _ => 0) (ws_lam []) /\ ds_v s 0 = 8 /\ forall sg, ~ dkkt dH (qH 4 (-8)) sg s.
Proof.
  destruct H_m as (m1 & m2 & E1 & E2 & S1 & M1 & L1 & V1 & U1 & W1). exists m1, m2. eexists. eexists. split; [apply run_some; exact E1|]. split; [apply run_some; exact E2|]. clear E1 E2. dmi M1. dmi L1. dmi V1. dmi U1. dmi W1. split; [|split].
  - constructor; intros j Hj; (replace j with O by lia); rewrite ?S1; try discriminate; [dm; one|]. intros _ _. dm. one.
  - dm. rwm. lra.
  - intros sg K. pose proof (dk_stat _ _ _ _ K 0%nat ltac:(cbn; lia)) as P. revert P. dm. rwm. lra.
Qed.
