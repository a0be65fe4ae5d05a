(** Dense QPs that the DAQP interface does not solve although DAQP solves the LDP. *)
From Coq Require Import ZArith List Bool Lia Reals Lra Arith FunctionalExtensionality.
From Verif Require Import Arr Arith Vec LinModel RSum DenseModel QpoModel DaqpModel DenseSpec DaqpSpec DenseProofs StackProofs QpoProofs QpoTop QpoKkt DaqpProofs DaqpFill DaqpUpd DaqpKkt QpoCases DaqpCases.
Import ListNotations.
Open Scope R_scope.
Ltac sqs := repeat match goal with |- context [sqrt ?a] => rewrite (sq a 1) by lra end.
Ltac dcmp := match goal with
  | |- context [Rltb ?a ?b] => first [rewrite (Rltb_t a b) by lra | rewrite (Rltb_f a b) by lra]
  | |- context [Rleb ?a ?b] => first [rewrite (Rleb_t a b) by lra | rewrite (Rleb_f a b) by lra] end.
Ltac dq := sqs; repeat (dcmp; repeat dcmp; de; sqs).
Ltac dqr := repeat (first [rewrite Rmax_left by lra | rewrite Rmax_right by lra]); try lra.
Definition run_d warm u ws := daqp_run (A := real) 1000 (/ 100000000000) sqrt potrf_d trsm_d trsv_d trsv_d 0 0 warm (fun _ => (D_OPTIMAL, u, ws)).

(** one variable with Hessian 1 *)
Lemma tri_1 (q : rdqp) mm : dq_H q = eyem -> tri_ok 1 mm (dsym q) (L potrf_d q) trsm_d trsv_d trsv_d.
Proof.
  intros E. assert (E' : dsym q = eyem). { unfold dsym. rewrite E. extensionality r. extensionality c. unfold eyem. rewrite (Nat.eqb_sym c r). destruct (_ <=? _)%nat; reflexivity. }
  rewrite E'. unfold L. rewrite E. apply tri_diag; intros; unfold eyem; [rewrite Nat.eqb_refl; lra|]. destruct (Nat.eqb_spec r c); [contradiction|reflexivity].
Qed.
Lemma run_some warm d q m m' u ws out : upd_d 0 0 warm d q m = inr m' -> run_d warm u ws d q m out = (0%Z, daqp_out (A := real) trsv_d d q m' u ws out, Some m').
Proof. intros E. unfold run_d, daqp_run. unfold upd_d in E. rewrite E. reflexivity. Qed.
Ltac dm := cbv -[Rplus Rmult Rminus Ropp Rinv Rltb Rleb IZR Rle Rlt Rdiv sqrt Rmax m_lo m_up m_idxs m_Zl m_Zu m_zl m_zu m_dls m_dus m_L w_M w_dup w_dlo w_v w_scal w_sense w_dls w_dus w_rls w_rus].
Ltac dmi H := cbv -[Rplus Rmult Rminus Ropp Rinv Rltb Rleb IZR Rle Rlt Rdiv sqrt Rmax m_lo m_up m_idxs m_Zl m_Zu m_zl m_zu m_dls m_dus m_L w_M w_dup w_dlo w_v w_scal w_sense w_dls w_dus w_rls w_rus] in H.
Ltac get_m := eexists; split; [unfold upd_d; de; dq; reflexivity|repeat split; de; dq; try reflexivity; try lra].

(** * Rows with small coefficients *)
Definition dS := mkDd 1 0 0 1 0.
Definition qS : rdqp := dense [-10] [] [-5/1000000; -5/1000000] [1; 1] eyem (fun _ _ => /1000000) [] [(-1)%Z].
Lemma S_m : exists m, upd_d 0 0 0 dS qS m0 = inr m /\ w_sense m 0 = mkSn false false true false false /\ w_M m 0 0 = /1000000 /\ m_L m 0 0 = 1 /\ w_v m 0 = -10.
Proof. get_m. Qed.
Lemma S_bad : exists m s, run_d 0 (fun _ => 0) [] dS qS m0 s0 = (0%Z, s, Some m) /\ ldp_kkt 1 1 m (fun _ => 0) (ws_lam []) /\ ds_v s 0 = 10 /\ dineq dS qS (ds_v s) 1 = -5/1000000.
Proof.
  destruct S_m as (m & E & S1 & M1 & L1 & V1). exists m, (daqp_out (A := real) trsv_d dS qS m (fun _ => 0) [] s0). split; [apply run_some; exact E|]. split; [|split].
  - constructor; intros j Hj; (replace j with O by lia); rewrite ?S1; try discriminate; [cbn; lra|reflexivity].
  - dmi L1. dmi V1. dm. rewrite L1, V1. lra.
  - dmi L1. dmi V1. dm. rewrite L1, V1. lra.
Qed.
Lemma not_kkt_1 d q s sg k : (k < dall d)%nat -> dq_mask q k <> 0 -> dineq d q (ds_v s) k < 0 -> ~ dkkt d q sg s.
Proof. intros Hk Hm N K. destruct (dk_in _ _ _ _ K k Hk Hm) as [P _]. lra. Qed.
Lemma S_not m : dineq dS qS (ds_v m) 1 = -5/1000000 -> forall sg, ~ dkkt dS qS sg m.
Proof. intros E sg. apply (not_kkt_1 dS qS m sg 1); [cbn; unfold dall; cbn; lia|cbn; unfold lr; cbn; lra|lra]. Qed.

(** an equality 1e-6 x = 5e-6 *)
Definition dE := mkDd 1 1 0 0 0.
Definition qE : rdqp := mkDq (A := real) eyem (lr [-10]) (lr []) (fun _ _ => /1000000) (fun _ => 5/1000000) (fun _ _ => 0) (lr []) (fun _ => 0) (lr []) (fun _ => O) (fun _ => (-1)%Z).
Lemma E_m : exists m, upd_d 0 0 0 dE qE m0 = inr m /\ w_sense m 0 = mkSn false false true false false /\ w_M m 0 0 = /1000000 /\ m_L m 0 0 = 1 /\ w_v m 0 = -10.
Proof. get_m. Qed.
Lemma E_bad : exists m s, run_d 0 (fun _ => 0) [] dE qE m0 s0 = (0%Z, s, Some m) /\ ldp_kkt 1 1 m (fun _ => 0) (ws_lam []) /\ ds_v s 0 = 10 /\ ds_pi s 0 = 9 /\ forall sg, ~ dkkt dE qE sg s.
Proof.
  destruct E_m as (m & E & S1 & M1 & L1 & V1). exists m, (daqp_out (A := real) trsv_d dE qE m (fun _ => 0) [] s0). split; [apply run_some; exact E|]. dmi L1. dmi V1. split; [|split; [|split]].
  - constructor; intros j Hj; (replace j with O by lia); rewrite ?S1; try discriminate; [cbn; lra|reflexivity].
  - dm. rewrite L1, V1. lra.
  - reflexivity.
  - intros sg K. pose proof (dk_eq _ _ _ _ K 0 ltac:(cbn; lia)) as P. revert P. dm. rewrite L1, V1. lra.
Qed.

(** 1 <= 1e-6 x <= 2 is declared infeasible *)
Definition qI : rdqp := dense [-10] [] [1; -2] [1; 1] eyem (fun _ _ => /1000000) [] [(-1)%Z].
Definition solI : rdsol := mkDs (A := real) (lr [1000000]) (fun _ => 0) (lr [999990000000; 0]) (fun _ => 0).
Lemma I_run u ws out : run_d 0 u ws dS qI m0 out = ((-1)%Z, out, None).
Proof.
  unfold run_d, daqp_run. assert (E : daqp_update (A := real) 1000 (/ 100000000000) sqrt potrf_d trsm_d trsv_d 0 0 0 dS qI m0 = inl (-1)%Z) by (de; dq; reflexivity). rewrite E. reflexivity.
Qed.
Lemma I_kkt sg : dkkt dS qI sg solI.
Proof.
  constructor.
  - intros r Hr. cbn in Hr. replace r with O by lia. dm. lra.
  - intros e up He. cbn in He. lia.
  - intros j Hj. cbn in Hj. lia.
  - intros j Hj _. cbn in Hj. destruct j as [|[|j]]; [| |lia]; dm; lra.
  - intros j Hj. cbn in Hj. destruct j as [|[|j]]; [| |lia]; cbn; unfold lr; cbn; lra.
Qed.

(** * Quadratic penalty below 1e-8 *)
Definition dZ := mkDd 1 0 1 0 1.
Definition qZ : rdqp := dense [1; 0; 0] [0; 0] [0; -10; 0; 0] [1; 1; 1; 1] eyem (fun _ _ => 0) [O] [0%Z].
Definition uZ : vecR := fun _ => / 100000001.
Definition wsZ : list (nat * R) := [(O, - / 100000001)].
Definition memv (m : rdmem) sn M L v sc dup dlo lo up dl du rl ru Zl Zu zl zu : Prop :=
  w_sense m 0%nat = sn /\ w_M m 0%nat 0%nat = M /\ m_L m 0%nat 0%nat = L /\ w_v m 0%nat = v /\ w_scal m 0%nat = sc /\ w_dup m 0%nat = dup /\ w_dlo m 0%nat = dlo /\ m_lo m 0%nat = lo /\ m_up m 0%nat = up /\
  w_dls m 0%nat = dl /\ w_dus m 0%nat = du /\ w_rls m 0%nat = rl /\ w_rus m 0%nat = ru /\ m_Zl m 0%nat = Zl /\ m_Zu m 0%nat = Zu /\ m_zl m 0%nat = zl /\ m_zu m 0%nat = zu /\ m_idxs m 0%nat = O /\ m_dls m 0%nat = 0 /\ m_dus m 0%nat = 0.
Lemma Z_m : exists m, upd_d 0 0 0 dZ qZ m0 = inr m /\ memv m (mkSn false false false true false) 1 1 1 1 11 1 0 10 0 0 100000000 100000000 (/100000000) (/100000000) 0 0.
Proof. get_m. Qed.
Ltac memd m E := let S1 := fresh "S1" in let M1 := fresh "M1" in let L1 := fresh "L1" in let V1 := fresh "V1" in let C1 := fresh "C1" in let U1 := fresh "U1" in let W1 := fresh "W1" in let LO := fresh "LO" in let UP := fresh "UP" in
  let DL := fresh "DL" in let DU := fresh "DU" in let RL := fresh "RL" in let RU := fresh "RU" in let ZL := fresh "ZL" in let ZU := fresh "ZU" in let zL := fresh "zL" in let zU := fresh "zU" in let IX := fresh "IX" in let BL := fresh "BL" in let BU := fresh "BU" in
  destruct E as (S1 & M1 & L1 & V1 & C1 & U1 & W1 & LO & UP & DL & DU & RL & RU & ZL & ZU & zL & zU & IX & BL & BU);
  dmi M1; dmi L1; dmi V1; dmi C1; dmi U1; dmi W1; dmi LO; dmi UP; dmi DL; dmi DU; dmi RL; dmi RU; dmi ZL; dmi ZU; dmi zL; dmi zU; dmi IX; dmi BL; dmi BU.
Ltac rwm := repeat match goal with H : ?a = ?b |- context [?a] => lazymatch a with m_idxs _ _ => fail | _ => rewrite H end end.
Ltac one := rwm; dq; rwm; dqr.
Ltac ee IX := dm; repeat (rewrite IX; dm); repeat (progress (rwm; dq); dm; repeat (rewrite IX; dm)); dqr.
Lemma Z_bad : exists m s, run_d 0 uZ wsZ dZ qZ m0 s0 = (0%Z, s, Some m) /\ ldp_kkt 1 1 m uZ (ws_lam wsZ) /\ ds_lam s 0 = / 100000001 /\ forall sg, ~ dkkt dZ qZ sg s.
Proof.
  destruct Z_m as (m & E & Q). exists m, (daqp_out (A := real) trsv_d dZ qZ m uZ wsZ s0). split; [apply run_some; exact E|]. clear E. memd m Q. split; [|split].
  - constructor; intros j Hj; (replace j with O by lia); rewrite ?S1; try discriminate.
    + dm. one.
    + intros _ _. dm. one.
  - ee IX.
  - intros sg K. pose proof (dk_slack _ _ _ _ K 0%nat false ltac:(cbn; lia)) as P. revert P. ee IX.
Qed.
