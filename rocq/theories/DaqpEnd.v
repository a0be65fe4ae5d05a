(** The refutations for the DAQP interface with everything that does hold. *)
From Coq Require Import ZArith List Bool Lia Reals Lra Arith.
From Verif Require Import Arr Arith Vec LinModel RSum DenseModel QpoModel DaqpModel DenseSpec DaqpSpec DaqpUpd DaqpKkt DaqpTop QpoCases DaqpCases DaqpBad DaqpBad2 DaqpBad3.
Import ListNotations.
Open Scope R_scope.
(** tri_ok, working set *)
Definition lin_ok (d : ddims) (q : rdqp) : Prop := tri_ok (dnv d) (mrows d) (dsym q) (potrf_d (dq_H q)) trsm_d trsv_d trsv_d /\ (forall i, (i < dnb d)%nat -> (dq_idxb q i < dnv d)%nat).
Lemma no_rows d q : dns d = 0%nat -> (forall k, dq_rev q k = (-1)%Z) -> one_row_each d q /\ soft_able d q.
Proof.
  intros E R. split; [split; [|split]|constructor]; intros; rewrite ?E in *; try lia.
  - left. apply R.
  - rewrite R in *. lia.
Qed.
Lemma rev1 k : nth k [(-1)%Z] (-1)%Z = (-1)%Z. Proof. destruct k as [|[|k]]; reflexivity. Qed.
Lemma S_end : lin_ok dS qS /\ one_row_each dS qS /\ soft_able dS qS /\
  exists m s, run_d 0 (fun _ => 0) [] dS qS m0 s0 = (0%Z, s, Some m) /\ ldp_kkt 1 1 m (fun _ => 0) (ws_lam []) /\ ds_v s 0%nat = 10 /\ dineq dS qS (ds_v s) 1 = -5/1000000 /\ forall sg, ~ dkkt dS qS sg s.
Proof.
  split; [split; [apply (tri_1 qS); reflexivity|intros i Hi; cbn in Hi; lia]|]. split; [apply no_rows; [reflexivity|apply rev1]|]. split; [apply no_rows; [reflexivity|apply rev1]|].
  destruct S_bad as (m & s & A & B & C & D). exists m, s. pose proof (S_not s D). auto.
Qed.
Lemma E_end : lin_ok dE qE /\ one_row_each dE qE /\ soft_able dE qE /\
  exists m s, run_d 0 (fun _ => 0) [] dE qE m0 s0 = (0%Z, s, Some m) /\ ldp_kkt 1 1 m (fun _ => 0) (ws_lam []) /\ ds_v s 0%nat = 10 /\ ds_pi s 0%nat = 9 /\ forall sg, ~ dkkt dE qE sg s.
Proof.
  split; [split; [apply (tri_1 qE); reflexivity|intros i Hi; cbn in Hi; lia]|]. split; [apply no_rows; reflexivity|]. split; [apply no_rows; reflexivity|]. exact E_bad.
Qed.
Lemma one_1 q : (forall k, dq_rev q k = nth k [0%Z] (-1)%Z) -> one_row_each dZ q.
Proof.
  intros E. unfold one_row_each, drows. cbn. split; [|split].
  - intros k Hk. replace k with O by lia. rewrite E. cbn. lia.
  - intros k l Hk Hl. lia.
  - intros i Hi. exists O. rewrite E. cbn. lia.
Qed.
Lemma one_2 q : (forall k, dq_rev q k = nth k [0%Z] (-1)%Z) -> one_row_each dO q.
Proof.
  intros E. unfold one_row_each, drows. cbn. split; [|split].
  - intros k Hk. replace k with O by lia. rewrite E. cbn. lia.
  - intros k l Hk Hl. lia.
  - intros i Hi. exists O. rewrite E. cbn. lia.
Qed.
Lemma big_1 q : dq_H q = eyem -> dq_idxb q 0%nat = 0%nat -> big_rows (/ 100000000000) dZ q (potrf_d (dq_H q)).
Proof.
  intros E I j y Hj Hy. replace j with O in * by (cbn in Hj; lia). specialize (Hy O ltac:(cbn; lia)). rewrite E in Hy. unfold potrf_d, eyem, acoef, dcoef in Hy. cbn in Hy. rewrite sqrt_1, I in Hy. cbn in *. assert (y 0%nat = 1) by lra. rewrite H. lra.
Qed.
Lemma idx_1 d (g Z D m : list R) H C r i : dnv d = 1%nat -> (dq_idxb (dense g Z D m H C [O] r) i < dnv d)%nat.
Proof. intros ->. cbn. destruct i as [|[|i]]; cbn; lia. Qed.
Lemma Z_end : lin_ok dZ qZ /\ one_row_each dZ qZ /\ big_rows (/ 100000000000) dZ qZ (potrf_d (dq_H qZ)) /\ (forall m, (m < dall dZ)%nat -> dq_mask qZ m = 1) /\
  exists m s, run_d 0 uZ wsZ dZ qZ m0 s0 = (0%Z, s, Some m) /\ ldp_kkt 1 1 m uZ (ws_lam wsZ) /\ ds_lam s 0%nat = / 100000001 /\ forall sg, ~ dkkt dZ qZ sg s.
Proof.
  split; [split; [apply (tri_1 qZ); reflexivity|intros i Hi; apply idx_1; reflexivity]|]. split; [apply one_1; reflexivity|]. split; [apply big_1; reflexivity|]. split; [|exact Z_bad].
  intros m Hm. unfold dall in Hm. cbn in Hm. do 4 (destruct m as [|m]; [reflexivity|]). lia.
Qed.
Lemma N_end : lin_ok dZ qN /\ one_row_each dZ qN /\ big_rows (/ 100000000000) dZ qN (potrf_d (dq_H qN)) /\ (forall m, (m < dall dZ)%nat -> dq_mask qN m = 1) /\
  exists m s, run_d 0 (fun _ => 0) [] dZ qN m0 s0 = (0%Z, s, Some m) /\ ldp_kkt 1 1 m (fun _ => 0) (ws_lam []) /\ ds_lam s 2%nat = -1 /\ forall sg, ~ dkkt dZ qN sg s.
Proof.
  split; [split; [apply (tri_1 qN); reflexivity|intros i Hi; apply idx_1; reflexivity]|]. split; [apply one_1; reflexivity|]. split; [apply big_1; reflexivity|]. split; [|exact N_bad].
  intros m Hm. unfold dall in Hm. cbn in Hm. do 4 (destruct m as [|m]; [reflexivity|]). lia.
Qed.
Lemma M_end : lin_ok dZ qM /\ one_row_each dZ qM /\ big_rows (/ 100000000000) dZ qM (potrf_d (dq_H qM)) /\
  exists m s, run_d 0 (fun _ => 0) [] dZ qM m0 s0 = (0%Z, s, Some m) /\ ldp_kkt 1 1 m (fun _ => 0) (ws_lam []) /\ ds_lam s 2%nat = 1 /\ forall sg, ~ dkkt dZ qM sg s.
Proof. split; [split; [apply (tri_1 qM); reflexivity|intros i Hi; apply idx_1; reflexivity]|]. split; [apply one_1; reflexivity|]. split; [apply big_1; reflexivity|]. exact M_bad. Qed.
Lemma O_end : lin_ok dO qO /\ one_row_each dO qO /\ soft_able dO qO /\
  exists m s, run_d 0 (fun _ => 0) [] dO qO m0 s0 = (0%Z, s, Some m) /\ ldp_kkt 1 1 m (fun _ => 0) (ws_lam []) /\ ds_v s 1%nat = 1 /\ ds_lam s 2%nat = 2 /\ forall sg, ~ dkkt dO qO sg s.
Proof.
  split; [split; [apply (tri_1 qO); reflexivity|intros i Hi; cbn in Hi; lia]|]. split; [apply one_2; reflexivity|]. split; [|exact O_bad].
  constructor; cbn; intros e He; (destruct e as [|[|e]]; [| |lia]); unfold lr; cbn; lra.
Qed.
Lemma T_end : lin_ok dT qT /\ soft_able dT qT /\ (forall m, (m < dall dT)%nat -> dq_mask qT m = 1) /\
  exists m s, run_d 0 (fun _ => 5) [(O, -5)] dT qT m0 s0 = (0%Z, s, Some m) /\ ldp_kkt 1 2 m (fun _ => 5) (ws_lam [(O, -5)]) /\ ds_v s 0%nat = 0 /\ forall sg, ~ dkkt dT qT sg s.
Proof.
  split; [split; [apply (tri_1 qT); reflexivity|intros i Hi; apply idx_1; reflexivity]|]. split; [|split; [|exact T_bad]].
  - constructor; cbn; intros e He; (destruct e as [|[|e]]; [| |lia]); unfold lr; cbn; lra.
  - intros m Hm. unfold dall in Hm. cbn in Hm. do 6 (destruct m as [|m]; [reflexivity|]). lia.
Qed.
Lemma I_end : lin_ok dS qI /\ one_row_each dS qI /\ soft_able dS qI /\ (forall u ws out, run_d 0 u ws dS qI m0 out = ((-1)%Z, out, None)) /\ forall sg, dkkt dS qI sg solI.
Proof.
  split; [split; [apply (tri_1 qI); reflexivity|intros i Hi; cbn in Hi; lia]|]. split; [apply no_rows; [reflexivity|apply rev1]|]. split; [apply no_rows; [reflexivity|apply rev1]|]. split; [exact I_run|exact I_kkt].
Qed.
Lemma C77_one : forall inf tol potrf trsm trsv_n trsv_t d check activate warm (q : rdqp) (m0 : rdmem), 0 < tol -> daqp_able tol potrf trsm trsv_n trsv_t d q ->
  (0 <= check)%Z -> (0 <= activate)%Z -> warm <> 2%Z \/ m_init m0 = false ->
  exists m, daqp_update (A := real) inf tol sqrt potrf trsm trsv_n check activate warm d q m0 = inr m /\ solved inf trsv_t d q m.
Proof. intros. eapply one_call; eassumption. Qed.
Lemma C77_seq : forall inf tol potrf trsm trsv_n trsv_t d c a w (q : rdqp) l m0, 0 < tol -> hot_ok d None ((c, a, w, q) :: l) ->
  (forall e, In e ((c, a, w, q) :: l) -> daqp_able tol potrf trsm trsv_n trsv_t d (snd e)) -> m_init m0 = false ->
  exists m, calls inf tol potrf trsm trsv_n d ((c, a, w, q) :: l) m0 = Some m /\ solved inf trsv_t d (last (map snd l) q) m.
Proof. intros. eapply call_sequence; eassumption. Qed.
Lemma C78_st : forall (A : arith) inf tol sq p t1 t2 t3 c a w ldp d (q : dqp A) m out st s om, daqp_run inf tol sq p t1 t2 t3 c a w ldp d q m out = (st, s, om) ->
  (st = 0%Z <-> exists m', daqp_update inf tol sq p t1 t2 c a w d q m = inr m' /\ om = Some m' /\ (fst (fst (ldp m')) = D_OPTIMAL \/ fst (fst (ldp m')) = D_SOFT_OPTIMAL) /\
    s = daqp_out t3 d q m' (snd (fst (ldp m'))) (snd (ldp m')) out).
Proof.
  intros A inf tol sq p t1 t2 t3 c a w ldp d q m out st s om H. destruct om as [m'|].
  - apply run_status in H. destruct H as (E & -> & ->). rewrite status_zero. split.
    + intros D. exists m'. auto.
    + intros (m1 & E1 & E2 & D & _). injection E2 as <-. exact D.
  - apply run_early in H. destruct H as (-> & E). split.
    + intros ->. apply update_neg in E. lia.
    + intros (m1 & E1 & E2 & _). discriminate.
Qed.
Lemma C78_ea : forall (A : arith) inf tol sq p t1 t2 t3 c a w ldp d (q : dqp A) m out st s, daqp_run inf tol sq p t1 t2 t3 c a w ldp d q m out = (st, s, None) -> s = out /\ (st < 0)%Z.
Proof. intros A inf tol sq p t1 t2 t3 c a w ldp d q m out st s H. apply run_early in H. destruct H as (-> & E). split; [reflexivity|]. exact (update_neg _ _ _ _ _ _ _ _ _ _ _ _ _ E). Qed.
Lemma P_seq : hot_ok dP None [(0%Z, 0%Z, 0%Z, qP); (0%Z, 0%Z, 2%Z, qP); (0%Z, 0%Z, 1%Z, qP)] /\ forall e, In e [(0%Z, 0%Z, 0%Z, qP); (0%Z, 0%Z, 2%Z, qP); (0%Z, 0%Z, 1%Z, qP)] -> daqp_able (/ 100000000000) potrf_d trsm_d trsv_d trsv_d dP (snd e).
Proof.
  split.
  - cbn [hot_ok]. repeat split; try lia; discriminate.
  - intros e [<-|[<-|[<-|[]]]]; exact P_able.
Qed.
