(** Concrete DDP runs and counterexamples. *)
From Coq Require Import ZArith List Bool Lia.
From Verif Require Import FP FPProofs SqpModel SqpCases SqpRefuted DdpModel DdpProofs.
Import ListNotations.
Open Scope Z_scope.

(** integer iterates; the world is the cost value; stationarity residual = iterate, dynamics residual 5 above 100 *)
Definition dtoy (cost_of : Z -> Z) (comp : double) (qp_fails_at : Z) : ddp_oracles Z Z := mkDdpOracles
  (fun _ w => w) (fun x _ _ _ => cost_of x)
  (fun x _ => mkRes (z2f x) (if 100 <? x then z2f 5 else f0) f0 comp)
  z2f (fun _ => f0) (fun w => w)
  (fun x w => (w, if x =? qp_fails_at then 3 else 0, 7))
  (fun w => w) (fun _ => z2f 10)
  (fun x _ => (cost_of (x - 100), x - 100))
  (fun x _ _ => (cost_of (x - 1), x - 1, 0, f1)).
Definition dopts (mi : Z) (ev lm ext : bool) : ddp_opts := mkDdpOpts mi ev fhalf fhalf f0 lm true ext.
Definition dtoy_mem (x mi sn : Z) (old : double) : dmem Z Z :=
  mkDmem x 0 5 0 (mkRes old old old old) f0 f0 false f0 (mi + 1) sn (repeat f0 (Z.to_nat ((mi + 1) * sn))) (repeat 0 (Z.to_nat (mi + 1))) [].
Definition dsummary (r : option (dmem Z Z)) : option (Z * Z * Z * Z) := match r with Some s => Some (dm_status s, dm_iter s, dm_out s, dqps (dm_trace s)) | None => None end.

Lemma dtoy_alloc x mi ev lm ext old : 0 <= mi -> ddp_allocated (dopts mi ev lm ext) (dtoy_mem x mi (if ext then 11 else 7) old).
Proof.
  intros H. unfold ddp_allocated, dtoy_mem, dopts; cbn. rewrite !repeat_length. destruct ext; repeat split; lia.
Qed.

Definition pos := fun _ : Z => 1.
Ltac run P := let s := fresh "s" in let H := fresh "H" in
  match goal with |- exists s, ?x = Some s /\ _ => destruct (run_check x P) as (s & H & ?HP); [vm_compute; reflexivity|]; exists s; split; [exact H|]; clear H end.
(** iteration limit zero: success from the residuals of an earlier call *)
Lemma stale_zero_run : exists s, ddp_call (dtoy pos f0 100) (dopts 0 false false false) (dtoy_mem 3 0 7 f0) = Some s /\ dm_status s = ACADOS_SUCCESS /\ dm_out s = 3 /\ dresiduals (dm_trace s) = [].
Proof.
  run (fun s : dmem Z Z => (dm_status s =? 0) && (dm_out s =? 3) && match dresiduals (dm_trace s) with [] => true | _ => false end).
  apply andb_prop in HP. destruct HP as [P1 P3]. apply andb_prop in P1. destruct P1 as [P1 P2]. split; [apply Z.eqb_eq, P1|]. split; [apply Z.eqb_eq, P2|].
  destruct (dresiduals _); [reflexivity|discriminate P3].
Qed.
Lemma stale_zero_res w : flt (r_stat (d_res (dtoy pos f0 100) 3 w)) fhalf = false.
Proof. vm_compute. reflexivity. Qed.
Lemma ddp_stale_zero : exists (Or : ddp_oracles Z Z) opts s0 s, 0 <= d_max_iter opts /\ ddp_allocated opts s0 /\ ddp_call Or opts s0 = Some s /\ dm_status s = ACADOS_SUCCESS /\
  dresiduals (dm_trace s) = [] /\ forall w, flt (r_stat (d_res Or (dm_out s) w)) (d_tol_stat opts) = false.
Proof.
  destruct stale_zero_run as (s & A & B & C & D).
  exists (dtoy pos f0 100), (dopts 0 false false false), (dtoy_mem 3 0 7 f0), s. split; [exact (Z.le_refl 0)|]. split; [apply (dtoy_alloc 3 0 false false false); lia|].
  split; [exact A|]. split; [exact B|]. split; [exact D|]. rewrite C. exact stale_zero_res.
Qed.
(** with the adaptive Levenberg-Marquardt term: the reported stationarity belongs to an earlier iterate *)
Definition is_res_at (x : Z) (e : dev Z) : bool := match e with DRes y _ => y =? x | _ => false end.
Lemma stale_last_run : exists s, ddp_call (dtoy (fun x => x - 2) f0 100) (dopts 2 false true false) (dtoy_mem 3 2 7 f0) = Some s /\ dm_status s = ACADOS_SUCCESS /\ dm_out s = 1 /\
  existsb (is_res_at 1) (dm_trace s) = false /\ feqb f1 (r_stat (dm_res s)) = false.
Proof.
  run (fun s : dmem Z Z => (dm_status s =? 0) && (dm_out s =? 1) && negb (existsb (is_res_at 1) (dm_trace s)) && negb (feqb f1 (r_stat (dm_res s)))).
  apply andb_prop in HP. destruct HP as [P1 P4]. apply andb_prop in P1. destruct P1 as [P1 P3]. apply andb_prop in P1. destruct P1 as [P1 P2].
  split; [apply Z.eqb_eq, P1|]. split; [apply Z.eqb_eq, P2|]. split; apply negb_true_iff; assumption.
Qed.
Lemma stale_last_res w v : feqb f1 v = false -> feqb (r_stat (d_res (dtoy (fun x => x - 2) f0 100) 1 w)) v = false.
Proof. intros H. change (r_stat (d_res (dtoy (fun x => x - 2) f0 100) 1 w)) with (z2f 1). replace (z2f 1) with f1; [exact H|]. apply Flocq.IEEE754.BinarySingleNaN.B2SF_inj. vm_compute. reflexivity. Qed.
Lemma ddp_stale_last : exists (Or : ddp_oracles Z Z) opts s0 s, 0 < d_max_iter opts /\ ddp_allocated opts s0 /\ dm_trace s0 = [] /\ ddp_call Or opts s0 = Some s /\ dm_status s = ACADOS_SUCCESS /\
  (forall r, ~ In (DRes (dm_out s) r) (dm_trace s)) /\ forall w, feqb (r_stat (d_res Or (dm_out s) w)) (r_stat (dm_res s)) = false.
Proof.
  destruct stale_last_run as (s & A & B & C & D & E).
  exists (dtoy (fun x => x - 2) f0 100), (dopts 2 false true false), (dtoy_mem 3 2 7 f0), s. split; [exact eq_refl|]. split; [apply (dtoy_alloc 3 2 false true false); lia|].
  split; [reflexivity|]. split; [exact A|]. split; [exact B|]. rewrite C. split; [|intros w; apply stale_last_res, E].
  intros r Hr. assert (existsb (is_res_at 1) (dm_trace s) = true) by (apply existsb_exists; eexists; split; [exact Hr|reflexivity]). congruence.
Qed.
(** a negative cost counts as a zero residual, because the tolerance is never set *)
Lemma negative_cost_run : exists s, ddp_call (dtoy (fun _ => -1) f0 0) (dopts 5 true true false) (dtoy_mem 50 5 7 f0) = Some s /\ dm_status s = ACADOS_SUCCESS /\ flt (r_stat (dm_res s)) (z2f 50) = false.
Proof.
  run (fun s : dmem Z Z => (dm_status s =? 0) && negb (flt (r_stat (dm_res s)) (z2f 50))).
  apply andb_prop in HP. destruct HP as [P1 P2]. split; [apply Z.eqb_eq, P1|]. apply negb_true_iff; assumption.
Qed.
Lemma ddp_negative_cost : exists (Or : ddp_oracles Z Z) opts s0 s, ddp_call Or opts s0 = Some s /\ ddp_allocated opts s0 /\ d_tol_zero_res opts = f0 /\
  dm_status s = ACADOS_SUCCESS /\ (exists older, dm_trace s = DRes (dm_out s) (dm_res s) :: older) /\ flt (r_stat (dm_res s)) (z2f 50) = false.
Proof.
  destruct negative_cost_run as (s & A & B & C). exists (dtoy (fun _ => -1) f0 0), (dopts 5 true true false), (dtoy_mem 50 5 7 f0), s.
  split; [exact A|]. split; [apply (dtoy_alloc 50 5 true true false); lia|]. split; [reflexivity|]. split; [exact B|]. split; [|exact C].
  apply (ddp_success _ _ _ _ _ _ (ltac:(discriminate) : 0 <= d_max_iter (dopts 5 true true false)) A B). left. reflexivity.
Qed.
Lemma ext_res_run : ddp_call (dtoy pos f0 100) (dopts 2 false false true) (dtoy_mem 3 2 11 f0) = None.
Proof. vm_compute. reflexivity. Qed.
Lemma ddp_ext_res : exists (Or : ddp_oracles Z Z) opts s0, 0 <= d_max_iter opts /\ ddp_allocated opts s0 /\ ddp_call Or opts s0 = None.
Proof. exists (dtoy pos f0 100), (dopts 2 false false true), (dtoy_mem 3 2 11 f0). split; [discriminate|]. split; [apply (dtoy_alloc 3 2 false false true); lia|]. exact ext_res_run. Qed.
Lemma comp_nan_run : exists s, ddp_call (dtoy pos fnan 100) (dopts 5 true false false) (dtoy_mem 3 5 7 f0) = Some s /\ isnan (r_comp (dm_res s)) = true /\ dm_status s = ACADOS_SUCCESS.
Proof.
  run (fun s : dmem Z Z => (dm_status s =? 0) && isnan (r_comp (dm_res s))).
  apply andb_prop in HP. destruct HP as [P1 P2]. split; [exact P2|]. apply Z.eqb_eq, P1.
Qed.
Lemma ddp_comp_nan : exists (Or : ddp_oracles Z Z) opts s0 s, 0 <= d_max_iter opts /\ ddp_allocated opts s0 /\ ddp_call Or opts s0 = Some s /\ isnan (r_comp (dm_res s)) = true /\ dm_status s = ACADOS_SUCCESS.
Proof.
  destruct comp_nan_run as (s & A & B). exists (dtoy pos fnan 100), (dopts 5 true false false), (dtoy_mem 3 5 7 f0), s. split; [discriminate|]. split; [apply (dtoy_alloc 3 5 true false false); lia|]. split; [exact A|exact B].
Qed.
Lemma ddp_case : dsummary (ddp_call (dtoy pos f0 100) (dopts 10 true false false) (dtoy_mem 102 10 7 f0)) = Some (0, 3, 0, 3).
Proof. vm_compute. reflexivity. Qed.
Lemma ddp_sim_case : dsteps (match ddp_call (dtoy pos f0 100) (dopts 10 true false false) (dtoy_mem 102 10 7 f0) with Some s => dm_trace s | None => [] end) = [true; false; false].
Proof. vm_compute. reflexivity. Qed.
Lemma ddp_qp_case : dsummary (ddp_call (dtoy pos f0 2) (dopts 10 true false false) (dtoy_mem 4 10 7 f0)) = Some (4, 3, 2, 3).
Proof. vm_compute. reflexivity. Qed.
