(** Concrete iterates: horizon 2, one state, one control, one inequality per stage, one algebraic variable. *)
From Coq Require Import ZArith List Bool Lia Reals Lra.
From Verif Require Import Arith Vec LinModel LinProofs RSum Poly StepModel StepProofs StepDdp StepTop.
Import ListNotations.
Open Scope R_scope.
Definition d2 := mkSdims 2 (fun _ => 1%nat) (fun i => if (i <? 2)%nat then 1%nat else 0%nat) (fun _ => 1%nat) (fun i => if (i <? 2)%nat then 2%nat else 1%nat) (fun _ => 1%nat).
Definition zd2 : zdata real := mkZdata (fun _ _ _ => (1 : R)) (fun _ _ => (2 : R)).
(** object 0: the iterate, 1: the QP solution, 2: the trial buffer *)
Definition h2 : hpR := fun ob f st k => match ob with 0%nat => 1 | 1%nat => 3 | _ => 7 end.
Definition phi2 : nat -> vecR -> vecR := fun _ v _ => v 0%nat + 2 * v 1%nat.
Definition K2 : nat -> matR := fun _ _ _ => 5.
Definition k2 : nat -> vecR := fun _ _ => 1.

Example half_step : forall dst, dst <> 1%nat -> let h' := update_variables_sqp d2 zd2 0 1 dst (1 / 2)%R false h2 in
  h' dst Fux 1%nat 0%nat = 5 / 2 /\ h' dst Flam 2%nat 1%nat = 2 /\ h' dst Fpi 1%nat 0%nat = 2 /\ h' dst Fz 0%nat 0%nat = 5.
Proof.
  intros dst N h'. unfold h'. rewrite upd_ux by (unfold in_iterate; cbn; lia). rewrite !upd_dual by (auto; unfold in_iterate; cbn; lia). rewrite upd_z by (unfold in_iterate; cbn; lia).
  cbn. unfold h2. repeat split; lra.
Qed.
(** the rollout of the trial in its own buffer: x0 = 1 + 3, u0 = 1 + 1 + 5 (4 - 1), x1 = u0 + 2 x0 *)
Lemma trial_values : let h' := ddp_trial d2 zd2 0 1 2 1%R K2 k2 phi2 false h2 in
  h' 2%nat Fux 0%nat 1%nat = 4 /\ h' 2%nat Fux 0%nat 0%nat = 17 /\ h' 2%nat Fux 1%nat 1%nat = 25.
Proof.
  cbv zeta. set (h' := ddp_trial _ _ _ _ _ _ _ _ _ _ _).
  pose proof (trial_x0 d2 zd2 0 1 2 ltac:(lia) 1 K2 k2 phi2 false h2 0%nat ltac:(cbn; lia)) as X.
  pose proof (trial_control d2 zd2 0 1 2 ltac:(lia) 1 K2 k2 phi2 false h2 0%nat 0%nat ltac:(lia) ltac:(cbn; lia) ltac:(cbn; lia)) as U.
  pose proof (trial_rollout d2 zd2 0 1 2 ltac:(lia) 1 K2 k2 phi2 false h2 0%nat 0%nat ltac:(cbn; lia) ltac:(cbn; lia)) as H.
  fold h' in X, U, H. clearbody h'. cbn in X, U, H. unfold h2, K2, k2, phi2 in *. change (num real) with R in *.
  assert (X' : h' 2%nat Fux 0%nat 1%nat = 4) by lra. rewrite X' in U. assert (U' : h' 2%nat Fux 0%nat 0%nat = 17) by lra. repeat split; lra.
Qed.
(** in place the control is 1 + 1: the deviation of the state is not fed back *)
Lemma in_place_law_fails : let h' := ddp_trial d2 zd2 0 1 0 1%R K2 k2 phi2 false h2 in
  h' 0%nat Fux 0%nat 0%nat = 2 /\ h2 0%nat Fux 0%nat 0%nat + 1 * k2 0%nat 0%nat + sum 1 (fun c => K2 0%nat 0%nat c * (h' 0%nat Fux 0%nat (1 + c)%nat - h2 0%nat Fux 0%nat (1 + c)%nat)) = 17.
Proof.
  cbv zeta. set (h' := ddp_trial _ _ _ _ _ _ _ _ _ _ _). split.
  - unfold h'. rewrite trial_control_in_place by (cbn; lia). unfold h2, k2. lra.
  - pose proof (trial_x0 d2 zd2 0 1 0 ltac:(lia) 1 K2 k2 phi2 false h2 0%nat ltac:(cbn; lia)) as X. fold h' in X. clearbody h'. cbn in X |- *. unfold h2, K2, k2 in *. change (num real) with R in *. lra.
Qed.
(** a trial of length 1/2 in a buffer that holds something else: (7 + 3) / 2 instead of (1 + 3) / 2 *)
Lemma stale_blend : let h' := ddp_trial d2 zd2 0 1 2 (1 / 2)%R K2 k2 phi2 false h2 in h' 2%nat Flam 0%nat 0%nat = 5 /\ (1 - 1 / 2) * h2 0%nat Flam 0%nat 0%nat + 1 / 2 * h2 1%nat Flam 0%nat 0%nat = 2.
Proof. cbv zeta. rewrite trial_duals by (auto; unfold in_iterate; cbn; lia). cbv iota. unfold h2. change (num real) with R. split; lra. Qed.
(** the line search: full step first, then half; the multipliers are those of the QP, 3, and not 2 *)
Lemma backtracked_blend : let h1 := ddp_trial d2 zd2 0 1 2 1%R K2 k2 phi2 false h2 in let h' := ddp_trial d2 zd2 0 1 2 (1 / 2)%R K2 k2 phi2 false h1 in
  h' 2%nat Flam 0%nat 0%nat = 3 /\ (1 - 1 / 2) * h2 0%nat Flam 0%nat 0%nat + 1 / 2 * h2 1%nat Flam 0%nat 0%nat = 2.
Proof. cbv zeta. rewrite second_trial by (auto; unfold in_iterate; cbn; lia). unfold h2. change (num real) with R. split; lra. Qed.

(** the flag read by the DDP update *)
Lemma flag_ignored : exists g, full_step_dual (glob_common g) = 1%Z /\ ddp_full_flag g = false.
Proof. exists (MeritBacktracking (mkGlobOpts 0 0 1)). split; reflexivity. Qed.
Lemma flag_from_soc : exists g, full_step_dual (glob_common g) = 0%Z /\ use_SOC (glob_common g) = 1%Z /\ ddp_full_flag g = true.
Proof. exists (MeritBacktracking (mkGlobOpts 1 0 0)). repeat split; reflexivity. Qed.
Lemma flag_from_pointer g p : p <> 0%Z -> ddp_full_flag (FixedStep p g) = true.
Proof. intros H. unfold ddp_full_flag. destruct (Z.eqb_spec p 0); [contradiction|reflexivity]. Qed.
Lemma in_place_refuted : exists d zd out qp (alpha : R) K kff phi full (h : heap real) i r, out <> qp /\ (i < sN d)%nat /\ (r < snu d i)%nat /\
  let h' := ddp_trial d zd out qp out alpha K kff phi full h in
  h' out Fux i r <> h out Fux i r + alpha * kff i r + sum (snx d i) (fun c => K i r c * (h' out Fux i (snu d i + c)%nat - h out Fux i (snu d i + c)%nat)).
Proof.
  exists d2, zd2, 0%nat, 1%nat, 1%R, K2, k2, phi2, false, h2, 0%nat, 0%nat. split; [lia|]. split; [cbn; lia|]. split; [cbn; lia|]. cbv zeta.
  change (snx d2 0) with 1%nat. change (snu d2 0) with 1%nat. destruct in_place_law_fails as [E1 E2]. intros H. rewrite E2 in H. rewrite E1 in H. lra.
Qed.
Lemma blend_refuted : exists d zd src qp dst (alpha : R) K kff phi (h : heap real) i k, dst <> qp /\ in_iterate d Flam i k /\
  ddp_trial d zd src qp dst alpha K kff phi false h dst Flam i k <> (1 - alpha) * h src Flam i k + alpha * h qp Flam i k.
Proof.
  exists d2, zd2, 0%nat, 1%nat, 2%nat, (1 / 2)%R, K2, k2, phi2, h2, 0%nat, 0%nat. split; [lia|]. split; [unfold in_iterate; cbn; lia|].
  destruct stale_blend as [E1 E2]. intros H. rewrite E2 in H. rewrite E1 in H. lra.
Qed.
