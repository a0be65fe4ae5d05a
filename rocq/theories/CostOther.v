From Coq Require Import ZArith List Bool Lia Reals Lra FunctionalExtensionality.
From Coquelicot Require Import Coquelicot.
From Verif Require Import Arith Vec LinModel Poly LinProofs OcpProofs BghEvalProofs BghAdjProofs BghEvalCases CostModel RSum CostSpec CostProofs CostTop CostLs CostNls.
Import ListNotations.
Open Scope R_scope.
Ltac out E s' := apply (f_equal (fun o => match o with Some x => x | None => s' end)) in E; cbv beta iota in E; subst s'.

Section S.
Variable d : cdim.
Notation nx := (cnx d). Notation nu := (cnu d). Notation nz := (cnz d). Notation ny := (cny d). Notation ns := (cns d).
Notation nv := (nu + nx)%nat.
Notation line ux e := (fun t : R => fun r : nat => ux r + t * e r).
Variable potrf : nat -> matR -> matR.
Variable sq : R -> R.

(** the derivative along a line with the algebraic variables eliminated *)
Lemma line_z (zf : vecR -> vecR) (ux e : vecR) k : zf (line ux e 0) k = zf ux k.
Proof. cbv beta. now rewrite (line0 ux e). Qed.

(** ** nonlinear least squares *)
Section N.
Variable F : nls_fun real.
Lemma nls_J_val (ux z : vecR) dz r j : nls_J (A := real) d F ux z dz r j = nls_jac d F ux z dz j r.
Proof.
  unfold nls_J, nls_jac. destruct (Nat.ltb_spec 0 nz) as [H|H].
  - unfold eliminate. rrs. rewrite !Rmult_1_l. apply (f_equal2 Rplus); [reflexivity|]. apply sum_ext. intros k Hk. apply Rmult_comm.
  - replace nz with 0%nat by lia. cbn [sum]. symmetry. apply Rplus_0_r.
Qed.
Lemma nls_res_val c D (ux : vecR) zf r0 j : rel d c D -> (j < ny)%nat -> nls_res (A := real) d F c ux (zf ux) r0 j = nls_rho (n_y F) D zf ux j.
Proof.
  intros (_ & _ & _ & _ & H5 & _) Hj. unfold nls_res, nls_rho. rewrite (proj2 (Nat.ltb_lt j ny) Hj). rewrite <- H5 by exact Hj. rr. change (num real) with R in *. ring.
Qed.
Lemma nls_jac_sum (ux z e : vecR) dz j : sum nv (fun r => nls_jac d F ux z dz j r * e r) = sum nv (fun r => n_Jt F ux z r j * e r) + sum nz (fun k => n_Vz F ux z j k * sum nv (fun r => dz r k * e r)).
Proof.
  unfold nls_jac. rewrite (sum_ext nv _ (fun r => n_Jt F ux z r j * e r + sum nz (fun k => n_Vz F ux z j k * (dz r k * e r)))).
  2: { intros r Hr. rewrite Rmult_plus_distr_r, <- sum_scal_r. apply (f_equal2 Rplus); [reflexivity|]. apply sum_ext. intros k Hk. apply Rmult_assoc. }
  rewrite sum_plus. apply (f_equal2 Rplus); [reflexivity|]. rewrite (sum_swap nv nz). apply sum_ext. intros k Hk. apply sum_scal.
Qed.
Lemma nls_rho_derive D zf dz (ux e : vecR) j : is_sens d zf dz ux -> is_nls d F ux (zf ux) -> (j < ny)%nat -> is_derive (fun t => nls_rho (n_y F) D zf (line ux e t) j) 0 (sum nv (fun r => nls_jac d F ux (zf ux) dz j r * e r)).
Proof.
  intros Hs Hn Hj. rewrite nls_jac_sum. unfold nls_rho.
  refine (is_derive_val _ _ _ _ (derive_minus (fun t => n_y F (line ux e t) (zf (line ux e t)) j) (fun _ => dyref D j) 0
    (sum nv (fun r => n_Jt F ux (zf ux) r j * e r) + sum nz (fun k => n_Vz F ux (zf ux) j k * sum nv (fun r => dz r k * e r))) 0 _ (derive_const _ _)) _); [|apply Rminus_0_r].
  apply (Hn (line ux e) (fun t => zf (line ux e t)) e (fun k => sum nv (fun r => dz r k * e r)) j Hj).
  - intro k. now rewrite Rmult_0_l, Rplus_0_r.
  - apply line_z.
  - intro k. apply line_derive.
  - intros k Hk. now apply Hs.
Qed.
Theorem nls_linearisation c0 m0 h s (ux : vecR) zf dz gn b s' : created c0 -> let D := current d h (data_of d c0) in
  nls_run d potrf sq F false h (c0, m0) = Some s -> weight_ok d potrf sq D -> nls_update (A := real) d F false gn b ux (zf ux) dz s = Some s' ->
  fn (snd s') = cost d D (nls_rho (n_y F) D zf) ux /\
  (is_sens d zf dz ux -> is_nls d F ux (zf ux) -> forall e : vecR, is_derive (fun t => cost d D (nls_rho (n_y F) D zf) (fun r => ux r + t * e r)) 0 (sum (nv + 2 * ns) (fun k => grad (snd s') k * e k))).
Proof.
  intros Hc D Er Hw Eu. pose proof (nls_run_inv d potrf sq F false h (c0, m0) s _ (ninv_start d potrf sq c0 m0 Hc) Er) as (H & _). fold D in H. pose proof (proj1 Hw) as Hs.
  destruct s as (c, m). cbn [fst] in H.
  assert (Hr : forall j, (j < ny)%nat -> nls_res (A := real) d F c ux (zf ux) (res m) j = nls_rho (n_y F) D zf ux j) by (intros; now apply nls_res_val).
  assert (Ht : forall i, (i < ny)%nat -> symv (A := real) d (W c) (nls_res (A := real) d F c ux (zf ux) (res m)) i = sum ny (fun j => dW D i j * nls_rho (n_y F) D zf ux j)).
  { intros i Hi. rewrite (symv_val d D c) by auto. apply sum_ext. intros j Hj. rewrite Hr by exact Hj. reflexivity. }
  assert (G : exists m1, s' = (c, finish d false c ux m1) /\ grad m1 = grad_of (A := real) d (nls_J d F ux (zf ux) dz) (symv (A := real) d (W c) (nls_res d F c ux (zf ux) (res m))) (grad m) /\
    fn m1 = 1 / 2 * vdot (A := real) ny (symv (A := real) d (W c) (nls_res d F c ux (zf ux) (res m))) (nls_res d F c ux (zf ux) (res m))).
  { unfold nls_update in Eu. destruct gn; [|destruct (0 <? nz)%nat; [discriminate Eu|]]; out Eu s'; eexists; (split; [reflexivity|]); cbn [put_RSQ put_mem put_res put_oob grad fn res]; rewrite rcst_half; split; reflexivity. }
  destruct G as (m1 & -> & Eg & Ef). cbn [snd]. split.
  - rewrite (finish_fn d c D) by exact H. unfold cost. f_equal. f_equal. rewrite Ef. unfold quadratic, vdot. rrs. f_equal.
    apply sum_ext. intros i Hi. rewrite Ht, Hr by exact Hi. rewrite <- sum_scal_r. apply sum_ext. intros j Hj. ring.
  - intros Hsens Hn e. rewrite (finish_dir d c D) by exact H. rewrite Eg, grad_pair.
    refine (is_derive_val _ _ _ _ (cost_derive d D (nls_rho (n_y F) D zf) ux e (fun j => sum nv (fun r => nls_jac d F ux (zf ux) dz j r * e r)) c H Hs _) _).
    + intros j Hj. now apply nls_rho_derive.
    + f_equal. f_equal. rewrite line0. apply sum_ext. intros i Hi. rewrite Ht by exact Hi. f_equal. apply sum_ext. intros r Hr'. rewrite nls_J_val. reflexivity.
Qed.
Theorem nls_hessian c0 m0 h s (ux : vecR) zf dz gn b s' : created c0 -> let D := current d h (data_of d c0) in
  nls_run d potrf sq F false h (c0, m0) = Some s -> weight_ok d potrf sq D -> settled_W h = true -> nls_update (A := real) d F false gn b ux (zf ux) dz s = Some s' ->
  exists t, (forall i, (i < ny)%nat -> t i = sum ny (fun j => dW D i j * nls_rho (n_y F) D zf ux j)) /\
  forall r k, (r < nv)%nat -> (k <= r)%nat -> RSQ (snd s') r k = (if b then RSQ (snd s) r k else 0)
    + dscaling D * (sum ny (fun i => sum ny (fun j => nls_jac d F ux (zf ux) dz i r * dW D i j * nls_jac d F ux (zf ux) dz j k)) + if gn then 0 else n_hess F ux (zf ux) t r k).
Proof.
  intros Hc D Er Hw Hset Eu. pose proof (nls_run_inv d potrf sq F false h (c0, m0) s _ (ninv_start d potrf sq c0 m0 Hc) Er) as (H & Hd & Hf). fold D in H. pose proof (proj1 Hw) as Hs.
  pose proof (nls_flag_run d potrf sq F false h false (c0, m0) s ltac:(discriminate) Hset Er) as EW.
  destruct s as (c, m). cbn [fst snd] in *. pose proof (factor_ok d potrf sq D c m H Hd Hw (Hf EW)) as HF.
  exists (symv (A := real) d (W c) (nls_res (A := real) d F c ux (zf ux) (res m))). split.
  { intros i Hi. rewrite (symv_val d D c) by auto. apply sum_ext. intros j Hj. rewrite (nls_res_val c D) by auto. reflexivity. }
  assert (Esc : scaling c = dscaling D) by apply H. intros r k Hr Hk.
  assert (EJ : sum ny (fun i => sum ny (fun j => nls_J d F ux (zf ux) dz r i * dW D i j * nls_J d F ux (zf ux) dz k j)) = sum ny (fun i => sum ny (fun j => nls_jac d F ux (zf ux) dz i r * dW D i j * nls_jac d F ux (zf ux) dz j k))).
  { apply sum_ext. intros i Hi. apply sum_ext. intros j Hj. rewrite !nls_J_val. reflexivity. }
  rewrite <- EJ. unfold nls_update in Eu. destruct gn; [|destruct (0 <? nz)%nat; [discriminate Eu|]]; out Eu s'; cbn [snd]; rewrite (proj1 (finish_other d false c ux _)); cbn [put_RSQ put_mem put_res put_oob RSQ W_chol W_chol_diag res].
  - rewrite (syrk_val d D c m) by auto. rewrite Esc, Rplus_0_r. reflexivity.
  - nb. rewrite (syrk_val d D c m) by auto. rewrite Esc. rr. ring.
Qed.
Theorem nls_line_search c0 m0 h s (ux : vecR) zf : created c0 -> let D := current d h (data_of d c0) in
  nls_run d potrf sq F false h (c0, m0) = Some s -> weight_ok d potrf sq D -> settled_W h = true ->
  fn (snd (nls_compute_fun (A := real) d F false ux (zf ux) s)) = cost d D (nls_rho (n_y F) D zf) ux.
Proof.
  intros Hc D Er Hw Hset. pose proof (nls_run_inv d potrf sq F false h (c0, m0) s _ (ninv_start d potrf sq c0 m0 Hc) Er) as (H & Hd & Hf). fold D in H.
  pose proof (nls_flag_run d potrf sq F false h false (c0, m0) s ltac:(discriminate) Hset Er) as EW.
  destruct s as (c, m). cbn [fst snd] in *. pose proof (factor_ok d potrf sq D c m H Hd Hw (Hf EW)) as HF.
  unfold nls_compute_fun. cbn [snd]. rewrite (finish_fun_fn d c D) by exact H. cbn [put_mem put_res fn res W_chol W_chol_diag]. unfold cost, quadratic.
  rewrite (norm_val d D c m) by exact HF. rewrite rcst_half. rr. f_equal. f_equal. f_equal. apply sum_ext. intros i Hi. apply sum_ext. intros j Hj.
  rewrite !(nls_res_val c D) by auto. reflexivity.
Qed.
(** cost integration: the value and the gradient of the rest come from the integrator, which has scaled them *)
Lemma finish_integ c D (ux : vecR) m : rel d c D -> fn (finish (A := real) d true c ux m) = fn m + slack_cost d D ux /\
  (forall k, (k < 2 * ns)%nat -> grad (finish (A := real) d true c ux m) (nv + k)%nat = dscaling D * (zs c k + Zs c k * ux (nv + k)%nat)) /\ (forall k, (k < nv)%nat -> grad (finish (A := real) d true c ux m) k = grad m k).
Proof.
  intro H. pose proof (unscaled_ok c) as U. assert (E : scaling c = dscaling D) by apply H. rewrite <- E. unfold finish. destruct (unscaled c); cbn [put_mem fn grad]; rewrite (slack_fun_ok d c D ux) by exact H;
  (split; [reflexivity|]); split; intros k Hk; unfold scale_from, slack_grad; nb; try reflexivity; replace (nv + k - nv)%nat with k by lia; try reflexivity.
  rewrite U. symmetry. apply Rmult_1_l.
Qed.
Lemma finish_fun_integ c D (ux : vecR) m : rel d c D -> fn (finish_fun (A := real) d true c ux m) = fn m + slack_cost d D ux.
Proof. intro H. unfold finish_fun. rewrite orb_true_r. cbn [put_mem fn]. now apply slack_fun_ok. Qed.
Theorem nls_integrated c0 m0 h s (ux z : vecR) dz gn b s' : created c0 -> let D := current d h (data_of d c0) in
  nls_run d potrf sq F true h (c0, m0) = Some s -> nls_update (A := real) d F true gn b ux z dz s = Some s' ->
  fn (snd s') = fn (snd s) + slack_cost d D ux /\ fn (snd (nls_compute_fun (A := real) d F true ux z s)) = fn (snd s') /\
  (dscaling D = 1 -> forall e : vecR, is_derive (fun t => slack_cost d D (fun r => ux r + t * e r)) 0 (sum (2 * ns) (fun k => grad (snd s') (nv + k)%nat * e (nv + k)%nat))).
Proof.
  intros Hc D Er Eu. pose proof (nls_run_inv d potrf sq F true h (c0, m0) s _ (ninv_start d potrf sq c0 m0 Hc) Er) as (H & _). fold D in H. destruct s as (c, m). cbn [fst snd] in *.
  unfold nls_update in Eu. out Eu s'. cbn [snd]. destruct (finish_integ c D ux m H) as (A & B & _). rewrite A. split; [reflexivity|]. split; [unfold nls_compute_fun; cbn [snd]; now apply finish_fun_integ|].
  intros E1 e. rewrite (sum_ext (2 * ns) _ (fun k => (zs c k + Zs c k * ux (nv + k)%nat) * e (nv + k)%nat)). 2: { intros k Hk. rewrite B by exact Hk. now rewrite E1, Rmult_1_l. }
  now apply slack_derive.
Qed.
End N.

(** ** modules without cached data *)
Lemma rel_all l c D : rel d c D -> rel d (set_all d l c) (assign_all d l D).
Proof. revert c D. induction l as [|fv l IH]; intros c D H; [exact H|]. cbn. apply IH. now apply rel_set. Qed.
Lemma total_derive c D f df (ux e : vecR) : rel d c D -> is_derive (fun t => f (line ux e t)) 0 df ->
  is_derive (fun t => total d D f (line ux e t)) 0 (dscaling D * (df + sum (2 * ns) (fun k => (zs c k + Zs c k * ux (nv + k)%nat) * e (nv + k)%nat))).
Proof.
  intros H Hf. unfold total. apply (scal_derive (dscaling D) (fun t => f (line ux e t) + slack_cost d D (line ux e t))).
  apply (derive_plus (fun t => f (line ux e t)) (fun t => slack_cost d D (line ux e t))); [exact Hf|now apply slack_derive].
Qed.
Section O.
Variable O : conl_fun real.
Hypothesis HO : reads_ref d O.
Variables (l : list (cfield * vecR)) (c0 : cmodel real) (m : cmem real).
Let c := set_all d l c0.
Let D := assign_all d l (data_of d c0).
Lemma conl_rel : rel d c D. Proof. apply rel_all, rel_start. Qed.
Lemma conl_J_val (ux z : vecR) dz r j : (r < nv)%nat -> (j < ny)%nat -> conl_J (A := real) d O c ux z dz r j = conl_jac d O (dyref D) ux z dz j r.
Proof.
  intros Hr Hj. destruct (HO ux z (yref c) (dyref D)) as (_ & _ & _ & EJ & EZ & _); [apply conl_rel|]. unfold conl_J, conl_jac. rewrite <- (EJ r j Hr Hj). destruct (Nat.ltb_spec 0 nz) as [H|H].
  - rrs. rewrite !Rmult_1_l. apply (f_equal2 Rplus); [reflexivity|]. apply sum_ext. intros k Hk. rewrite <- (EZ k j Hk Hj). apply Rmult_comm.
  - replace nz with 0%nat by lia. cbn [sum]. symmetry. apply Rplus_0_r.
Qed.
Lemma conl_jac_sum yr (ux z e : vecR) dz j : sum nv (fun r => conl_jac d O yr ux z dz j r * e r) = sum nv (fun r => o_Jt O ux z yr r j * e r) + sum nz (fun k => o_Jtz O ux z yr k j * sum nv (fun r => dz r k * e r)).
Proof.
  unfold conl_jac. rewrite (sum_ext nv _ (fun r => o_Jt O ux z yr r j * e r + sum nz (fun k => o_Jtz O ux z yr k j * (dz r k * e r)))).
  2: { intros r Hr. rewrite Rmult_plus_distr_r, <- sum_scal_r. apply (f_equal2 Rplus); [reflexivity|]. apply sum_ext. intros k Hk. apply Rmult_assoc. }
  rewrite sum_plus. apply (f_equal2 Rplus); [reflexivity|]. rewrite (sum_swap nv nz). apply sum_ext. intros k Hk. apply sum_scal.
Qed.
Lemma conl_grad_pair (ux z e g : vecR) dz : sum nv (fun k => grad_of (A := real) d (conl_J d O c ux z dz) (o_grad O ux z (yref c)) g k * e k) = sum ny (fun j => o_grad O ux z (dyref D) j * (sum nv (fun r => o_Jt O ux z (dyref D) r j * e r) + sum nz (fun k => o_Jtz O ux z (dyref D) k j * sum nv (fun r => dz r k * e r)))).
Proof.
  rewrite grad_pair. apply sum_ext. intros j Hj. destruct (HO ux z (yref c) (dyref D)) as (_ & _ & EG & _); [apply conl_rel|]. rewrite (EG j Hj). f_equal. rewrite <- conl_jac_sum. apply sum_ext. intros r Hr. rewrite conl_J_val by auto. reflexivity.
Qed.
Theorem conl_linearisation (ux : vecR) zf dz b : let m' := snd (conl_update potrf sq d O false b ux (zf ux) dz (c, m)) in
  fn m' = total d D (fun v => o_fun O v (zf v) (dyref D)) ux /\ fn (snd (conl_compute_fun (A := real) d O false ux (zf ux) (c, m))) = fn m' /\
  (forall k, (k < nv + 2 * ns)%nat -> grad (snd (conl_compute_gradient (A := real) d O false ux (zf ux) dz (c, m))) k = grad m' k) /\
  (is_sens d zf dz ux -> is_conl d O (dyref D) ux (zf ux) -> forall e : vecR, is_derive (fun t => total d D (fun v => o_fun O v (zf v) (dyref D)) (fun r => ux r + t * e r)) 0 (sum (nv + 2 * ns) (fun k => grad m' k * e k))).
Proof.
  cbv zeta. pose proof conl_rel as H. unfold conl_update. cbn [snd].
  assert (Ef : o_fun O ux (zf ux) (yref c) = o_fun O ux (zf ux) (dyref D)) by (apply HO, H).
  assert (Ev : forall m1, fn m1 = o_fun O ux (zf ux) (yref c) -> fn (finish (A := real) d false c ux m1) = total d D (fun v => o_fun O v (zf v) (dyref D)) ux).
  { intros m1 E1. rewrite (finish_fn d c D) by exact H. rewrite E1, Ef. reflexivity. }
  split; [|split; [|split]].
  - apply Ev. reflexivity.
  - unfold conl_compute_fun. cbn [snd]. rewrite (finish_fun_fn d c D) by exact H. symmetry. rewrite Ev by reflexivity. cbn [put_mem fn]. rewrite Ef. reflexivity.
  - intros k Hk. unfold conl_compute_gradient. cbn [snd put_mem grad fn]. unfold finish. destruct (unscaled c); cbn [put_mem put_RSQ grad]; unfold scale_from, slack_grad, grad_of, factorise; nb; reflexivity.
  - intros Hs Hn e. rewrite (finish_dir d c D) by exact H. cbn [put_mem put_RSQ grad]. rewrite conl_grad_pair. apply total_derive; [exact H|].
    apply (Hn (line ux e) (fun t => zf (line ux e t)) e (fun k => sum nv (fun r => dz r k * e r))).
    + intro k. now rewrite Rmult_0_l, Rplus_0_r.
    + apply line_z.
    + intro k. apply line_derive.
    + intros k Hk. now apply Hs.
Qed.
Theorem conl_hessian (ux z : vecR) dz b : let V := o_W O ux z (dyref D) in weight_ok d potrf sq (with_weight D V) ->
  (o_diag O ux z (dyref D) = true -> forall i j, (i < ny)%nat -> (j < ny)%nat -> i <> j -> V i j = 0) ->
  forall r k, (r < nv)%nat -> (k <= r)%nat -> RSQ (snd (conl_update potrf sq d O false b ux z dz (c, m))) r k =
    (if b then RSQ m r k else 0) + dscaling D * sum ny (fun i => sum ny (fun j => conl_jac d O (dyref D) ux z dz i r * V i j * conl_jac d O (dyref D) ux z dz j k)).
Proof.
  intros V Hw Hdg r k Hr Hk. pose proof conl_rel as H. destruct (HO ux z (yref c) (dyref D)) as (_ & Ed & _ & _ & _ & EW); [apply H|].
  unfold conl_update. cbn [snd]. rewrite (proj1 (finish_other d false c ux _)). cbn [put_mem put_RSQ RSQ].
  set (c' := mkC (o_W O ux z (yref c)) (Cyt c) (Vz c) (yref c) (Zs c) (zs c) (scaling c) (W_changed c) (Cyt_changed c) (o_diag O ux z (yref c))). set (m' := factorise potrf sq d c' m).
  assert (H' : rel d c' (with_weight D V)). { destruct H as (_ & H2). split; [|exact H2]. intros i j Hi Hj. cbn [c' W with_weight dW]. now apply EW. }
  assert (HF : factored d (with_weight D V) c' m'). { apply (factor_ok d potrf sq); [exact H'| |exact Hw|apply factorise_fresh]. cbn [c' is_diag W]. rewrite Ed. intros E i j Hi Hj Hn. rewrite EW by auto. now apply Hdg. }
  change (o_diag O ux z (yref c)) with (is_diag c'). cbn [W_chol W_chol_diag]. rewrite (syrk_val d (with_weight D V) c' m') by auto.
  assert (Esc : scaling c = dscaling D) by apply H. rewrite Esc. assert (ER : RSQ m' = RSQ m) by (unfold m', factorise; destruct (is_diag c'); reflexivity). rewrite ER. f_equal. f_equal.
  apply sum_ext. intros i Hi. apply sum_ext. intros j Hj. cbn [with_weight dW]. rewrite !conl_J_val by (auto; lia). reflexivity.
Qed.
Theorem conl_integrated (ux z : vecR) dz b : let m' := snd (conl_update potrf sq d O true b ux z dz (c, m)) in
  fn m' = fn m + slack_cost d D ux /\ fn (snd (conl_compute_fun (A := real) d O true ux z (c, m))) = fn m' /\
  (forall k, (k < nv + 2 * ns)%nat -> grad (snd (conl_compute_gradient (A := real) d O true ux z dz (c, m))) k = grad m' k) /\
  (dscaling D = 1 -> forall e : vecR, is_derive (fun t => slack_cost d D (fun r => ux r + t * e r)) 0 (sum (2 * ns) (fun k => grad m' (nv + k)%nat * e (nv + k)%nat))).
Proof.
  cbv zeta. pose proof conl_rel as H. unfold conl_update. cbn [snd]. destruct (finish_integ c D ux m H) as (A & B & _). rewrite A. split; [reflexivity|]. split; [unfold conl_compute_fun; cbn [snd]; now apply finish_fun_integ|].
  split; [intros k Hk; unfold conl_compute_gradient; cbn [snd put_mem grad fn]; unfold finish; destruct (unscaled c); cbn [put_mem grad]; unfold scale_from, slack_grad; nb; reflexivity|].
  intros E1 e. rewrite (sum_ext (2 * ns) _ (fun k => (zs c k + Zs c k * ux (nv + k)%nat) * e (nv + k)%nat)). 2: { intros k Hk. rewrite B by exact Hk. now rewrite E1, Rmult_1_l. }
  now apply slack_derive.
Qed.
End O.
Section E.
Variable E : ext_fun real.
Variables (l : list (cfield * vecR)) (c0 : cmodel real) (m : cmem real).
Let c := set_all d l c0.
Let D := assign_all d l (data_of d c0).
Theorem ext_linearisation (ux : vecR) zf dz old nh b : let m' := snd (ext_update (A := real) d E nh b ux (zf ux) dz old (c, m)) in
  fn m' = total d D (fun v => e_fun E v (zf v)) ux /\ fn (snd (ext_compute_fun (A := real) d E ux (zf ux) (c, m))) = fn m' /\
  (forall k, (k < nv + 2 * ns)%nat -> grad (snd (ext_compute_gradient (A := real) d E ux (zf ux) dz (c, m))) k = grad m' k) /\
  (is_sens d zf dz ux -> is_ext d E ux (zf ux) -> forall e : vecR, is_derive (fun t => total d D (fun v => e_fun E v (zf v)) (fun r => ux r + t * e r)) 0 (sum (nv + 2 * ns) (fun k => grad m' k * e k))).
Proof.
  cbv zeta. assert (H : rel d c D) by apply rel_all, rel_start. unfold ext_update. cbn [snd].
  split; [|split; [|split]].
  - rewrite (finish_fn d c D) by exact H. reflexivity.
  - unfold ext_compute_fun. cbn [snd]. rewrite (finish_fun_fn d c D), (finish_fn d c D) by exact H. reflexivity.
  - intros k Hk. unfold ext_compute_gradient. cbn [snd put_mem grad fn]. unfold finish. destruct (unscaled c); cbn [put_mem put_RSQ put_oob grad]; unfold scale_from, slack_grad, ext_grad; nb; reflexivity.
  - intros Hs Hn e. rewrite (finish_dir d c D) by exact H. cbn [put_mem put_RSQ put_oob grad]. apply total_derive; [exact H|].
    refine (is_derive_val _ _ _ _ (Hn (line ux e) (fun t => zf (line ux e t)) e (fun k => sum nv (fun r => dz r k * e r)) _ _ _ _) _).
    + intro k. now rewrite Rmult_0_l, Rplus_0_r.
    + apply line_z.
    + intro k. apply line_derive.
    + intros k Hk. now apply Hs.
    + rewrite (sum_ext nv (fun k => ext_grad (A := real) d E ux (zf ux) dz (grad m) k * e k) (fun k => e_grad E ux (zf ux) k * e k + sum nz (fun j => e_grad E ux (zf ux) (nv + j)%nat * (dz k j * e k)))).
      2: { intros k Hk. unfold ext_grad. rewrite (proj2 (Nat.ltb_lt k nv) Hk). destruct (Nat.ltb_spec 0 nz) as [Hz|Hz].
           - rrs. rewrite !Rmult_1_l, Rmult_plus_distr_r, <- sum_scal_r. apply (f_equal2 Rplus); [reflexivity|]. apply sum_ext. intros j Hj. ring.
           - replace nz with 0%nat by lia. cbn [sum]. symmetry. apply Rplus_0_r. }
      rewrite sum_plus. apply (f_equal2 Rplus); [reflexivity|]. rewrite (sum_swap nv nz). apply sum_ext. intros j Hj. symmetry. apply sum_scal.
Qed.
Theorem ext_hessian (ux z : vecR) dz old nh b : nz = 0%nat \/ nh <> None -> let m' := snd (ext_update (A := real) d E nh b ux z dz old (c, m)) in
  oob m' = oob m /\ forall r k, (r < nv)%nat -> (k < nv)%nat -> RSQ m' r k = (if b then RSQ m r k else 0) + dscaling D * match nh with Some H => H r k | None => e_hess E ux z r k end.
Proof.
  intro Hz. cbv zeta. assert (H : rel d c D) by apply rel_all, rel_start. unfold ext_update. cbn [snd]. match goal with |- oob (finish d false c ux ?mm) = _ /\ _ => destruct (finish_other d false c ux mm) as (A & _ & _ & B) end.
  rewrite B. split.
  - cbn [put_mem put_oob put_RSQ oob]. unfold cross_outside. destruct nh; [apply orb_false_r|]. destruct Hz as [-> | Hz]; [|congruence]. apply orb_false_r.
  - intros r k Hr Hk. rewrite A. cbn [put_mem put_oob put_RSQ RSQ]. unfold ext_hess. assert (Esc : scaling c = dscaling D) by apply H. destruct nh as [Hn|].
    + nb. rewrite Esc. destruct b; rr; try reflexivity; symmetry; apply Rplus_0_l.
    + destruct Hz as [-> | Hz]; [|congruence]. change (0 <? 0)%nat with false. cbv beta iota zeta. nb. rewrite Esc. destruct b; rr; [reflexivity|]. symmetry; apply Rplus_0_l.
Qed.
End E.
End S.
