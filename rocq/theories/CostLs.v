From Coq Require Import ZArith List Bool Lia Reals Lra FunctionalExtensionality.
From Coquelicot Require Import Coquelicot.
From Verif Require Import Arith Vec LinModel Poly LinProofs OcpProofs BghEvalProofs BghAdjProofs BghEvalCases CostModel RSum CostSpec CostProofs CostTop.
Import ListNotations.
Open Scope R_scope.

Section S.
Variable d : cdim.
Notation nx := (cnx d). Notation nu := (cnu d). Notation nz := (cnz d). Notation ny := (cny d). Notation ns := (cns d).
Notation nv := (nu + nx)%nat.
Notation line ux e := (fun t : R => fun r : nat => ux r + t * e r).
Lemma line0 (ux e : vecR) : (fun r => ux r + 0 * e r) = ux.
Proof. apply functional_extensionality. intro r. rewrite Rmult_0_l. apply Rplus_0_r. Qed.

Lemma Cyt_sum c D (v : vecR) j : rel d c D -> (j < ny)%nat -> sum nv (fun r => Cyt c r j * v r) = sum nu (fun i => dVu D j i * v i) + sum nx (fun i => dVx D j i * v (nu + i)%nat).
Proof.
  intros (_ & H2 & H3 & _) Hj. rewrite (sum_split nu nx). apply (f_equal2 Rplus); apply sum_ext; intros i Hi; [rewrite H2|rewrite H3]; auto.
Qed.
Lemma ls_Cyt_val c D dz r j : rel d c D -> (j < ny)%nat -> (r < nv)%nat -> ls_Cyt (A := real) d c dz r j = ls_jac d D dz j r.
Proof.
  intros (_ & H2 & H3 & H4 & _) Hj Hr. unfold ls_Cyt, ls_jac. 
  assert (E : (if (r <? nu)%nat then dVu D j r else dVx D j (r - nu)%nat) = Cyt c r j).
  { nb; [symmetry; apply H2; auto|]. rewrite <- H3 by lia. f_equal. lia. }
  rewrite E. destruct (Nat.ltb_spec 0 nz) as [H|H].
  - unfold eliminate. rrs. rewrite !Rmult_1_l. apply (f_equal2 Rplus); [reflexivity|]. apply sum_ext. intros k Hk. rewrite H4 by auto. apply Rmult_comm.
  - replace nz with 0%nat by lia. cbn [sum]. symmetry. apply Rplus_0_r.
Qed.
Lemma jac_sum D dz (e : vecR) j : sum nv (fun r => ls_jac d D dz j r * e r) =
  sum nu (fun i => dVu D j i * e i) + sum nx (fun i => dVx D j i * e (nu + i)%nat) + sum nz (fun k => dVz D j k * sum nv (fun r => dz r k * e r)).
Proof.
  unfold ls_jac. rewrite (sum_ext nv _ (fun r => (if (r <? nu)%nat then dVu D j r else dVx D j (r - nu)%nat) * e r + sum nz (fun k => dVz D j k * (dz r k * e r)))).
  2: { intros r Hr. rewrite Rmult_plus_distr_r, <- sum_scal_r. apply (f_equal2 Rplus); [reflexivity|]. apply sum_ext. intros k Hk. apply Rmult_assoc. }
  rewrite sum_plus. apply (f_equal2 Rplus).
  - rewrite (sum_split nu nx). apply (f_equal2 Rplus); apply sum_ext; intros i Hi; nb; [reflexivity|]. repeat f_equal. lia.
  - rewrite (sum_swap nv nz). apply sum_ext. intros k Hk. apply sum_scal.
Qed.
Lemma ls_res_val c D (ux : vecR) zf dz r0 j : rel d c D -> (j < ny)%nat -> ls_res (A := real) d c ux (zf ux) dz r0 j = ls_rho d D zf ux j.
Proof.
  intros H Hj. pose proof H as (_ & _ & _ & H4 & H5 & _). unfold ls_res, ls_rho. rewrite (proj2 (Nat.ltb_lt j ny) Hj).
  destruct (Nat.ltb_spec 0 nz) as [Hz|Hz].
  - unfold mvt, mvn. rrs. rewrite H5 by exact Hj. rewrite (sum_ext nv (fun k => ls_Cyt d c dz k j * ux k) (fun r => ls_jac d D dz j r * ux r)).
    2: { intros r Hr. rewrite (ls_Cyt_val c D) by auto. reflexivity. }
    rewrite jac_sum. rewrite (sum_ext nz (fun k => Vz c j k * _) (fun k => - (dVz D j k * zf ux k) + dVz D j k * sum nv (fun r => dz r k * ux r))).
    2: { intros k Hk. rewrite H4 by auto. rrs. ring. }
    rewrite sum_plus, sum_opp. ring.
  - unfold mvt. rrs. rewrite H5 by exact Hj. rewrite (Cyt_sum c D) by auto. replace nz with 0%nat by lia. cbn [sum]. ring.
Qed.
Lemma ls_rho_derive D zf dz (ux e : vecR) j : is_sens d zf dz ux -> is_derive (fun t => ls_rho d D zf (line ux e t) j) 0 (sum nv (fun r => ls_jac d D dz j r * e r)).
Proof.
  intro H. rewrite jac_sum. unfold ls_rho.
  refine (is_derive_val _ _ _ _ (derive_minus (fun t => sum nu (fun i => dVu D j i * (ux i + t * e i)) + sum nx (fun i => dVx D j i * (ux (nu + i)%nat + t * e (nu + i)%nat)) + sum nz (fun k => dVz D j k * zf (line ux e t) k)) (fun _ => dyref D j) 0
    (sum nu (fun i => dVu D j i * e i) + sum nx (fun i => dVx D j i * e (nu + i)%nat) + sum nz (fun k => dVz D j k * sum nv (fun r => dz r k * e r))) 0 _ (derive_const _ _)) _); [|apply Rminus_0_r].
  apply (derive_plus (fun t => sum nu (fun i => dVu D j i * (ux i + t * e i)) + sum nx (fun i => dVx D j i * (ux (nu + i)%nat + t * e (nu + i)%nat))) (fun t => sum nz (fun k => dVz D j k * zf (line ux e t) k))).
  - apply (derive_plus (fun t => sum nu (fun i => dVu D j i * (ux i + t * e i))) (fun t => sum nx (fun i => dVx D j i * (ux (nu + i)%nat + t * e (nu + i)%nat)))).
    + apply (is_derive_sum nu (fun i t => dVu D j i * (ux i + t * e i))). intros i Hi. apply scal_derive, line_derive.
    + apply (is_derive_sum nx (fun i t => dVx D j i * (ux (nu + i)%nat + t * e (nu + i)%nat))). intros i Hi. apply scal_derive, line_derive.
  - apply (is_derive_sum nz (fun k t => dVz D j k * zf (line ux e t) k)). intros k Hk. apply (scal_derive (dVz D j k) (fun t => zf (line ux e t) k)). now apply H.
Qed.

Variable potrf : nat -> matR -> matR.
Variable sq : R -> R.
Notation inv := (inv d potrf sq).
Notation factored := (factored d).
(** *** linearisation *)
Lemma ls_lin s D (ux : vecR) zf dz a b : inv s D -> (forall i j, (i < ny)%nat -> (j < ny)%nat -> dW D i j = dW D j i) ->
  let m := snd (ls_update (A := real) d a b ux (zf ux) dz s) in
  fn m = cost d D (ls_rho d D zf) ux /\
  (is_sens d zf dz ux -> forall e : vecR, is_derive (fun t => cost d D (ls_rho d D zf) (fun r => ux r + t * e r)) 0 (sum (nv + 2 * ns) (fun k => grad m k * e k))).
Proof.
  destruct s as (c, m0). intros (H & _) Hs. cbn [fst] in H. cbv zeta. unfold ls_update. cbn [snd].
  assert (Hr : forall j, (j < ny)%nat -> ls_res (A := real) d c ux (zf ux) dz (res m0) j = ls_rho d D zf ux j) by (intros; now apply ls_res_val).
  assert (Ht : forall i, (i < ny)%nat -> symv (A := real) d (W c) (ls_res (A := real) d c ux (zf ux) dz (res m0)) i = sum ny (fun j => dW D i j * ls_rho d D zf ux j)).
  { intros i Hi. rewrite (symv_val d D c) by auto. apply sum_ext. intros j Hj. rewrite Hr by exact Hj. reflexivity. }
  split.
  - rewrite (finish_fn d c D) by exact H. unfold cost. f_equal. f_equal. cbn [put_mem put_res put_RSQ fn res]. unfold quadratic, vdot. rewrite rcst_half. rrs. f_equal.
    apply sum_ext. intros i Hi. rewrite Ht, Hr by exact Hi. rewrite <- sum_scal_r. apply sum_ext. intros j Hj. ring.
  - intros Hsens e. rewrite (finish_dir d c D) by exact H. cbn [put_mem put_res put_RSQ grad res]. rewrite grad_pair.
    refine (is_derive_val _ _ _ _ (cost_derive d D (ls_rho d D zf) ux e (fun j => sum nv (fun r => ls_jac d D dz j r * e r)) c H Hs _) _).
    + intros j Hj. now apply ls_rho_derive.
    + f_equal. f_equal. rewrite line0. apply sum_ext. intros i Hi. rewrite Ht by exact Hi. f_equal. apply sum_ext. intros r Hr'. rewrite (ls_Cyt_val c D) by auto. reflexivity.
Qed.
(** *** Hessian *)
Lemma ls_hess_ok s D (ux z : vecR) dz b : inv s D -> weight_ok d potrf sq D -> W_changed (fst s) = false -> Cyt_changed (fst s) = false ->
  forall r k, (r < nv)%nat -> (k <= r)%nat -> RSQ (snd (ls_update (A := real) d true b ux z dz s)) r k =
    (if b then RSQ (snd s) r k else 0) + dscaling D * sum ny (fun i => sum ny (fun j => ls_jac d D dz i r * dW D i j * ls_jac d D dz j k)).
Proof.
  destruct s as (c, m). intros (H & Hd & Hf & Hh) Hw Ew Ec r k Hr Hk. cbn [fst snd] in *.
  pose proof (factor_ok d potrf sq D c m H Hd Hw (Hf Ew)) as HF. specialize (Hh Ew Ec).
  unfold ls_update. cbn [snd]. rewrite (proj1 (finish_other d false c ux _)). cbn [put_mem put_res put_RSQ RSQ]. unfold ls_hess.
  assert (Esc : scaling c = dscaling D) by apply H.
  assert (EJ : sum ny (fun i => sum ny (fun j => ls_Cyt d c dz r i * dW D i j * ls_Cyt d c dz k j)) = sum ny (fun i => sum ny (fun j => ls_jac d D dz i r * dW D i j * ls_jac d D dz j k))).
  { apply sum_ext. intros i Hi. apply sum_ext. intros j Hj. rewrite !(ls_Cyt_val c D) by (auto; lia). reflexivity. }
  rewrite <- EJ. unfold ls_Cyt. destruct (Nat.ltb_spec 0 nz) as [Hz|Hz].
  - rewrite (syrk_val d D c m) by auto. rewrite Esc. reflexivity.
  - nb. specialize (Hh r k Hr Hk). rewrite (syrk_val d D c m) in Hh by auto. rewrite Hh, Esc. destruct b; rr; ring.
Qed.
Lemma ls_hess_frame s (ux z : vecR) dz a b r k : a = false \/ (nv <= r)%nat -> RSQ (snd (ls_update (A := real) d a b ux z dz s)) r k = RSQ (snd s) r k.
Proof.
  destruct s as (c, m). intros Hk. cbn [fst snd] in *.
  unfold ls_update. cbn [snd]. rewrite (proj1 (finish_other d false c ux _)). cbn [put_mem put_res put_RSQ RSQ]. unfold ls_hess. destruct a; [|reflexivity].
  destruct Hk as [Hk|Hk]; [discriminate Hk|]. destruct (0 <? nz)%nat; unfold syrk; nb; reflexivity.
Qed.
(** *** value for the line search *)
Lemma ls_value s D (ux : vecR) zf dz : inv s D -> weight_ok d potrf sq D -> W_changed (fst s) = false -> fn (snd (ls_compute_fun (A := real) d ux (zf ux) dz s)) = cost d D (ls_rho d D zf) ux.
Proof.
  destruct s as (c, m). intros (H & Hd & Hf & _) Hw Ew. cbn [fst snd] in *. pose proof (factor_ok d potrf sq D c m H Hd Hw (Hf Ew)) as HF.
  unfold ls_compute_fun. cbn [snd]. rewrite (finish_fun_fn d c D) by exact H. cbn [put_mem put_res fn res W_chol W_chol_diag]. unfold cost, quadratic.
  rewrite (norm_val d D c m) by exact HF. rewrite rcst_half. rr. f_equal. f_equal. f_equal. apply sum_ext. intros i Hi. apply sum_ext. intros j Hj.
  rewrite !(ls_res_val c D) by auto. reflexivity.
Qed.
(** *** flags *)
Definition calm (h : list op) (s : cmodel real * cmem real) : Prop := settled h = true -> W_changed (fst s) = false /\ Cyt_changed (fst s) = false.
Lemma upd_W_flags s : W_changed (fst (ls_update_W potrf sq d s)) = false /\ Cyt_changed (fst (ls_update_W potrf sq d s)) = false.
Proof. destruct s as (c, m). unfold ls_update_W. destruct (W_changed c) eqn:E1; [cbn; auto|]. destruct (Cyt_changed c) eqn:E2; cbn; auto. Qed.
Lemma flags_run h b s : (b = true -> W_changed (fst s) = false /\ Cyt_changed (fst s) = false) -> fold_left settles h b = true ->
  W_changed (fst (ls_run d potrf sq h s)) = false /\ Cyt_changed (fst (ls_run d potrf sq h s)) = false.
Proof.
  revert b s. induction h as [|o h IH]; intros b s H E; cbn in *; [now apply H|]. apply (IH (settles b o)); [|exact E].
  intro B. destruct o as [f v| | |? ? ? ? ?|? ? ?]; cbn [ls_step settles] in *.
  - destruct s as (c, m). cbn [fst snd] in *. destruct f; try discriminate B; cbn [model_set put_Zs put_zs W_changed Cyt_changed]; auto.
  - apply upd_W_flags.
  - destruct (upd_W_flags s) as (A1 & A2). unfold ls_initialize, set_QZ. destruct (ls_update_W potrf sq d s) as (c', m'). auto.
  - destruct s as (c, m). auto.
  - destruct s as (c, m). auto.
Qed.
Lemma flag_W_run h b s : (b = true -> W_changed (fst s) = false) -> fold_left settles_W h b = true -> W_changed (fst (ls_run d potrf sq h s)) = false.
Proof.
  revert b s. induction h as [|o h IH]; intros b s H E; cbn in *; [now apply H|]. apply (IH (settles_W b o)); [|exact E].
  intro B. destruct o as [f v| | |? ? ? ? ?|? ? ?]; cbn [ls_step settles_W] in *.
  - destruct s as (c, m). cbn [fst snd] in *. destruct f; try discriminate B; cbn [model_set put_Zs put_zs put_Cyt W_changed Cyt_changed]; auto.
  - apply upd_W_flags.
  - destruct (upd_W_flags s) as (A1 & A2). unfold ls_initialize, set_QZ. destruct (ls_update_W potrf sq d s) as (c', m'). auto.
  - destruct s as (c, m). auto.
  - destruct s as (c, m). auto.
Qed.
Definition QZ_ok (s : cmodel real * cmem real) : Prop := forall k, (k < 2 * ns)%nat -> QZ (snd s) k = scaling (fst s) * Zs (fst s) k.
Lemma upd_W_keeps s : scaling (fst (ls_update_W potrf sq d s)) = scaling (fst s) /\ Zs (fst (ls_update_W potrf sq d s)) = Zs (fst s) /\ QZ (snd (ls_update_W potrf sq d s)) = QZ (snd s).
Proof.
  destruct s as (c, m). unfold ls_update_W, factorise. destruct (W_changed c); destruct (is_diag c); try destruct (Cyt_changed c); cbn; auto.
Qed.
Lemma finish_fun_QZ integ c ux m : QZ (finish_fun (A := real) d integ c ux m) = QZ m.
Proof. unfold finish_fun. destruct (unscaled c || integ); reflexivity. Qed.
Lemma QZ_run h b s : (b = true -> QZ_ok s) -> fold_left settles_Z h b = true -> QZ_ok (ls_run d potrf sq h s).
Proof.
  revert b s. induction h as [|o h IH]; intros b s H E; cbn in *; [now apply H|]. apply (IH (settles_Z b o)); [|exact E].
  intro B. destruct o as [f v| | |? ? ? ? ?|? ? ?]; cbn [ls_step settles_Z] in *.
  - destruct s as (c, m). unfold QZ_ok in *. cbn [fst snd] in *. destruct f; try discriminate B; cbn [model_set put_Zs put_zs put_Cyt scaling Zs]; auto.
  - intros k Hk. unfold ls_precompute. destruct (upd_W_keeps (flags (fst s) true (Cyt_changed (fst s)), snd s)) as (A1 & A2 & A3). rewrite A1, A2, A3. cbn. now apply H.
  - intros k Hk. unfold ls_initialize, set_QZ. destruct (ls_update_W potrf sq d s) as (c', m'). cbn [fst snd QZ]. nb. reflexivity.
  - destruct s as (c, m). intros k Hk. unfold ls_update. cbn [fst snd]. rewrite (proj1 (proj2 (finish_other d false c ux _))). cbn [put_mem put_res put_RSQ QZ]. now apply (H B k).
  - destruct s as (c, m). intros k Hk. unfold ls_compute_fun. cbn [fst snd]. rewrite finish_fun_QZ. cbn [put_mem put_res QZ]. now apply (H B k).
Qed.

(** ** statements over histories *)
Section H.
Variables (c0 : cmodel real) (m0 : cmem real) (h : list op).
Hypothesis Hc : created c0.
Let D := current d h (data_of d c0).
Let s := ls_run d potrf sq h (c0, m0).
Lemma run_inv : inv s D.
Proof. apply inv_run, inv_start, Hc. Qed.
Theorem ls_linearisation (ux : vecR) zf dz a b : weight_ok d potrf sq D ->
  let m := snd (ls_update (A := real) d a b ux (zf ux) dz s) in
  fn m = cost d D (ls_rho d D zf) ux /\
  (is_sens d zf dz ux -> forall e : vecR, is_derive (fun t => cost d D (ls_rho d D zf) (fun r => ux r + t * e r)) 0 (sum (nv + 2 * ns) (fun k => grad m k * e k))).
Proof. intro Hw. apply ls_lin; [apply run_inv|apply Hw]. Qed.
Theorem ls_hessian (ux z : vecR) dz b : weight_ok d potrf sq D -> settled h = true -> forall r k, (r < nv)%nat -> (k <= r)%nat ->
  RSQ (snd (ls_update (A := real) d true b ux z dz s)) r k = (if b then RSQ (snd s) r k else 0) + dscaling D * sum ny (fun i => sum ny (fun j => ls_jac d D dz i r * dW D i j * ls_jac d D dz j k)).
Proof.
  intros Hw Hs. destruct (flags_run h false (c0, m0) ltac:(discriminate) Hs) as (A & B). intros. apply ls_hess_ok; auto. apply run_inv.
Qed.
Theorem ls_line_search (ux : vecR) zf dz : weight_ok d potrf sq D -> settled_W h = true -> fn (snd (ls_compute_fun (A := real) d ux (zf ux) dz s)) = cost d D (ls_rho d D zf) ux.
Proof.
  intros Hw Hs. pose proof (flag_W_run h false (c0, m0) ltac:(discriminate) Hs) as A. apply ls_value; auto. apply run_inv.
Qed.
Theorem ls_slack_hessian : settled_Z h = true -> forall k, (k < ns)%nat -> QZ (snd s) k = dscaling D * dZl D k /\ QZ (snd s) (ns + k)%nat = dscaling D * dZu D k.
Proof.
  intros Hs k Hk. pose proof (QZ_run h false (c0, m0) ltac:(discriminate) Hs) as Q. destruct run_inv as ((_ & _ & _ & _ & _ & H6 & H7 & _ & _ & Esc) & _).
  fold s in Q. split; rewrite Q by lia; rewrite Esc; [rewrite H6|rewrite H7]; auto.
Qed.
End H.
End S.
