From Coq Require Import ZArith List Bool Lia Reals Lra FunctionalExtensionality.
From Coquelicot Require Import Coquelicot.
From Verif Require Import Arith Vec LinModel Poly LinProofs OcpProofs BghEvalProofs BghAdjProofs BghEvalCases CostModel RSum CostSpec CostProofs CostTop CostLs.
Import ListNotations.
Open Scope R_scope.

Section S.
Variable d : cdim.
Notation nx := (cnx d). Notation nu := (cnu d). Notation nz := (cnz d). Notation ny := (cny d). Notation ns := (cns d).
Notation nv := (nu + nx)%nat.
Notation line ux e := (fun t : R => fun r : nat => ux r + t * e r).

(** ** exact expansion of the linear least squares cost *)
Lemma quad_expand D (r s : vecR) : (forall i j, (i < ny)%nat -> (j < ny)%nat -> dW D i j = dW D j i) ->
  quadratic d D (fun j => r j + s j) = quadratic d D r + sum ny (fun i => sum ny (fun j => dW D i j * r j) * s i) + quadratic d D s.
Proof.
  intro Hs. unfold quadratic.
  assert (E : sum ny (fun i => sum ny (fun j => r i * dW D i j * s j)) = sum ny (fun i => sum ny (fun j => s i * dW D i j * r j))).
  { rewrite (sum_swap ny ny). apply sum_ext. intros i Hi. apply sum_ext. intros j Hj. rewrite (Hs j i) by auto. ring. }
  rewrite (sum_ext ny (fun i => sum ny (fun j => (r i + s i) * dW D i j * (r j + s j))) (fun i => (sum ny (fun j => r i * dW D i j * r j) + sum ny (fun j => s i * dW D i j * s j)) + (sum ny (fun j => r i * dW D i j * s j) + sum ny (fun j => s i * dW D i j * r j)))).
  2: { intros i Hi. rewrite <- !sum_plus. apply sum_ext. intros j Hj. ring. }
  rewrite !sum_plus, E. rewrite (sum_ext ny (fun i => sum ny (fun j => dW D i j * r j) * s i) (fun i => sum ny (fun j => s i * dW D i j * r j))).
  2: { intros i Hi. rewrite <- sum_scal_r. apply sum_ext. intros j Hj. ring. }
  field.
Qed.
Lemma slack_expand c D (ux e : vecR) : rel d c D ->
  slack_cost d D (fun r => ux r + e r) = slack_cost d D ux + sum (2 * ns) (fun k => (zs c k + Zs c k * ux (nv + k)%nat) * e (nv + k)%nat) + 1 / 2 * sum (2 * ns) (fun k => Zs c k * e (nv + k)%nat ^ 2).
Proof.
  intros (_ & _ & _ & _ & _ & H6 & H7 & H8 & H9 & _). replace (2 * ns)%nat with (ns + ns)%nat by lia. rewrite !(sum_split ns ns). unfold slack_cost.
  rewrite Rmult_plus_distr_l, <- !sum_scal.
  transitivity ((sum ns (fun k => dzl D k * ux (nv + k)%nat + 1 / 2 * dZl D k * ux (nv + k)%nat ^ 2) + sum ns (fun k => (zs c k + Zs c k * ux (nv + k)%nat) * e (nv + k)%nat) + sum ns (fun k => 1 / 2 * (Zs c k * e (nv + k)%nat ^ 2)))
    + (sum ns (fun k => dzu D k * ux (nv + ns + k)%nat + 1 / 2 * dZu D k * ux (nv + ns + k)%nat ^ 2) + sum ns (fun k => (zs c (ns + k)%nat + Zs c (ns + k)%nat * ux (nv + (ns + k))%nat) * e (nv + (ns + k))%nat) + sum ns (fun k => 1 / 2 * (Zs c (ns + k)%nat * e (nv + (ns + k))%nat ^ 2)))); [|ring].
  apply (f_equal2 Rplus); rewrite <- !sum_plus; apply sum_ext; intros k Hk.
  - rewrite H6, H8 by exact Hk. field.
  - rewrite H7, H9 by exact Hk. replace (nv + (ns + k))%nat with (nv + ns + k)%nat by lia. field.
Qed.
Lemma quad_jac D (J : nat -> nat -> R) (e : vecR) : quadratic d D (fun j => sum nv (fun r => J j r * e r)) =
  1 / 2 * sum nv (fun r => sum nv (fun k => e r * sum ny (fun i => sum ny (fun j => J i r * dW D i j * J j k)) * e k)).
Proof.
  unfold quadratic. f_equal.
  transitivity (sum nv (fun r => sum nv (fun k => sum ny (fun i => sum ny (fun j => J i r * e r * dW D i j * (J j k * e k)))))).
  - rewrite (sum_ext ny _ (fun i => sum nv (fun r => sum nv (fun k => sum ny (fun j => J i r * e r * dW D i j * (J j k * e k)))))).
    2: { intros i Hi. rewrite (sum_ext ny _ (fun j => sum nv (fun r => sum nv (fun k => J i r * e r * dW D i j * (J j k * e k))))).
         2: { intros j Hj. rewrite Rmult_assoc, <- sum_scal_r. apply sum_ext. intros r Hr. rewrite <- !sum_scal. apply sum_ext. intros k Hk. ring. }
         rewrite (sum_swap ny nv). apply sum_ext. intros r Hr. rewrite (sum_swap ny nv). reflexivity. }
    rewrite (sum_swap ny nv). apply sum_ext. intros r Hr. rewrite (sum_swap ny nv). reflexivity.
  - apply sum_ext. intros r Hr. apply sum_ext. intros k Hk. rewrite <- sum_scal, <- sum_scal_r. apply sum_ext. intros i Hi. rewrite <- sum_scal, <- sum_scal_r. apply sum_ext. intros j Hj. ring.
Qed.
Variable potrf : nat -> matR -> matR.
Variable sq : R -> R.
Lemma low_hess D (J : nat -> nat -> R) Q r k : (forall i j, (i < ny)%nat -> (j < ny)%nat -> dW D i j = dW D j i) ->
  (forall r k, (r < nv)%nat -> (k <= r)%nat -> Q r k = 0 + dscaling D * sum ny (fun i => sum ny (fun j => J i r * dW D i j * J j k))) -> (r < nv)%nat -> (k < nv)%nat ->
  low Q r k = dscaling D * sum ny (fun i => sum ny (fun j => J i r * dW D i j * J j k)).
Proof.
  intros Hs HQ Hr Hk. unfold low. destruct (Nat.leb_spec k r) as [Hl|Hl]; rewrite HQ by lia; rewrite Rplus_0_l; [reflexivity|].
  f_equal. rewrite (sum_swap ny ny). apply sum_ext. intros i Hi. apply sum_ext. intros j Hj. rewrite (Hs j i) by auto. ring.
Qed.
Theorem ls_expansion c0 m0 h (ux e : vecR) zf dz : created c0 -> let D := current d h (data_of d c0) in let s := ls_run d potrf sq h (c0, m0) in
  weight_ok d potrf sq D -> settled h = true -> settled_Z h = true -> is_affine d zf dz ux ->
  let m := snd (ls_update (A := real) d true false ux (zf ux) dz s) in
  cost d D (ls_rho d D zf) (fun r => ux r + e r) = fn m + sum (nv + 2 * ns) (fun k => grad m k * e k)
    + 1 / 2 * sum nv (fun r => sum nv (fun k => e r * low (RSQ m) r k * e k)) + 1 / 2 * sum (2 * ns) (fun k => QZ m k * e (nv + k)%nat ^ 2).
Proof.
  intros Hc D s Hw Hs Hz Ha m. pose proof (run_inv d potrf sq c0 m0 h Hc) as I. fold s D in I.
  pose proof (ls_lin d potrf sq s D ux zf dz true false I (proj1 Hw)) as (Hf & _). fold m in Hf. rewrite Hf.
  pose proof (ls_hessian d potrf sq c0 m0 h Hc ux (zf ux) dz false Hw Hs) as HH. fold s D in HH. fold m in HH.
  pose proof (QZ_run d potrf sq h false (c0, m0) ltac:(discriminate) Hz) as HQ. fold s in HQ.
  assert (EQ : QZ m = QZ (snd s)). { unfold m. destruct s as (c, m1). unfold ls_update. cbn [snd]. rewrite (proj1 (proj2 (finish_other d false c ux _))). reflexivity. }
  destruct s as (c, m1) eqn:Es. destruct I as (H & _). cbn [fst] in *. cbn [snd] in EQ.
  assert (EG : sum (nv + 2 * ns) (fun k => grad m k * e k) = dscaling D * (sum ny (fun i => sum ny (fun j => dW D i j * ls_rho d D zf ux j) * sum nv (fun r => ls_jac d D dz i r * e r)) + sum (2 * ns) (fun k => (zs c k + Zs c k * ux (nv + k)%nat) * e (nv + k)%nat))).
  { unfold m, ls_update. cbn [snd]. rewrite (finish_dir d c D) by exact H. cbn [put_mem put_res put_RSQ grad res]. rewrite grad_pair. f_equal. f_equal. apply sum_ext. intros i Hi.
    rewrite (symv_val d D c) by (auto; apply Hw). apply (f_equal2 Rmult); apply sum_ext; intros j Hj; [rewrite (ls_res_val d c D) by auto|rewrite (ls_Cyt_val d c D) by auto]; reflexivity. }
  rewrite EG. rewrite (sum_ext nv (fun r => sum nv (fun k => e r * low (RSQ m) r k * e k)) (fun r => dscaling D * sum nv (fun k => e r * sum ny (fun i => sum ny (fun j => ls_jac d D dz i r * dW D i j * ls_jac d D dz j k)) * e k))).
  2: { intros r Hr. rewrite <- sum_scal. apply sum_ext. intros k Hk. rewrite (low_hess D (ls_jac d D dz)) by (auto; apply Hw). ring. }
  rewrite sum_scal. rewrite (sum_ext (2 * ns) (fun k => QZ m k * e (nv + k)%nat ^ 2) (fun k => dscaling D * (Zs c k * e (nv + k)%nat ^ 2))).
  2: { intros k Hk. rewrite EQ. pose proof (HQ k Hk) as HQk. cbn [fst snd] in HQk. rewrite HQk. assert (Esc : scaling c = dscaling D) by apply H. rewrite Esc. apply Rmult_assoc. }
  rewrite sum_scal. unfold cost. rewrite (slack_expand c D) by exact H.
  assert (ER : quadratic d D (ls_rho d D zf (fun r => ux r + e r)) = quadratic d D (fun j => ls_rho d D zf ux j + sum nv (fun r => ls_jac d D dz j r * e r))).
  { unfold quadratic. f_equal. assert (P : forall j, ls_rho d D zf (fun r => ux r + e r) j = ls_rho d D zf ux j + sum nv (fun r => ls_jac d D dz j r * e r)).
    { intro j. rewrite jac_sum. unfold ls_rho. rewrite (sum_ext nz (fun k => dVz D j k * zf (fun r => ux r + e r) k) (fun k => dVz D j k * zf ux k + dVz D j k * sum nv (fun r => dz r k * e r))) by (intros k Hk; rewrite (Ha e k Hk); ring).
      rewrite (sum_ext nu (fun i => dVu D j i * (ux i + e i)) (fun i => dVu D j i * ux i + dVu D j i * e i)) by (intros; ring).
      rewrite (sum_ext nx (fun i => dVx D j i * (ux (nu + i)%nat + e (nu + i)%nat)) (fun i => dVx D j i * ux (nu + i)%nat + dVx D j i * e (nu + i)%nat)) by (intros; ring).
      rewrite !sum_plus. ring. }
    apply sum_ext. intros i Hi. apply sum_ext. intros j Hj. rewrite !P. reflexivity. }
  rewrite ER, quad_expand by apply Hw. rewrite (quad_jac D (ls_jac d D dz)). field.
Qed.

(** ** nonlinear least squares *)
Variable F : nls_fun real.
Variable integ : bool.
Definition ninv (s : cmodel real * cmem real) (D : data) : Prop :=
  rel d (fst s) D /\ (is_diag (fst s) = true -> forall i j, (i < ny)%nat -> (j < ny)%nat -> i <> j -> W (fst s) i j = 0) /\ (W_changed (fst s) = false -> fresh_factor d potrf sq (fst s) (snd s)).
Lemma ninv_start c m : created c -> ninv (c, m) (data_of d c).
Proof. intros (A & B). unfold ninv; cbn. rewrite A, B. repeat split; try discriminate; apply rel_start. Qed.
Lemma ninv_same c m m' D : W_chol m' = W_chol m -> W_chol_diag m' = W_chol_diag m -> ninv (c, m) D -> ninv (c, m') D.
Proof. intros A B. unfold ninv, fresh_factor; cbn. rewrite A, B. auto. Qed.
Lemma nls_update_W_ok s D : ninv s D -> ninv (nls_update_W potrf sq d s) D /\ W_changed (fst (nls_update_W potrf sq d s)) = false.
Proof.
  destruct s as (c, m). intros (H1 & H2 & H3). cbn [fst snd] in *. unfold nls_update_W. destruct (W_changed c) eqn:EW.
  - cbn [flags W_changed fst snd]. split; [|reflexivity]. split; [exact H1|]. split; [exact H2|]. intros _. apply (factorise_fresh d potrf sq c m).
  - cbn [fst]. split; [|exact EW]. split; [exact H1|]. split; [exact H2|]. cbn [fst snd]. rewrite EW. auto.
Qed.
Lemma nls_upd_keeps gn b (ux z : vecR) dz c m s' : nls_update (A := real) d F integ gn b ux z dz (c, m) = Some s' -> fst s' = c /\ W_chol (snd s') = W_chol m /\ W_chol_diag (snd s') = W_chol_diag m.
Proof.
  unfold nls_update. destruct integ.
  - intro E. apply (f_equal (fun o => match o with Some x => x | None => s' end)) in E. cbv beta iota in E. subst s'. cbn [fst snd]. destruct (finish_keeps d true c ux m) as (A & B & _). auto.
  - destruct gn; [|destruct (0 <? nz)%nat; [discriminate|]]; intro E; apply (f_equal (fun o => match o with Some x => x | None => s' end)) in E; cbv beta iota in E; subst s'; cbn [fst snd];
      match goal with |- context [finish d false c ux ?m0] => pose proof (finish_keeps d false c ux m0) as (K1 & K2 & K3) end; rewrite K1, K2; auto.
Qed.
Lemma nls_fun_keeps (ux z : vecR) c m : fst (nls_compute_fun (A := real) d F integ ux z (c, m)) = c /\ W_chol (snd (nls_compute_fun (A := real) d F integ ux z (c, m))) = W_chol m /\ W_chol_diag (snd (nls_compute_fun (A := real) d F integ ux z (c, m))) = W_chol_diag m.
Proof.
  unfold nls_compute_fun. destruct integ; cbn [fst snd]; match goal with |- context [finish_fun d ?b c ux ?m0] => pose proof (finish_fun_keeps d b c ux m0) as (K1 & K2 & K3) end; rewrite K1, K2; auto.
Qed.
Lemma nls_step_inv o s s' D : ninv s D -> nls_step d potrf sq F integ (Some s) o = Some s' -> ninv s' (data_step d D o).
Proof.
  intros H E. destruct o as [f v| | |a b ux z dz|ux z dz]; cbn [nls_step data_step] in *.
  - destruct (nls_field f) eqn:Ef; [|discriminate E]. apply (f_equal (fun o => match o with Some x => x | None => s' end)) in E. cbv beta iota in E. subst s'. destruct s as (c, m). destruct H as (H1 & H2 & H3). cbn [fst snd] in *.
    split; [now apply rel_set|]. cbn [fst snd] in *. destruct f; try discriminate Ef; cbn [model_set put_Cyt put_Zs put_zs is_diag W W_changed Cyt_changed]; (split; [|]); try (intros; discriminate); auto. apply diag_ok.
  - apply (f_equal (fun o => match o with Some x => x | None => s' end)) in E. cbv beta iota in E. subst s'. apply nls_update_W_ok. destruct s as (c, m). destruct H as (H1 & H2 & H3). split; [exact H1|]. split; [exact H2|]. intro Q; discriminate Q.
  - apply (f_equal (fun o => match o with Some x => x | None => s' end)) in E. cbv beta iota in E. subst s'. destruct (nls_update_W_ok s D H) as (A & _). unfold nls_initialize, set_QZ. destruct (nls_update_W potrf sq d s) as (c', m'). exact A.
  - destruct s as (c, m). destruct (nls_upd_keeps _ _ _ _ _ _ _ _ E) as (K1 & K2 & K3). destruct s' as (c', m'). cbn [fst snd] in *. subst c'. apply (ninv_same c m m' D K2 K3 H).
  - apply (f_equal (fun o => match o with Some x => x | None => s' end)) in E. cbv beta iota in E. destruct s as (c, m). destruct (nls_fun_keeps ux z c m) as (K1 & K2 & K3). rewrite E in K1, K2, K3. destruct s' as (c', m'). cbn [fst snd] in *. subst c'. apply (ninv_same c m m' D K2 K3 H).
Qed.
Lemma nls_none h : fold_left (nls_step d potrf sq F integ) h None = None.
Proof. induction h; auto. Qed.
Lemma nls_run_inv h s s' D : ninv s D -> nls_run d potrf sq F integ h s = Some s' -> ninv s' (current d h D).
Proof.
  unfold nls_run. revert s D. induction h as [|o h IH]; intros s D H E.
  - cbn in E. apply (f_equal (fun o => match o with Some x => x | None => s' end)) in E. cbv beta iota in E. subst s'. exact H.
  - cbn [fold_left current] in *. destruct (nls_step d potrf sq F integ (Some s) o) as [s1|] eqn:E1; [|rewrite nls_none in E; discriminate E]. apply (IH s1); [|exact E]. eapply nls_step_inv; eauto.
Qed.
Lemma nls_flag_run h bb s s' : (bb = true -> W_changed (fst s) = false) -> fold_left settles_W h bb = true -> nls_run d potrf sq F integ h s = Some s' -> W_changed (fst s') = false.
Proof.
  unfold nls_run. revert bb s. induction h as [|o h IH]; intros bb s H E1 E.
  - cbn in E. apply (f_equal (fun o => match o with Some x => x | None => s' end)) in E. cbv beta iota in E. subst s'. now apply H.
  - cbn [fold_left] in *. destruct (nls_step d potrf sq F integ (Some s) o) as [s1|] eqn:E2; [|rewrite nls_none in E; discriminate E]. apply (IH (settles_W bb o) s1); [|exact E1|exact E].
    intro B. destruct o as [f v| | |a b ux z dz|ux z dz]; cbn [nls_step settles_W] in *.
    + destruct (nls_field f) eqn:Ef; [|discriminate E2]. apply (f_equal (fun o => match o with Some x => x | None => s1 end)) in E2. cbv beta iota in E2. subst s1. destruct s as (c, m). cbn [fst] in *. destruct f; try discriminate B; try discriminate Ef; cbn [model_set put_Zs put_zs put_Cyt W_changed]; auto.
    + apply (f_equal (fun o => match o with Some x => x | None => s1 end)) in E2. cbv beta iota in E2. subst s1. destruct s as (c, m). reflexivity.
    + apply (f_equal (fun o => match o with Some x => x | None => s1 end)) in E2. cbv beta iota in E2. subst s1. destruct s as (c, m). unfold nls_initialize, nls_update_W, set_QZ. destruct (W_changed c) eqn:EW; [reflexivity|exact EW].
    + destruct s as (c, m). destruct (nls_upd_keeps _ _ _ _ _ _ _ _ E2) as (K1 & _). rewrite K1. cbn [fst] in *. auto.
    + apply (f_equal (fun o => match o with Some x => x | None => s1 end)) in E2. cbv beta iota in E2. destruct s as (c, m). destruct (nls_fun_keeps ux z c m) as (K1 & _). rewrite E2 in K1. rewrite K1. cbn [fst] in *. auto.
Qed.
End S.
