From Coq Require Import ZArith List Bool Lia Reals Lra FunctionalExtensionality.
From Coquelicot Require Import Coquelicot.
From Verif Require Import Arith Vec LinModel Poly LinProofs OcpProofs BghEvalProofs BghAdjProofs BghEvalCases CostModel RSum CostSpec CostProofs CostTop CostLs CostNls CostOther.
Import ListNotations.
Open Scope R_scope.

(** Cholesky factor of a matrix of size at most two *)
Definition chol2 (n : nat) (V : matR) : matR := fun i j =>
  match i, j with
  | O, O => sqrt (V 0%nat 0%nat) | S O, O => V 1%nat 0%nat / sqrt (V 0%nat 0%nat)
  | S O, S O => sqrt (V 1%nat 1%nat - V 1%nat 0%nat / sqrt (V 0%nat 0%nat) * (V 1%nat 0%nat / sqrt (V 0%nat 0%nat))) | _, _ => 0
  end.
Definition W2 : vecR := fun k => match k with O => 4 | S (S (S O)) => 5 | _ => 2 end.
Definition d2 : cdim := mkCD 1 1 1 2 1.
Definition zero : vecR := fun _ => 0.
Definition zero2 : matR := fun _ _ => 0.
Definition fresh_c : cmodel real := mkC (fun _ _ => 0) (fun _ _ => 0) (fun _ _ => 0) (fun _ => 0) (fun _ => 0) (fun _ => 0) 1 true false false.
Definition fresh_m : cmem real := mkM (fun _ _ => 7) (fun _ _ => 7) (fun _ => 7) (fun _ => 7) (fun _ _ => 7) (fun _ => 7) (fun _ => 7) 7 false.
(** weight (4 2; 2 5), outputs x and u + z, slack weights, scaling 3, an evaluation, a new reference *)
Definition h2 : list op := [CSet fW W2; CSet fVx (fun k => match k with O => 1 | _ => 0 end); CSet fVu (fun k => match k with O => 0 | _ => 1 end); CSet fVz (fun k => match k with O => 0 | _ => 1 end);
  CSet fZl (fun _ => 2); CSet fzu (fun _ => 5); CPre; CSet fscaling (fun _ => 3); CInit; CFun zero zero zero2; CSet fyref (fun _ => 1)].
Lemma sqrt4 : sqrt 4 = 2. Proof. replace 4 with (2 * 2) by ring. rewrite sqrt_square; lra. Qed.
Example h2_created : created fresh_c. Proof. split; reflexivity. Qed.
Example h2_settled : settled h2 = true /\ settled_W h2 = true /\ settled_Z h2 = true. Proof. repeat split. Qed.
Lemma two_cases (P : nat -> Prop) : P 0%nat -> P 1%nat -> forall i, (i < 2)%nat -> P i.
Proof. intros A B [|[|i]] H; auto; lia. Qed.
Example h2_weight : weight_ok d2 chol2 sqrt (current d2 h2 (data_of d2 fresh_c)).
Proof.
  assert (E : forall i j, dW (current d2 h2 (data_of d2 fresh_c)) i j = W2 (i + 2 * j)%nat) by reflexivity. unfold weight_ok. change (cny d2) with 2%nat. split; [|split].
  - intros i j Hi Hj. rewrite !E. revert i Hi. apply two_cases; revert j Hj; apply two_cases; reflexivity.
  - intros i Hi. rewrite !E. revert i Hi. apply two_cases; cbn [W2 Nat.add Nat.mul]; apply sqrt_sqrt; lra.
  - intros V HV i j Hi Hj. rewrite E. pose proof (HV 0%nat 0%nat ltac:(lia) ltac:(lia)) as V00. pose proof (HV 1%nat 0%nat ltac:(lia) ltac:(lia)) as V10. pose proof (HV 1%nat 1%nat ltac:(lia) ltac:(lia)) as V11.
    rewrite E in V00, V10, V11. cbn [W2 Nat.add Nat.mul] in *. assert (S4 := sqrt4).
    assert (S22 : sqrt (5 - 2 / 2 * (2 / 2)) = 2) by (replace (5 - 2 / 2 * (2 / 2)) with 4 by field; exact S4).
    destruct i as [|[|i]]; [| |lia]; destruct j as [|[|j]]; try lia; cbn [sum chol2 W2 Nat.add Nat.mul]; rewrite ?V00, ?V10, ?V11, ?S4, ?S22; field.
Qed.
(** the Hessian entry of u and x: 3 * 2; of u and u: 3 * 5 *)
Example h2_hess ux z : let Q := RSQ (snd (ls_update (A := real) d2 true false ux z (fun r k => match r with O => 1 | _ => 0 end) (ls_run d2 chol2 sqrt h2 (fresh_c, fresh_m)))) in Q 1%nat 0%nat = 12 /\ Q 0%nat 0%nat = 60.
Proof.
  cbv zeta. destruct h2_settled as (Hs & _).
  rewrite !(ls_hessian d2 chol2 sqrt fresh_c fresh_m h2 h2_created ux z _ false h2_weight Hs) by (cbn; lia).
  cbv -[Rplus Rmult Ropp Rminus IZR Rdiv]. split; lra.
Qed.
(** the slack weights *)
Example h2_QZ : QZ (snd (ls_run d2 chol2 sqrt h2 (fresh_c, fresh_m))) 0%nat = 6.
Proof.
  destruct h2_settled as (_ & _ & Hz). destruct (ls_slack_hessian d2 chol2 sqrt fresh_c fresh_m h2 h2_created Hz 0%nat ltac:(cbn; lia)) as (E & _). rewrite E.
  cbv -[Rplus Rmult Ropp Rminus IZR Rdiv]. lra.
Qed.
(** algebraic variable z = u *)
Example h2_affine ux : is_affine d2 (fun v _ => v 0%nat) (fun r k => match r with O => 1 | _ => 0 end) ux /\ is_sens d2 (fun v _ => v 0%nat) (fun r k => match r with O => 1 | _ => 0 end) ux.
Proof.
  split; intros e k Hk.
  - cbn [sum d2 cnu cnx Nat.add]. ring.
  - refine (is_derive_val _ _ _ _ (line_derive (ux 0%nat) (e 0%nat)) _). cbn [sum d2 cnu cnx Nat.add]. ring.
Qed.

(** ** the weight changed after initialisation: the cost evaluation uses the old one *)
Definition d1 : cdim := mkCD 1 0 0 1 0.
Definition one_c : cmodel real := mkC (fun _ _ => 1) (fun _ _ => 1) (fun _ _ => 0) (fun _ => 0) (fun _ => 0) (fun _ => 0) 1 true false false.
Lemma weight1 (w : R) D : 0 <= w -> (forall i j, dW D i j = w) -> weight_ok d1 chol2 sqrt D.
Proof.
  intros Hw E. unfold weight_ok. change (cny d1) with 1%nat. split; [|split].
  - intros. now rewrite !E.
  - intros. rewrite !E. now apply sqrt_sqrt.
  - intros V HV i j Hi Hj. rewrite E. assert (V00 := HV 0%nat 0%nat ltac:(lia) ltac:(lia)). rewrite E in V00. destruct i; [|lia]. destruct j; [|lia]. cbn [sum chol2]. rewrite V00, Rplus_0_l. now apply sqrt_sqrt.
Qed.
Lemma stale_value : exists d potrf sq c0 m0 h v (ux : vecR) zf dz, created c0 /\ settled_W h = true /\ weight_ok d potrf sq (current d h (data_of d c0)) /\
  let h' := h ++ [CSet fW v] in let D := current d h' (data_of d c0) in weight_ok d potrf sq D /\
  fn (snd (ls_compute_fun (A := real) d ux (zf ux) dz (ls_run d potrf sq h' (c0, m0)))) <> cost d D (ls_rho d D zf) ux /\
  fn (snd (ls_compute_fun (A := real) d ux (zf ux) dz (ls_run d potrf sq h' (c0, m0)))) = cost d (current d h (data_of d c0)) (ls_rho d (current d h (data_of d c0)) zf) ux /\
  fn (snd (ls_compute_fun (A := real) d ux (zf ux) dz (ls_run d potrf sq (h' ++ [CInit]) (c0, m0)))) = cost d D (ls_rho d D zf) ux.
Proof.
  exists d1, chol2, sqrt, one_c, fresh_m, [CInit], (fun _ => 4), (fun _ => 1), (fun _ _ => 0), (fun _ _ => 0).
  split; [split; reflexivity|]. split; [reflexivity|]. split; [apply (weight1 1); [lra|reflexivity]|]. cbv zeta.
  assert (W4 : weight_ok d1 chol2 sqrt (current d1 ([CInit] ++ [CSet fW (fun _ => 4)]) (data_of d1 one_c))) by (apply (weight1 4); [lra|reflexivity]).
  split; [exact W4|].
  assert (E1 : fn (snd (ls_compute_fun (A := real) d1 (fun _ => 1) zero zero2 (ls_run d1 chol2 sqrt ([CInit] ++ [CSet fW (fun _ => 4)]) (one_c, fresh_m)))) = 1 / 2).
  { pose proof (inv_run d1 chol2 sqrt ([CInit] ++ [CSet fW (fun _ => 4)]) _ _ (inv_start d1 chol2 sqrt one_c fresh_m ltac:(split; reflexivity))) as (H & _).
    cbn [ls_run fold_left app ls_step fst snd] in *. unfold ls_initialize, ls_update_W in *. cbn [one_c W_changed fst snd set_QZ flags Cyt_changed] in *. unfold ls_compute_fun. cbn [snd].
    rewrite (finish_fun_fn d1 _ _ _ _ H). cbn [put_mem put_res fn res]. rewrite rcst_half. unfold slack_cost, vdot. cbn [d1 cns cny cnu cnx cnz sum]. unfold weighv. cbn [model_set is_diag diag_of d1 cny Nat.ltb Nat.leb].
    unfold factorise. cbn [is_diag W_chol]. cbv -[Rplus Rmult Ropp Rminus IZR Rdiv sqrt]. rewrite sqrt_1. lra. }
  assert (C1 : cost d1 (current d1 [CInit] (data_of d1 one_c)) (ls_rho d1 (current d1 [CInit] (data_of d1 one_c)) (fun _ _ => 0)) (fun _ => 1) = 1 / 2) by (cbv -[Rplus Rmult Ropp Rminus IZR Rdiv pow]; lra).
  assert (C4 : cost d1 (current d1 ([CInit] ++ [CSet fW (fun _ => 4)]) (data_of d1 one_c)) (ls_rho d1 (current d1 ([CInit] ++ [CSet fW (fun _ => 4)]) (data_of d1 one_c)) (fun _ _ => 0)) (fun _ => 1) = 2) by (cbv -[Rplus Rmult Ropp Rminus IZR Rdiv pow]; lra).
  split; [rewrite C4; intro Q; apply (eq_trans (eq_sym E1)) in Q; lra|].
  split; [rewrite C1; exact E1|].
  apply (ls_line_search d1 chol2 sqrt one_c fresh_m (([CInit] ++ [CSet fW (fun _ => 4)]) ++ [CInit]) ltac:(split; reflexivity) (fun _ => 1) (fun _ _ => 0) zero2); [exact W4|reflexivity].
Qed.

(** ** cost integration with slacks and a scaling: value and gradient disagree *)
Definition ds : cdim := mkCD 1 0 0 1 1.
Definition int_c : cmodel real := mkC (fun _ _ => 1) (fun _ _ => 0) (fun _ _ => 0) (fun _ => 0) (fun _ => 0) (fun _ => 1) 1 true false false.
Lemma slack_line : forall D (ux e : vecR), (forall k, dZl D k = 0) -> (forall k, dZu D k = 0) -> (forall k, dzl D k = 1) -> (forall k, dzu D k = 1) ->
  slack_cost ds D (fun r => ux r + e r) = ux 1%nat + e 1%nat + (ux 2%nat + e 2%nat).
Proof. intros D ux e A B C E. unfold slack_cost. cbn [ds cns cnu cnx sum Nat.add]. rewrite A, B, C, E. ring. Qed.
(** the cost of NLS and CONL, as a function of the slack: the derivative of the reported value is 1, the reported gradient is 2 *)
Lemma integ_aux F c m D : rel ds c D -> (forall k, dZl D k = 0) -> (forall k, dZu D k = 0) -> (forall k, dzl D k = 1) -> (forall k, dzu D k = 1) -> dscaling D = 2 ->
  forall (ux z : vecR) dz, exists s', nls_update (A := real) ds F true true false ux z dz (c, m) = Some s' /\
    is_derive (fun t => fn (snd (nls_compute_fun (A := real) ds F true (fun r => ux r + t * (if (r =? cnu ds + cnx ds)%nat then 1 else 0)) z (c, m)))) 0 1 /\ grad (snd s') (cnu ds + cnx ds)%nat = 2.
Proof.
  intros H E1 E2 E3 E4 E5 ux z dz. eexists. split; [reflexivity|]. cbn [snd]. change (cnu ds + cnx ds)%nat with 1%nat. split.
  - apply (is_derive_ext (fun t => (fn m + (ux 1%nat + ux 2%nat)) + t * 1)).
    + intro t. unfold nls_compute_fun. cbn [snd]. rewrite (finish_fun_integ ds c D) by exact H.
      rewrite (slack_line D ux (fun r => t * (if (r =? 1)%nat then 1 else 0))) by auto. cbn [Nat.eqb]. change (num real) with R. match goal with |- ?a = ?b => change (@eq R a b) end. ring.
    + apply line_derive.
  - destruct (finish_integ ds c D ux m H) as (_ & B & _). specialize (B 0%nat ltac:(cbn; lia)). change (cnu ds + cnx ds + 0)%nat with 1%nat in B. refine (eq_trans B _).
    destruct H as (_ & _ & _ & _ & _ & H6 & _ & H8 & _). rewrite (H6 0%nat), (H8 0%nat) by (cbn; lia). rewrite E1, E3, E5. change (2 * (1 + 0 * ux 1%nat) = 2)%R. rr. ring.
Qed.
Lemma integrated_mismatch : exists d potrf sq F c0 m0 h s, created c0 /\ nls_run d potrf sq F true h (c0, m0) = Some s /\ dscaling (current d h (data_of d c0)) = 2 /\
  forall (ux z : vecR) dz, exists s', nls_update (A := real) d F true true false ux z dz s = Some s' /\
    is_derive (fun t => fn (snd (nls_compute_fun (A := real) d F true (fun r => ux r + t * (if (r =? cnu d + cnx d)%nat then 1 else 0)) z s))) 0 1 /\ grad (snd s') (cnu d + cnx d)%nat = 2.
Proof.
  pose (F := mkN (A := real) (fun _ _ _ => 0) (fun _ _ _ _ => 0) (fun _ _ _ _ => 0) (fun _ _ _ _ _ => 0)).
  assert (Hc : created int_c) by (split; reflexivity).
  destruct (nls_run ds chol2 sqrt F true [CSet fscaling (fun _ => 2); CInit] (int_c, fresh_m)) as [s|] eqn:Er; [|discriminate Er].
  pose proof (nls_run_inv ds chol2 sqrt F true _ _ s _ (ninv_start ds chol2 sqrt int_c fresh_m Hc) Er) as (H & _).
  exists ds, chol2, sqrt, F, int_c, fresh_m, [CSet fscaling (fun _ => 2); CInit], s. split; [exact Hc|]. split; [exact Er|]. split; [reflexivity|]. clear Er. destruct s as (c, m).
  apply (integ_aux F c m _ H); reflexivity.
Qed.
Lemma conl_mismatch : exists d potrf sq O c m, scaling c = 2 /\
  forall (ux z : vecR) dz, is_derive (fun t => fn (snd (conl_compute_fun (A := real) d O true (fun r => ux r + t * (if (r =? cnu d + cnx d)%nat then 1 else 0)) z (c, m)))) 0 1 /\
    grad (snd (conl_update potrf sq d O true false ux z dz (c, m))) (cnu d + cnx d)%nat = 2.
Proof.
  exists ds, chol2, sqrt, (mkO (A := real) (fun _ _ _ => 0) (fun _ _ _ _ => 0) (fun _ _ _ _ _ => 0) (fun _ _ _ _ _ => 0) (fun _ _ _ _ _ => 0) (fun _ _ _ => false)), (model_set ds fscaling (fun _ => 2) int_c), fresh_m.
  split; [reflexivity|]. set (O := mkO (A := real) _ _ _ _ _ _). set (c := model_set ds fscaling (fun _ => 2) int_c). set (D := data_of ds c). assert (H : rel ds c D) by apply rel_start. intros ux z dz.
  change (cnu ds + cnx ds)%nat with 1%nat. split.
  - apply (is_derive_ext (fun t => (fn fresh_m + (ux 1%nat + ux 2%nat)) + t * 1)).
    + intro t. unfold conl_compute_fun. cbn [snd]. rewrite (finish_fun_integ ds c D) by exact H.
      rewrite (slack_line D ux (fun r => t * (if (r =? 1)%nat then 1 else 0))) by (intro; reflexivity). cbn [Nat.eqb]. change (num real) with R. match goal with |- ?a = ?b => change (@eq R a b) end. ring.
    + apply line_derive.
  - unfold conl_update. cbn [snd]. destruct (finish_integ ds c D ux fresh_m H) as (_ & B & _). specialize (B 0%nat ltac:(cbn; lia)). change (cnu ds + cnx ds + 0)%nat with 1%nat in B. refine (eq_trans B _). cbv -[Rplus Rmult IZR]. lra.
Qed.

(** ** external cost: the mixed derivatives with respect to z and (u, x) *)
Definition dx : cdim := mkCD 1 1 2 0 0.
(** l(u, x, z) = z0 * x *)
Definition ex_E : ext_fun real := mkE (A := real) (fun ux z => z 0%nat * ux 1%nat) (fun ux z k => match k with S O => z 0%nat | S (S O) => ux 1%nat | _ => 0 end) (fun _ _ _ _ => 0) (fun _ _ _ _ => 0)
  (fun _ _ k r => match k, r with O, S O => 1 | _, _ => 0 end).
(** z0 = u, z1 = 0 *)
Definition ex_z (v : vecR) : vecR := fun k => match k with O => v 0%nat | _ => 0 end.
Definition ex_dz : matR := fun r k => match r, k with O, O => 1 | _, _ => 0 end.
Lemma ex_ext ux z : is_ext dx ex_E ux z.
Proof.
  intros p q dp dq Hp Hq Dp Dq. cbn [ex_E e_fun e_grad]. refine (is_derive_val _ _ _ _ (prod_derive (fun t => q t 0%nat) (fun t => p t 1%nat) 0 (dq 0%nat) (dp 1%nat) (Dq 0%nat ltac:(cbn; lia)) (Dp 1%nat)) _).
  rewrite Hp, Hq. cbn [dx cnu cnx cnz sum Nat.add]. ring.
Qed.
Lemma ex_sens ux : is_sens dx ex_z ex_dz ux.
Proof.
  intros e k Hk. cbn in Hk. destruct k as [|[|k]]; [| |lia]; cbn [ex_z ex_dz dx cnu cnx sum Nat.add].
  - refine (is_derive_val _ _ _ _ (line_derive (ux 0%nat) (e 0%nat)) _). ring.
  - refine (is_derive_val _ _ _ _ (derive_const 0 0) _). ring.
Qed.
Lemma ex_hessian : exists d E zf dz c m, (forall ux z, is_ext d E ux z) /\ (forall ux, is_sens d zf dz ux) /\ scaling c = 1 /\
  (forall ux z k r, (k < cnz d)%nat -> (r < cnu d + cnx d)%nat -> is_derive (fun t => e_grad E (fun i => ux i + t * (if (i =? r)%nat then 1 else 0)) z (cnu d + cnx d + k)%nat) 0 (e_hess_zux E ux z k r)) /\
  cross_outside d = false /\
  forall ux old, let upd v := snd (ext_update (A := real) d E None false v (zf v) dz old (c, m)) in
    is_derive (fun t => grad (upd (fun i => ux i + t * (if (i =? 1)%nat then 1 else 0))) 0%nat) 0 1 /\ RSQ (upd ux) 1%nat 0%nat = 0.
Proof.
  exists dx, ex_E, ex_z, ex_dz, fresh_c, fresh_m. split; [apply ex_ext|]. split; [apply ex_sens|]. split; [reflexivity|]. split.
  - intros ux z k r Hk Hr. cbn in Hk, Hr. destruct k as [|[|k]]; [| |lia]; destruct r as [|[|r]]; try lia; cbn [dx cnu cnx Nat.add ex_E e_grad e_hess_zux Nat.eqb]; auto_derive; auto; ring.
  - split; [reflexivity|]. intros ux old upd.
    assert (H : rel dx fresh_c (data_of dx fresh_c)) by apply rel_start. unfold upd, ext_update. cbn [snd]. split.
    + apply (is_derive_ext (fun t => ux 1%nat + t * 1)); [|apply line_derive]. intro t. rewrite (finish_grad dx fresh_c _ _ _ _ H) by (cbn; lia). cbn [dx cnu cnx cnz Nat.add Nat.ltb Nat.leb put_mem put_oob grad ext_grad].
      cbv -[Rplus Rmult Ropp Rminus IZR Rdiv]. ring.
    + rewrite (proj1 (finish_other dx false fresh_c ux _)). cbn [put_mem put_oob put_RSQ RSQ]. cbv -[Rplus Rmult Ropp Rminus IZR Rdiv]. ring.
Qed.
Lemma ext_outside d E c m (ux z : vecR) dz old b : (0 < cnz d)%nat -> (0 < cnu d + cnx d)%nat -> cnz d <> (cnu d + cnx d)%nat -> oob (snd (ext_update (A := real) d E None b ux z dz old (c, m))) = true.
Proof.
  intros Hz Hv Hn. unfold ext_update. cbn [snd]. match goal with |- oob (finish d false c ux ?mm) = _ => destruct (finish_other d false c ux mm) as (_ & _ & _ & B) end. rewrite B. cbn [put_mem put_oob put_RSQ oob].
  assert (X : cross_outside d = true) by (unfold cross_outside; nb; reflexivity). rewrite X. apply orb_true_r.
Qed.
Lemma nls_outside d F c m (ux z : vecR) dz b s' : (0 < cnz d)%nat -> (0 < cny d)%nat -> cnz d <> cny d -> nls_update (A := real) d F false true b ux z dz (c, m) = Some s' -> oob (snd s') = true.
Proof.
  intros Hz Hv Hn Eu. unfold nls_update in Eu. out Eu s'. cbn [snd]. match goal with |- oob (finish d false c ux ?mm) = _ => destruct (finish_other d false c ux mm) as (_ & _ & _ & B) end. rewrite B. cbn [put_mem put_oob put_RSQ put_res oob].
  assert (X : vz_outside d = true) by (unfold vz_outside; nb; reflexivity). rewrite X. apply orb_true_r.
Qed.
(** a nonlinear residual: y = x^2, and its Jacobian *)
Definition sq_F : nls_fun real := mkN (A := real) (fun ux _ _ => ux 0%nat * ux 0%nat) (fun ux _ r _ => if (r =? 0)%nat then 2 * ux 0%nat else 0) (fun _ _ _ _ => 0) (fun _ _ t r c => 2 * t 0%nat).
Example sq_nls ux z : is_nls d1 sq_F ux z.
Proof.
  intros p q dp dq j Hj Hp Hq Dp Dq. cbn [sq_F n_y n_Jt n_Vz]. refine (is_derive_val _ _ _ _ (prod_derive (fun t => p t 0%nat) (fun t => p t 0%nat) 0 (dp 0%nat) (dp 0%nat) (Dp 0%nat) (Dp 0%nat)) _).
  rewrite Hp. cbn [d1 cnu cnx cnz sum Nat.add Nat.eqb]. ring.
Qed.
(** reference 1 and weight 4 at x = 2: value 1/2 * 3 * 4 * 3, Gauss-Newton Hessian 4 * 4 * 4 *)
Example sq_value : exists s, nls_run d1 chol2 sqrt sq_F false [CSet fW (fun _ => 4); CSet fyref (fun _ => 1); CInit] (one_c, fresh_m) = Some s /\ fn (snd (nls_compute_fun (A := real) d1 sq_F false (fun _ => 2) zero s)) = 18 /\
  exists s', nls_update (A := real) d1 sq_F false true false (fun _ => 2) zero zero2 s = Some s' /\ RSQ (snd s') 0%nat 0%nat = 64.
Proof.
  eexists. split; [reflexivity|].
  assert (Hw : weight_ok d1 chol2 sqrt (current d1 [CSet fW (fun _ => 4); CSet fyref (fun _ => 1); CInit] (data_of d1 one_c))) by (apply (weight1 4); [lra|reflexivity]). split.
  - rewrite (nls_line_search d1 chol2 sqrt sq_F one_c fresh_m [CSet fW (fun _ => 4); CSet fyref (fun _ => 1); CInit] _ (fun _ => 2) (fun _ => zero) ltac:(split; reflexivity) eq_refl Hw eq_refl). cbv -[Rplus Rmult Ropp Rminus IZR Rdiv pow]. lra.
  - eexists. split; [reflexivity|].
    destruct (nls_hessian d1 chol2 sqrt sq_F one_c fresh_m [CSet fW (fun _ => 4); CSet fyref (fun _ => 1); CInit] _ (fun _ => 2) (fun _ => zero) zero2 true false _ ltac:(split; reflexivity) eq_refl Hw eq_refl eq_refl) as (t & _ & E).
    specialize (E 0%nat 0%nat ltac:(cbn; lia) ltac:(lia)). rewrite E. cbv -[Rplus Rmult Ropp Rminus IZR Rdiv pow]. lra.
Qed.
(** convex over nonlinear: (x - yref)^2 *)
Definition sq_O : conl_fun real := mkO (A := real) (fun ux _ yr => (ux 0%nat - yr 0%nat) * (ux 0%nat - yr 0%nat)) (fun ux _ yr _ => 2 * (ux 0%nat - yr 0%nat)) (fun _ _ _ r _ => if (r =? 0)%nat then 1 else 0) (fun _ _ _ _ _ => 0) (fun _ _ _ _ _ => 2) (fun _ _ _ => false).
Example sq_reads : reads_ref d1 sq_O.
Proof. intros ux z yr yr' H. cbn [sq_O o_fun o_grad o_Jt o_Jtz o_W o_diag]. assert (E : yr 0%nat = yr' 0%nat) by (apply H; cbn; lia). rewrite E. repeat split. Qed.
Example sq_conl yr ux z : is_conl d1 sq_O yr ux z.
Proof.
  intros p q dp dq Hp Hq Dp Dq. cbn [sq_O o_fun o_grad o_Jt o_Jtz]. assert (A : is_derive (fun t => p t 0%nat - yr 0%nat) 0 (dp 0%nat)) by (refine (is_derive_val _ _ _ _ (derive_minus (fun t => p t 0%nat) (fun _ => yr 0%nat) 0 _ _ (Dp 0%nat) (derive_const _ _)) _); apply Rminus_0_r).
  refine (is_derive_val _ _ _ _ (prod_derive _ _ 0 _ _ A A) _). rewrite Hp. cbn [d1 cnu cnx cny cnz sum Nat.add Nat.eqb]. ring.
Qed.
Example sq_conl_value m : let c := set_all d1 [(fyref, fun _ => 1); (fscaling, fun _ => 3)] one_c in let m' := snd (conl_update chol2 sqrt d1 sq_O false false (fun _ => 5) zero zero2 (c, m)) in
  fn m' = 48 /\ grad m' 0%nat = 24 /\ RSQ m' 0%nat 0%nat = 6.
Proof.
  cbv zeta. set (l := [(fyref, fun _ : nat => 1); (fscaling, fun _ => 3)]). destruct (conl_linearisation d1 chol2 sqrt sq_O sq_reads l one_c m (fun _ => 5) (fun _ => zero) zero2 false) as (A & _ & _ & _).
  split; [rewrite A; cbv -[Rplus Rmult Ropp Rminus IZR Rdiv pow]; lra|]. split.
  - unfold conl_update. cbn [snd]. rewrite (finish_grad d1 _ (assign_all d1 l (data_of d1 one_c))) by (try (apply rel_all, rel_start); cbn; lia). cbv -[Rplus Rmult Ropp Rminus IZR Rdiv sqrt]. lra.
  - rewrite (conl_hessian d1 chol2 sqrt sq_O sq_reads l one_c m (fun _ => 5) zero zero2 false); [|apply (weight1 2); [lra|reflexivity]|discriminate|cbn; lia|lia].
    cbv -[Rplus Rmult Ropp Rminus IZR Rdiv]. lra.
Qed.
