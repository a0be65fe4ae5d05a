(** C43, C44, C64: stage costs. *)
From Coq Require Import ZArith List Bool Reals.
From Coquelicot Require Import Coquelicot.
From Verif Require Import Arith Vec CostModel RSum CostSpec CostProofs CostLs CostNls CostOther CostCases.
Import ListNotations.
Open Scope R_scope.

(** linear least squares: value and gradient after any history of calls *)
Theorem C43_linearisation : forall d potrf sq c0 m0 h, created c0 -> forall (ux : vecR) zf dz a b, let D := current d h (data_of d c0) in weight_ok d potrf sq D ->
  let m := snd (ls_update (A := real) d a b ux (zf ux) dz (ls_run d potrf sq h (c0, m0))) in
  fn m = cost d D (ls_rho d D zf) ux /\
  (is_sens d zf dz ux -> forall e : vecR, is_derive (fun t => cost d D (ls_rho d D zf) (fun r => ux r + t * e r)) 0 (sum (cnu d + cnx d + 2 * cns d) (fun k => grad m k * e k))).
Proof. exact ls_linearisation. Qed.
Print Assumptions C43_linearisation.
(** the Hessian is that of the current data when there was an initialisation after the last change *)
Theorem C43_hessian : forall d potrf sq c0 m0 h, created c0 -> forall (ux z : vecR) dz b, let D := current d h (data_of d c0) in weight_ok d potrf sq D -> settled h = true ->
  forall r k, (r < cnu d + cnx d)%nat -> (k <= r)%nat ->
  RSQ (snd (ls_update (A := real) d true b ux z dz (ls_run d potrf sq h (c0, m0)))) r k = (if b then RSQ (snd (ls_run d potrf sq h (c0, m0))) r k else 0)
    + dscaling D * sum (cny d) (fun i => sum (cny d) (fun j => ls_jac d D dz i r * dW D i j * ls_jac d D dz j k)).
Proof. exact ls_hessian. Qed.
Print Assumptions C43_hessian.
Theorem C43_hessian_frame : forall d (s : cmodel real * cmem real) (ux z : vecR) dz a b r k, a = false \/ (cnu d + cnx d <= r)%nat -> RSQ (snd (ls_update (A := real) d a b ux z dz s)) r k = RSQ (snd s) r k.
Proof. exact ls_hess_frame. Qed.
Print Assumptions C43_hessian_frame.
Theorem C43_slack_hessian : forall d potrf sq c0 m0 h, created c0 -> let D := current d h (data_of d c0) in settled_Z h = true ->
  forall k, (k < cns d)%nat -> QZ (snd (ls_run d potrf sq h (c0, m0))) k = dscaling D * dZl D k /\ QZ (snd (ls_run d potrf sq h (c0, m0))) (cns d + k)%nat = dscaling D * dZu D k.
Proof. exact ls_slack_hessian. Qed.
Print Assumptions C43_slack_hessian.
(** the value computed for the line search *)
Theorem C43_line_search : forall d potrf sq c0 m0 h, created c0 -> forall (ux : vecR) zf dz, let D := current d h (data_of d c0) in weight_ok d potrf sq D -> settled_W h = true ->
  fn (snd (ls_compute_fun (A := real) d ux (zf ux) dz (ls_run d potrf sq h (c0, m0)))) = cost d D (ls_rho d D zf) ux.
Proof. exact ls_line_search. Qed.
Print Assumptions C43_line_search.
(** for affine algebraic variables value, gradient and Hessian reproduce the cost exactly *)
Theorem C43_expansion : forall d potrf sq c0 m0 h (ux e : vecR) zf dz, created c0 -> let D := current d h (data_of d c0) in let s := ls_run d potrf sq h (c0, m0) in
  weight_ok d potrf sq D -> settled h = true -> settled_Z h = true -> is_affine d zf dz ux ->
  let m := snd (ls_update (A := real) d true false ux (zf ux) dz s) in
  cost d D (ls_rho d D zf) (fun r => ux r + e r) = fn m + sum (cnu d + cnx d + 2 * cns d) (fun k => grad m k * e k)
    + 1 / 2 * sum (cnu d + cnx d) (fun r => sum (cnu d + cnx d) (fun k => e r * low (RSQ m) r k * e k)) + 1 / 2 * sum (2 * cns d) (fun k => QZ m k * e (cnu d + cnx d + k)%nat ^ 2).
Proof. exact ls_expansion. Qed.
Print Assumptions C43_expansion.
(** without an initialisation in between (ocp_nlp_eval_cost), the value is that of the old weight *)
Theorem C43_stale_refuted : exists d potrf sq c0 m0 h v (ux : vecR) zf dz, created c0 /\ settled_W h = true /\ weight_ok d potrf sq (current d h (data_of d c0)) /\
  let h' := h ++ [CSet fW v] in let D := current d h' (data_of d c0) in weight_ok d potrf sq D /\
  fn (snd (ls_compute_fun (A := real) d ux (zf ux) dz (ls_run d potrf sq h' (c0, m0)))) <> cost d D (ls_rho d D zf) ux /\
  fn (snd (ls_compute_fun (A := real) d ux (zf ux) dz (ls_run d potrf sq h' (c0, m0)))) = cost d (current d h (data_of d c0)) (ls_rho d (current d h (data_of d c0)) zf) ux /\
  fn (snd (ls_compute_fun (A := real) d ux (zf ux) dz (ls_run d potrf sq (h' ++ [CInit]) (c0, m0)))) = cost d D (ls_rho d D zf) ux.
Proof. exact stale_value. Qed.
Print Assumptions C43_stale_refuted.

(** nonlinear least squares: value and gradient, slacks included *)
Theorem C44_linearisation : forall d potrf sq F c0 m0 h s (ux : vecR) zf dz gn b s', created c0 -> let D := current d h (data_of d c0) in
  nls_run d potrf sq F false h (c0, m0) = Some s -> weight_ok d potrf sq D -> nls_update (A := real) d F false gn b ux (zf ux) dz s = Some s' ->
  fn (snd s') = cost d D (nls_rho (n_y F) D zf) ux /\
  (is_sens d zf dz ux -> is_nls d F ux (zf ux) -> forall e : vecR, is_derive (fun t => cost d D (nls_rho (n_y F) D zf) (fun r => ux r + t * e r)) 0 (sum (cnu d + cnx d + 2 * cns d) (fun k => grad (snd s') k * e k))).
Proof. exact nls_linearisation. Qed.
Print Assumptions C44_linearisation.
Theorem C44_hessian : forall d potrf sq F c0 m0 h s (ux : vecR) zf dz gn b s', created c0 -> let D := current d h (data_of d c0) in
  nls_run d potrf sq F false h (c0, m0) = Some s -> weight_ok d potrf sq D -> settled_W h = true -> nls_update (A := real) d F false gn b ux (zf ux) dz s = Some s' ->
  exists t, (forall i, (i < cny d)%nat -> t i = sum (cny d) (fun j => dW D i j * nls_rho (n_y F) D zf ux j)) /\
  forall r k, (r < cnu d + cnx d)%nat -> (k <= r)%nat -> RSQ (snd s') r k = (if b then RSQ (snd s) r k else 0)
    + dscaling D * (sum (cny d) (fun i => sum (cny d) (fun j => nls_jac d F ux (zf ux) dz i r * dW D i j * nls_jac d F ux (zf ux) dz j k)) + if gn then 0 else n_hess F ux (zf ux) t r k).
Proof. exact nls_hessian. Qed.
Print Assumptions C44_hessian.
Theorem C44_line_search : forall d potrf sq F c0 m0 h s (ux : vecR) zf, created c0 -> let D := current d h (data_of d c0) in
  nls_run d potrf sq F false h (c0, m0) = Some s -> weight_ok d potrf sq D -> settled_W h = true ->
  fn (snd (nls_compute_fun (A := real) d F false ux (zf ux) s)) = cost d D (nls_rho (n_y F) D zf) ux.
Proof. exact nls_line_search. Qed.
Print Assumptions C44_line_search.
(** cost integration: value and gradient of the slacks agree when the scaling is one *)
Theorem C44_integrated : forall d potrf sq F c0 m0 h s (ux z : vecR) dz gn b s', created c0 -> let D := current d h (data_of d c0) in
  nls_run d potrf sq F true h (c0, m0) = Some s -> nls_update (A := real) d F true gn b ux z dz s = Some s' ->
  fn (snd s') = fn (snd s) + slack_cost d D ux /\ fn (snd (nls_compute_fun (A := real) d F true ux z s)) = fn (snd s') /\
  (dscaling D = 1 -> forall e : vecR, is_derive (fun t => slack_cost d D (fun r => ux r + t * e r)) 0 (sum (2 * cns d) (fun k => grad (snd s') (cnu d + cnx d + k)%nat * e (cnu d + cnx d + k)%nat))).
Proof. exact nls_integrated. Qed.
Print Assumptions C44_integrated.
(** not in general: the gradient is scaled and the value is not *)
Theorem C44_integrated_refuted : exists d potrf sq F c0 m0 h s, created c0 /\ nls_run d potrf sq F true h (c0, m0) = Some s /\ dscaling (current d h (data_of d c0)) = 2 /\
  forall (ux z : vecR) dz, exists s', nls_update (A := real) d F true true false ux z dz s = Some s' /\
    is_derive (fun t => fn (snd (nls_compute_fun (A := real) d F true (fun r => ux r + t * (if (r =? cnu d + cnx d)%nat then 1 else 0)) z s))) 0 1 /\ grad (snd s') (cnu d + cnx d)%nat = 2.
Proof. exact integrated_mismatch. Qed.
Print Assumptions C44_integrated_refuted.
(** the Jacobian with respect to z is stored into a matrix of the transposed shape *)
Theorem C44_shape_refuted : forall d F c m (ux z : vecR) dz b s', (0 < cnz d)%nat -> (0 < cny d)%nat -> cnz d <> cny d -> nls_update (A := real) d F false true b ux z dz (c, m) = Some s' -> oob (snd s') = true.
Proof. exact nls_outside. Qed.
Print Assumptions C44_shape_refuted.

(** convex-over-nonlinear *)
Theorem C64_conl : forall d potrf sq O, reads_ref d O -> forall l c0 m, forall (ux : vecR) zf dz b, let c := set_all d l c0 in let D := assign_all d l (data_of d c0) in
  let m' := snd (conl_update potrf sq d O false b ux (zf ux) dz (c, m)) in
  fn m' = total d D (fun v => o_fun O v (zf v) (dyref D)) ux /\ fn (snd (conl_compute_fun (A := real) d O false ux (zf ux) (c, m))) = fn m' /\
  (forall k, (k < cnu d + cnx d + 2 * cns d)%nat -> grad (snd (conl_compute_gradient (A := real) d O false ux (zf ux) dz (c, m))) k = grad m' k) /\
  (is_sens d zf dz ux -> is_conl d O (dyref D) ux (zf ux) -> forall e : vecR, is_derive (fun t => total d D (fun v => o_fun O v (zf v) (dyref D)) (fun r => ux r + t * e r)) 0 (sum (cnu d + cnx d + 2 * cns d) (fun k => grad m' k * e k))).
Proof. exact conl_linearisation. Qed.
Print Assumptions C64_conl.
Theorem C64_conl_hessian : forall d potrf sq O, reads_ref d O -> forall l c0 m (ux z : vecR) dz b, let c := set_all d l c0 in let D := assign_all d l (data_of d c0) in
  let V := o_W O ux z (dyref D) in weight_ok d potrf sq (with_weight D V) ->
  (o_diag O ux z (dyref D) = true -> forall i j, (i < cny d)%nat -> (j < cny d)%nat -> i <> j -> V i j = 0) ->
  forall r k, (r < cnu d + cnx d)%nat -> (k <= r)%nat -> RSQ (snd (conl_update potrf sq d O false b ux z dz (c, m))) r k =
    (if b then RSQ m r k else 0) + dscaling D * sum (cny d) (fun i => sum (cny d) (fun j => conl_jac d O (dyref D) ux z dz i r * V i j * conl_jac d O (dyref D) ux z dz j k)).
Proof. exact conl_hessian. Qed.
Print Assumptions C64_conl_hessian.
Theorem C64_conl_integrated : forall d potrf sq O l c0 m (ux z : vecR) dz b, let c := set_all d l c0 in let D := assign_all d l (data_of d c0) in let m' := snd (conl_update potrf sq d O true b ux z dz (c, m)) in
  fn m' = fn m + slack_cost d D ux /\ fn (snd (conl_compute_fun (A := real) d O true ux z (c, m))) = fn m' /\
  (forall k, (k < cnu d + cnx d + 2 * cns d)%nat -> grad (snd (conl_compute_gradient (A := real) d O true ux z dz (c, m))) k = grad m' k) /\
  (dscaling D = 1 -> forall e : vecR, is_derive (fun t => slack_cost d D (fun r => ux r + t * e r)) 0 (sum (2 * cns d) (fun k => grad m' (cnu d + cnx d + k)%nat * e (cnu d + cnx d + k)%nat))).
Proof. exact conl_integrated. Qed.
Print Assumptions C64_conl_integrated.
Theorem C64_conl_integrated_refuted : exists d potrf sq O c m, scaling c = 2 /\
  forall (ux z : vecR) dz, is_derive (fun t => fn (snd (conl_compute_fun (A := real) d O true (fun r => ux r + t * (if (r =? cnu d + cnx d)%nat then 1 else 0)) z (c, m)))) 0 1 /\
    grad (snd (conl_update potrf sq d O true false ux z dz (c, m))) (cnu d + cnx d)%nat = 2.
Proof. exact conl_mismatch. Qed.
Print Assumptions C64_conl_integrated_refuted.
(** external *)
Theorem C64_external : forall d E l c0 m (ux : vecR) zf dz old nh b, let c := set_all d l c0 in let D := assign_all d l (data_of d c0) in
  let m' := snd (ext_update (A := real) d E nh b ux (zf ux) dz old (c, m)) in
  fn m' = total d D (fun v => e_fun E v (zf v)) ux /\ fn (snd (ext_compute_fun (A := real) d E ux (zf ux) (c, m))) = fn m' /\
  (forall k, (k < cnu d + cnx d + 2 * cns d)%nat -> grad (snd (ext_compute_gradient (A := real) d E ux (zf ux) dz (c, m))) k = grad m' k) /\
  (is_sens d zf dz ux -> is_ext d E ux (zf ux) -> forall e : vecR, is_derive (fun t => total d D (fun v => e_fun E v (zf v)) (fun r => ux r + t * e r)) 0 (sum (cnu d + cnx d + 2 * cns d) (fun k => grad m' k * e k))).
Proof. exact ext_linearisation. Qed.
Print Assumptions C64_external.
Theorem C64_external_hessian : forall d E l c0 m (ux z : vecR) dz old nh b, cnz d = 0%nat \/ nh <> None -> let c := set_all d l c0 in let D := assign_all d l (data_of d c0) in
  let m' := snd (ext_update (A := real) d E nh b ux z dz old (c, m)) in
  oob m' = oob m /\ forall r k, (r < cnu d + cnx d)%nat -> (k < cnu d + cnx d)%nat -> RSQ m' r k = (if b then RSQ m r k else 0) + dscaling D * match nh with Some H => H r k | None => e_hess E ux z r k end.
Proof. exact ext_hessian. Qed.
Print Assumptions C64_external_hessian.
(** with algebraic variables the mixed derivatives are taken from the transposed matrix: the Hessian is not the derivative of the gradient *)
Theorem C64_external_hessian_refuted : exists d E zf dz c m, (forall ux z, is_ext d E ux z) /\ (forall ux, is_sens d zf dz ux) /\ scaling c = 1 /\
  (forall ux z k r, (k < cnz d)%nat -> (r < cnu d + cnx d)%nat -> is_derive (fun t => e_grad E (fun i => ux i + t * (if (i =? r)%nat then 1 else 0)) z (cnu d + cnx d + k)%nat) 0 (e_hess_zux E ux z k r)) /\
  cross_outside d = false /\
  forall ux old, let upd v := snd (ext_update (A := real) d E None false v (zf v) dz old (c, m)) in
    is_derive (fun t => grad (upd (fun i => ux i + t * (if (i =? 1)%nat then 1 else 0))) 0%nat) 0 1 /\ RSQ (upd ux) 1%nat 0%nat = 0.
Proof. exact ex_hessian. Qed.
Print Assumptions C64_external_hessian_refuted.
(** and it is read outside its shape unless nz = nu + nx *)
Theorem C64_external_shape_refuted : forall d E c m (ux z : vecR) dz old b, (0 < cnz d)%nat -> (0 < cnu d + cnx d)%nat -> cnz d <> (cnu d + cnx d)%nat ->
  oob (snd (ext_update (A := real) d E None b ux z dz old (c, m))) = true.
Proof. exact ext_outside. Qed.
Print Assumptions C64_external_shape_refuted.
