(** Pieces of acados/ocp_nlp/ocp_nlp_common.c around the QP: objective value (:2615-2668), Levenberg-Marquardt
    term (:2948-3000), second order correction (:4226-4370), parameter gradient of the Lagrangian (:4181-4224).

    BLASFEO vector routines are element loops over distinct vectors, written as functions of the index. *)
From Coq Require Import ZArith List Bool.
From Verif Require Import Arith Vec LinModel.

Section S.
Variable A : arith.
Notation T := (num A).
Notation vec := (nat -> T).
Notation mat := (nat -> nat -> T).
Local Open Scope num_scope.

(** ** QP data of one stage; matrices are indexed as stored (BAbt and DCt transposed, RSQrq lower triangle) *)
Record qp_stage := mkQpStage { q_RSQ : mat; q_rqz : vec; q_Z : vec; q_BAbt : mat; q_b : vec; q_DCt : mat; q_d : vec; q_idxs_rev : nat -> Z }.
Record odims := mkOdims { oN : nat; onx : nat -> nat; onu : nat -> nat; ons : nat -> nat; onb : nat -> nat; ong : nat -> nat }.
Variable d : odims.
Notation nux i := (onx d i + onu d i)%nat.

(** blasfeo_dsymv_l: only the lower triangle is read *)
Definition sym_l (M : mat) : mat := fun r c => if (c <=? r)%nat then M r c else M c r.
(** :2615-2633 *)
Definition gradient_directional_derivative (qp : nat -> qp_stage) (ux : nat -> vec) : T :=
  loop (S (oN d)) (fun i c =>
    let c := c + vsum (nux i) (fun k => ux i k * q_rqz (qp i) k) in
    c + vsum (2 * ons d i) (fun k => ux i (nux i + k)%nat * q_rqz (qp i) (nux i + k)%nat)) 0.
(** :2635-2668 *)
Definition qp_objective_value (qp : nat -> qp_stage) (ux : nat -> vec) : T :=
  loop (S (oN d)) (fun i c =>
    let tmp : vec := fun r => ncst 5 (-1) * vsum (nux i) (fun k => sym_l (q_RSQ (qp i)) r k * ux i k) in
    let c := c + vsum (nux i) (fun k => ux i k * tmp k) in
    let tmp : vec := fun k => ncst 2 0 * ux i (nux i + k)%nat in
    let tmp : vec := fun k => q_Z (qp i) k * ux i (nux i + k)%nat + tmp k in
    let c := c + ncst 5 (-1) * vsum (2 * ons d i) (fun k => tmp k * ux i (nux i + k)%nat) in
    let c := c + vsum (nux i) (fun k => ux i k * q_rqz (qp i) k) in
    c + vsum (2 * ons d i) (fun k => ux i (nux i + k)%nat * q_rqz (qp i) (nux i + k)%nat)) 0.

(** ** second order correction, right-hand sides (:4258-4312); dyn and con are the functions evaluated at the trial point *)
Definition soc_b (qp : nat -> qp_stage) (ux : nat -> vec) (dyn : nat -> vec) (i : nat) : vec := fun c =>
  ((0 - 1) * dyn i c + (0 - 1) * vsum (nux i) (fun r => q_BAbt (qp i) r c * ux i r)) + 1 * ux (S i) (onu d (S i) + c)%nat.
Definition soc_d (qp : nat -> qp_stage) (ux : nat -> vec) (con : nat -> vec) (i : nat) : vec :=
  let nb := onb d i in let ng := ong d i in
  let v := q_d (qp i) in
  let v : vec := fun k => if ((nb <=? k)%nat && (k <? nb + ng)%nat)%bool then con i k else v k in
  let v : vec := fun k => if ((2 * nb + ng <=? k)%nat && (k <? 2 * nb + 2 * ng)%nat)%bool then con i k else v k in
  let t : vec := fun c => vsum (nux i) (fun r => q_DCt (qp i) r c * ux i r) in
  let v : vec := fun k => if ((nb <=? k)%nat && (k <? nb + ng)%nat)%bool then v k + 1 * t (k - nb)%nat else v k in
  let v : vec := fun k => if ((2 * nb + ng <=? k)%nat && (k <? 2 * nb + 2 * ng)%nat)%bool then v k + (0 - 1) * t (k - (2 * nb + ng))%nat else v k in
  loop (nb + ng) (fun j v =>
    let s := q_idxs_rev (qp i) j in
    if (0 <=? s)%Z then
      let v := vset v j (v j - ux i (Z.to_nat s + nux i)%nat) in
      vset v (j + nb + ng) (v (j + nb + ng)%nat - ux i (Z.to_nat s + nux i + ons d i)%nat)
    else v) v.

(** ** Levenberg-Marquardt (:2948-3000) *)
Record lm_opts := mkLmOpts { lm_mu0 : T; lm_mu_min : T; lm_lam : T; lm_obj_scalar : T; lm_adaptive : bool }.
Record lm_mem := mkLmMem { lm_mu : T; lm_mu_bar : T }.
Definition lm_update (o : lm_opts) (iter0 : bool) (step_size : T) (m : lm_mem) : lm_mem :=
  if iter0 then mkLmMem (lm_mu0 o) (lm_mu0 o)
  else if (nleb step_size 1 && nleb 1 step_size)%bool
  then mkLmMem (nmax (lm_mu_min o) (lm_mu_bar m / lm_lam o)) (lm_mu m)
  else mkLmMem (nmin (lm_lam o * lm_mu m) 1) (lm_mu_bar m).
(** the parameter used and the new memory; [lm0] is opts->levenberg_marquardt, which the adaptive branch overwrites *)
Definition lm_parameter (o : lm_opts) (iter0 : bool) (alpha cost_value lm0 : T) (m : lm_mem) : T * lm_mem :=
  if lm_adaptive o then let m := lm_update o iter0 alpha m in (lm_obj_scalar o * cost_value * lm_mu m, m) else (lm0, m).
(** blasfeo_ddiare on the Hessian block *)
Definition lm_add (compute_hess : bool) (lm scaling : T) (n : nat) (H : mat) : mat :=
  if (compute_hess && nltb 0 lm)%bool then fun r c => if ((r =? c)%nat && (r <? n)%nat)%bool then H r c + scaling * lm else H r c else H.

(** ** gradient of the Lagrangian with respect to the global parameters (:4181-4224); the three module
    contributions are parameters *)
Definition lagr_grad_p (dynp costp conp : nat -> vec) : vec := fun k =>
  loop (oN d) (fun i g => g + 1 * dynp i k + 1 * costp i k + 1 * conp i k) 0 + 1 * costp (oN d) k.
End S.
Arguments mkQpStage {A}. Arguments q_RSQ {A}. Arguments q_rqz {A}. Arguments q_Z {A}. Arguments q_BAbt {A}. Arguments q_b {A}. Arguments q_DCt {A}. Arguments q_d {A}. Arguments q_idxs_rev {A}.
Arguments sym_l {A}. Arguments gradient_directional_derivative {A}. Arguments qp_objective_value {A}. Arguments soc_b {A}. Arguments soc_d {A}.
Arguments mkLmOpts {A}. Arguments lm_mu0 {A}. Arguments lm_mu_min {A}. Arguments lm_lam {A}. Arguments lm_obj_scalar {A}. Arguments lm_adaptive {A}. Arguments mkLmMem {A}. Arguments lm_mu {A}. Arguments lm_mu_bar {A}.
Arguments lm_update {A}. Arguments lm_parameter {A}. Arguments lm_add {A}. Arguments lagr_grad_p {A}.
