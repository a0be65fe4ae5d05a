(** Merit-function backtracking line searches,
    acados/ocp_nlp/ocp_nlp_globalization_merit_backtracking.c, over any number type. *)
From Coq Require Import ZArith List Bool.
From Verif Require Import FP Arith SqpModel RtiModel.
Import ListNotations.

Section M.
Variable A : arith.
Notation T := (num A).
Local Open Scope num_scope.

(** the options read here: ocp_nlp_globalization_common.c:84-90 *)
Record mopts := mkMopts { mo_alpha_min : T; mo_alpha_reduction : T; mo_eps : T; mo_suff : bool; mo_soc : bool }.
Definition merit_default : mopts := mkMopts (ncst 5 (-2)) (ncst 7 (-1)) (ncst 1 (-4)) false false.

(** *** weights: one list of equality weights and one of inequality weights per stage *)
Record duals := mkDuals { du_pi : list (list T); du_lam : list (list T) }.
Definition map2 {X Y Z} (f : X -> Y -> Z) (l : list X) (m : list Y) : list Z := map (fun p => f (fst p) (snd p)) (combine l m).
Definition half : T := ncst 5 (-1).
(** :735-739 and :748-752, one entry: [t] the multiplier (absolute value for equalities), [w] the weight *)
Definition upd_weight (t w : T) : T := let t1 := half * (t + w) in if t1 <? t then t else t1.
(** :702-720 merit_backtracking_initialize_weights *)
Definition init_weights (q : duals) : duals := mkDuals (map (map nabs) (du_pi q)) (du_lam q).
(** :722-755 merit_backtracking_update_weights *)
Definition update_weights (w q : duals) : duals :=
  mkDuals (map2 (map2 (fun t w => upd_weight (nabs t) w)) (du_pi q) (du_pi w))
          (map2 (map2 upd_weight) (du_lam q) (du_lam w)).
(** weights after the QPs of iterations 0, 1, ... (:324-333) *)
Definition weights_at (iter : Z) (w q : duals) : duals := if (iter =? 0)%Z then init_weights q else update_weights w q.

(** *** :600-699 the value of the merit function from the stage evaluations *)
Definition sum_list (l : list T) : T := fold_left nadd l 0.
Definition merit_value (cost : list T) (dyn con : list (list T)) (w : duals) : T :=
  sum_list cost
  + fold_left (fun a v => fold_left (fun a p => a + nabs (snd p) * nabs (fst p)) (combine (fst v) (snd v)) a) (combine dyn (du_pi w)) 0
  + fold_left (fun a v => fold_left (fun a p => if 0 <? fst p then a + nabs (snd p) * fst p else a) (combine (fst v) (snd v)) a)
      (combine con (du_lam w)) 0.

(** :415-449 ocp_nlp_get_violation_inf_norm *)
Definition violation (dyn con : list (list T)) : T :=
  fold_left (fun a v => fold_left (fun a x => if a <? x then x else a) v a) con
    (fold_left (fun a v => fold_left (fun a x => if a <? nabs x then nabs x else a) v a) dyn 0).

(** *** :370-411 the loop of ocp_nlp_line_search.  [mer] evaluates the merit function along the
    direction; the result is status and [*alpha_reference]. *)
Definition finite (x : T) : bool := negb (nisnan x) && negb (nisinf x).
Variable o : mopts.
Fixpoint merit_loop (fuel : nat) (mer : T -> T) (m0 dm alpha m1 : T) : option (Z * T) :=
  match fuel with
  | O => None
  | S n =>
      if mo_alpha_min o <? alpha * mo_alpha_reduction o then
        let m1 := mer alpha in
        if (m1 <? m0 + mo_eps o * dm * alpha) && finite m1 then Some (ACADOS_SUCCESS, alpha)
        else merit_loop n mer m0 dm (alpha * mo_alpha_reduction o) m1
      else Some (if finite m1 then ACADOS_MINSTEP else ACADOS_NAN_DETECTED, alpha)
  end.
(** :289-411; [grad] is the result of ocp_nlp_compute_merit_gradient *)
Definition merit_search (fuel : nat) (mer : T -> T) (m0 grad : T) : option (Z * T) :=
  let dm := if mo_suff o then (if 0 <? grad then 0 else grad) else 0 in
  merit_loop fuel mer m0 dm 1 0.

(** *** :846-893 find_acceptable_iterate (SQP).  State: iterate, weights, alpha, nlp_mem->status.
    The problem functions and the QP solution [q] are oracles: [p_merit q w x a] the merit value with
    weights [w] at [x + a d], [p_viol q x a] the violation there, [p_grad], the step update, and the
    second order correction, which replaces the QP solution or fails. *)
Variables iterate qpsol : Type.
Record prob := mkProb {
  p_duals : qpsol -> duals;
  p_merit : qpsol -> duals -> iterate -> T -> T;
  p_viol : qpsol -> iterate -> T -> T;
  p_grad : qpsol -> duals -> iterate -> T;
  p_step : qpsol -> iterate -> T -> iterate;
  p_soc : qpsol -> iterate -> qpsol * bool }.
Record mstate := mkM { ms_out : iterate; ms_w : duals; ms_alpha : T; ms_status : Z; ms_step : T }.

(** :491-552 ocp_nlp_line_search_merit_check_full_step: the status and the weights left behind (the
    weights are put back on failure except in iteration 0).  Both merit values are computed at the
    point in tmp_nlp_out: the current iterate and the full step. *)
Definition full_step (P : prob) (iter : Z) (q : qpsol) (x : iterate) (w : duals) : Z * duals :=
  let w' := weights_at iter w (p_duals P q) in
  let m0 := p_merit P q w' x 0 in
  let m1 := p_merit P q w' x 1 in
  let back := if (iter =? 0)%Z then w' else w in
  if negb (finite m1) then (ACADOS_NAN_DETECTED, back)
  else if (m1 <? m0) && (p_viol P q x 1 <? p_viol P q x 0) then (ACADOS_SUCCESS, w')
  else (ACADOS_MINSTEP, back).

Definition merit_find (fuel : nat) (P : prob) (iter : Z) (q : qpsol) (s : mstate) : option (mstate * qpsol * Z) :=
  let x := ms_out s in
  (* :862-870 and :554-592 *)
  let '(w, q', search, alpha, failed) :=
    if mo_soc o then
      let '(st, w) := full_step P iter q x (ms_w s) in
      if (st =? ACADOS_NAN_DETECTED)%Z then (w, q, true, ms_alpha s, false)
      else if (st =? ACADOS_SUCCESS)%Z then (w, q, false, 1, false)
      else let '(q', bad) := p_soc P q x in (w, q', true, ms_alpha s, bad)
    else (ms_w s, q, true, ms_alpha s, false) in
  if failed then Some (mkM x w alpha ACADOS_QP_FAILURE (ms_step s), q', ACADOS_QP_FAILURE)
  else if search then
    let w := weights_at iter w (p_duals P q') in
    match merit_search fuel (p_merit P q' w x) (p_merit P q' w x 0) (p_grad P q' w x) with
    | None => None
    | Some (st, a) =>
        if (st =? ACADOS_NAN_DETECTED)%Z then Some (mkM x w a ACADOS_NAN_DETECTED (ms_step s), q', ACADOS_NAN_DETECTED)
        else Some (mkM (p_step P q' x a) w a (ms_status s) a, q', ACADOS_SUCCESS)
    end
  else Some (mkM (p_step P q' x alpha) w alpha (ms_status s) alpha, q', ACADOS_SUCCESS).

(** *** :758-844 the DDP line search; [trial x a] is the forward sweep and its cost *)
Record dstate := mkD { ds_out : iterate; ds_cost : T; ds_alpha : T; ds_step : T }.
Definition ddp_ok (cost pred trial alpha : T) : bool :=
  trial - cost <=? nmin (- mo_eps o * alpha * nmax pred 0 + ncst 1 (-18)) 0.
Fixpoint ddp_loop (fuel : nat) (trial : iterate -> T -> iterate * T) (pred : T) (alpha : T) (s : dstate) : option (dstate * Z) :=
  match fuel with
  | O => None
  | S n =>
      let '(x, c) := trial (ds_out s) alpha in
      if ddp_ok (ds_cost s) pred c alpha then Some (mkD x c alpha alpha, ACADOS_SUCCESS)
      else
        let alpha := alpha * mo_alpha_reduction o in
        if alpha <? mo_alpha_min o then Some (mkD (ds_out s) (ds_cost s) 0 (ds_step s), ACADOS_MINSTEP)
        else ddp_loop n trial pred alpha s
  end.
(** [qp_cost] is nlp_mem->qp_cost_value *)
Definition ddp_find (fuel : nat) (trial : iterate -> T -> iterate * T) (qp_cost : T) (s : dstate) : option (dstate * Z) :=
  ddp_loop fuel trial (- qp_cost) 1 s.
End M.

Arguments mo_alpha_min {A}. Arguments mo_alpha_reduction {A}. Arguments mo_eps {A}. Arguments mo_suff {A}. Arguments mo_soc {A}.
Arguments mkMopts {A}. Arguments mkDuals {A}. Arguments du_pi {A}. Arguments du_lam {A}.
Arguments upd_weight {A}. Arguments init_weights {A}. Arguments update_weights {A}. Arguments weights_at {A}.
Arguments merit_value {A}. Arguments violation {A}. Arguments finite {A}. Arguments merit_loop {A}. Arguments merit_search {A}.
Arguments mkProb {A iterate qpsol}. Arguments p_duals {A iterate qpsol}. Arguments p_merit {A iterate qpsol}. Arguments p_viol {A iterate qpsol}.
Arguments p_grad {A iterate qpsol}. Arguments p_step {A iterate qpsol}. Arguments p_soc {A iterate qpsol}.
Arguments mkM {A iterate}. Arguments ms_out {A iterate}. Arguments ms_w {A iterate}. Arguments ms_alpha {A iterate}.
Arguments ms_status {A iterate}. Arguments ms_step {A iterate}.
Arguments full_step {A iterate qpsol}. Arguments merit_find {A} o {iterate qpsol}.
Arguments mkD {A iterate}. Arguments ds_out {A iterate}. Arguments ds_cost {A iterate}. Arguments ds_alpha {A iterate}. Arguments ds_step {A iterate}.
Arguments ddp_ok {A}. Arguments ddp_loop {A} o {iterate}. Arguments ddp_find {A} o {iterate}.
