(** Funnel globalization, acados/ocp_nlp/ocp_nlp_globalization_funnel.c, over any number type. *)
From Coq Require Import ZArith List Bool.
From Verif Require Import FP Arith SqpModel RtiModel.
Import ListNotations.

Section F.
Variable A : arith.
Notation T := (num A).
Local Open Scope num_scope.

(** ocp_nlp_globalization_funnel.h:56-71 and the used fields of ocp_nlp_globalization_opts
    (type_switching_condition is never read; initial_penalty_parameter has no effect, see
    initialize_memory) *)
Record fopts := mkFopts {
  fo_increase : T; fo_upper : T; fo_decrease : T; fo_kappa : T; fo_fraction : T;
  fo_eta : T; fo_contraction : T; fo_merit_only : bool;
  fo_alpha_min : T; fo_alpha_reduction : T; fo_eps : T }.

(** :73-95 opts_initialize_default, ocp_nlp_globalization_common.c:84-86 *)
Definition funnel_default : fopts :=
  mkFopts (ncst 15 0) 1 (ncst 9 (-1)) (ncst 9 (-1)) (ncst 1 (-3)) (ncst 1 (-6)) (ncst 5 (-1)) false
    (ncst 5 (-2)) (ncst 7 (-1)) (ncst 1 (-4)).

(** :98-169 opts_set; alpha_* and eps are passed on unchecked (ocp_nlp_globalization_common.c:111-124) *)
Inductive fopt_call :=
| SetIncrease (v : T) | SetUpper (v : T) | SetDecrease (v : T) | SetKappa (v : T) | SetFraction (v : T)
| SetMeritOnly (b : bool) | SetAlphaMin (v : T) | SetAlphaReduction (v : T) | SetEps (v : T).
Definition funnel_opts_set (o : fopts) (c : fopt_call) : outcome fopts :=
  match c with
  | SetIncrease v => if v <=? 1 then Exit else
      Ok (mkFopts v (fo_upper o) (fo_decrease o) (fo_kappa o) (fo_fraction o) (fo_eta o) (fo_contraction o) (fo_merit_only o) (fo_alpha_min o) (fo_alpha_reduction o) (fo_eps o))
  | SetUpper v => if v <=? 0 then Exit else
      Ok (mkFopts (fo_increase o) v (fo_decrease o) (fo_kappa o) (fo_fraction o) (fo_eta o) (fo_contraction o) (fo_merit_only o) (fo_alpha_min o) (fo_alpha_reduction o) (fo_eps o))
  | SetDecrease v => if (v <=? 0) || (1 <=? v) then Exit else
      Ok (mkFopts (fo_increase o) (fo_upper o) v (fo_kappa o) (fo_fraction o) (fo_eta o) (fo_contraction o) (fo_merit_only o) (fo_alpha_min o) (fo_alpha_reduction o) (fo_eps o))
  | SetKappa v => if (v <=? 0) || (1 <=? v) then Exit else
      Ok (mkFopts (fo_increase o) (fo_upper o) (fo_decrease o) v (fo_fraction o) (fo_eta o) (fo_contraction o) (fo_merit_only o) (fo_alpha_min o) (fo_alpha_reduction o) (fo_eps o))
  | SetFraction v => if (v <=? 0) || (1 <=? v) then Exit else
      Ok (mkFopts (fo_increase o) (fo_upper o) (fo_decrease o) (fo_kappa o) v (fo_eta o) (fo_contraction o) (fo_merit_only o) (fo_alpha_min o) (fo_alpha_reduction o) (fo_eps o))
  | SetMeritOnly b => Ok (mkFopts (fo_increase o) (fo_upper o) (fo_decrease o) (fo_kappa o) (fo_fraction o) (fo_eta o) (fo_contraction o) b (fo_alpha_min o) (fo_alpha_reduction o) (fo_eps o))
  | SetAlphaMin v => Ok (mkFopts (fo_increase o) (fo_upper o) (fo_decrease o) (fo_kappa o) (fo_fraction o) (fo_eta o) (fo_contraction o) (fo_merit_only o) v (fo_alpha_reduction o) (fo_eps o))
  | SetAlphaReduction v => Ok (mkFopts (fo_increase o) (fo_upper o) (fo_decrease o) (fo_kappa o) (fo_fraction o) (fo_eta o) (fo_contraction o) (fo_merit_only o) (fo_alpha_min o) v (fo_eps o))
  | SetEps v => Ok (mkFopts (fo_increase o) (fo_upper o) (fo_decrease o) (fo_kappa o) (fo_fraction o) (fo_eta o) (fo_contraction o) (fo_merit_only o) (fo_alpha_min o) (fo_alpha_reduction o) v)
  end.
Fixpoint funnel_opts_sets (o : fopts) (l : list fopt_call) : outcome fopts :=
  match l with [] => Ok o | c :: r => obind (funnel_opts_set o c) (fun o => funnel_opts_sets o r) end.

(** ocp_nlp_globalization_funnel.h:87-96 *)
Inductive itype := I_none | I_f | I_h | I_b | I_p.
Record fmem := mkFmem { fwidth : T; fitype : itype; fmode : bool; fl1 : T; fpen : T; falpha : T }.

Variable o : fopts.

(** :229-237 update_funnel_penalty_parameter, the new penalty parameter (its closing assertion is
    the subject of C57) *)
Definition update_penalty (pen pred_obj pred_inf : T) : T :=
  let pred_obj := if (pred_obj <? 0) && (- (ncst 1 (-4)) <? pred_obj) then 0 else pred_obj in
  if pen * pred_obj + pred_inf <? fo_eta o * pred_inf
  then nmax 0 (nmin (fo_contraction o * pen) (((1 - fo_eta o) * pred_inf) / (- pred_obj + ncst 1 (-9))))
  else pen.

(** :240-243 decrease_funnel *)
Definition decreased (w trial : T) : T := (1 - fo_kappa o) * trial + fo_kappa o * w.
(** :245-291 the tests *)
Definition inside (w infeas : T) : bool := infeas <=? w.
Definition suff_decrease (w infeas : T) : bool := infeas <=? fo_decrease o * w.
Definition switching (pred_obj step pred_inf : T) : bool := fo_fraction o * pred_inf <=? step * pred_obj.
Definition armijo (actual pred alpha : T) : bool := fo_eps o * alpha * nmax 0 (pred - ncst 1 (-9)) <=? actual.

(** :293-412 is_trial_iterate_acceptable_to_funnel *)
Definition acceptable (m : fmem) (pred_obj actual_obj alpha cur_inf trial_inf cur_merit trial_merit pred_merit pred_inf : T)
  : fmem * bool :=
  let mode := fmode m || fo_merit_only o in
  let same := mkFmem (fwidth m) (fitype m) mode (fl1 m) (fpen m) (falpha m) in
  if fo_merit_only o || inside (fwidth m) trial_inf then
    if negb mode then
      if switching pred_obj alpha pred_inf then
        if armijo actual_obj pred_obj alpha
        then (mkFmem (fwidth m) I_f mode (fl1 m) (fpen m) (falpha m), true)
        else (same, false)
      else if suff_decrease (fwidth m) trial_inf
      then (mkFmem (decreased (fwidth m) trial_inf) I_h mode (fl1 m) (fpen m) (falpha m), true)
      else if (trial_inf <? cur_inf) && armijo (cur_merit - trial_merit) pred_merit alpha
      then (mkFmem (fwidth m) I_b true (fl1 m) (fpen m) (falpha m), true)
      else (same, false)
    else if armijo (cur_merit - trial_merit) pred_merit alpha
    then if suff_decrease (fwidth m) trial_inf
         then (mkFmem (decreased (fwidth m) trial_inf) I_p false (fl1 m) (fpen m) (falpha m), true)
         else (mkFmem (fwidth m) I_p mode (fl1 m) (fpen m) (falpha m), true)
    else (same, false)
  else (same, false).

(** The step direction and the problem functions: [trial x alpha] is the trial iterate, its cost and
    its l1 infeasibility (step_update, compute_fun and the two sums, :453-499).  The evaluations'
    module memories are not modelled: no decision reads them. *)
Variable iterate : Type.
Record direction := mkDir { d_trial : iterate -> T -> iterate * T * T; d_pred_obj : T; d_pred_inf : T }.

(** nlp_mem->cost_value, nlp_mem->objective_multiplier, globalization memory, *step_size, nlp_out *)
Record gstate := mkG { g_mem : fmem; g_cost : T; g_mult : T; g_step : T; g_out : iterate }.

(** :448-530 the line search loop; [None] when [fuel] trial points do not settle it *)
Fixpoint funnel_loop (fuel : nat) (d : direction) (cur_inf cur_cost cur_merit alpha : T) (s : gstate) : option (gstate * Z) :=
  match fuel with
  | O => None
  | S n =>
      let '(x, c, v) := d_trial d (g_out s) alpha in
      let pen := fpen (g_mem s) in
      let trial_merit := pen * c + v in
      let pred_merit := pen * d_pred_obj d + d_pred_inf d in
      let actual := g_cost s - c in
      let '(m, acc) := acceptable (g_mem s) (d_pred_obj d) actual alpha cur_inf v cur_merit trial_merit pred_merit (d_pred_inf d) in
      if acc then Some (mkG (mkFmem (fwidth m) (fitype m) (fmode m) v (fpen m) alpha) c (g_mult s) alpha x, ACADOS_SUCCESS)
      else
        let s := mkG m (g_cost s) (g_mult s) (g_step s) (g_out s) in
        if alpha <? fo_alpha_min o then Some (s, ACADOS_MINSTEP)
        else funnel_loop n d cur_inf cur_cost cur_merit (alpha * fo_alpha_reduction o) s
  end.

(** :414-446, :533-554 backtracking_line_search and find_acceptable_iterate *)
Definition funnel_step (fuel : nat) (d : direction) (s : gstate) : option (gstate * Z) :=
  let m := g_mem s in
  let pen := update_penalty (g_mult s) (d_pred_obj d) (d_pred_inf d) in
  let m := mkFmem (fwidth m) (fitype m) (fmode m) (fl1 m) pen (falpha m) in
  let s := mkG m (g_cost s) pen (g_step s) (g_out s) in
  funnel_loop fuel d (fl1 m) (g_cost s) (pen * g_cost s + fl1 m) 1 s.

(** :588-606 initialize_memory; [infeas] is the infeasibility of the current iterate.  The penalty
    parameter is set from the option and at once overwritten by the multiplier. *)
Definition funnel_init (infeas : T) (s : gstate) : gstate :=
  let m := g_mem s in
  mkG (mkFmem (nmax (fo_upper o) (fo_increase o * infeas)) I_none (fmode m) infeas (g_mult s) 1)
    (g_cost s) (g_mult s) (g_step s) (g_out s).

(** One solver call as seen by the funnel: ocp_nlp_sqp.c:517 resets the multiplier, :577-583
    initialises the globalization at iteration 0 with the cost and infeasibility just evaluated, then
    one line search per iteration along directions chosen by the QP solver ([pick], which may look at
    the whole state).  Stops at the first failure. *)
Fixpoint funnel_run (fuel steps : nat) (pick : gstate -> direction) (s : gstate) : option (gstate * Z) :=
  match steps with
  | O => Some (s, ACADOS_SUCCESS)
  | S n => match funnel_step fuel (pick s) s with
           | Some (s, st) => if Z.eqb st ACADOS_SUCCESS then funnel_run fuel n pick s else Some (s, st)
           | None => None
           end
  end.
Definition funnel_solve (fuel steps : nat) (pick : gstate -> direction) (cost infeas : T) (s : gstate) : option (gstate * Z) :=
  funnel_run fuel steps pick (funnel_init infeas (mkG (g_mem s) cost 1 (g_step s) (g_out s))).
End F.

(** acados/ocp_nlp/ocp_nlp_common.c:2703-2738 ocp_nlp_get_l1_infeasibility; [dyn]: dynamics residuals
    of stages 0..N-1, [con]: constraint values of stages 0..N (fun <= 0 is feasible) *)
Definition l1_infeasibility (A : arith) (dyn con : list (list (num A))) : num A :=
  nadd (fold_left (fun a v => fold_left (fun a x => nadd a (nabs x)) v a) dyn n0)
       (fold_left (fun a v => fold_left (fun a x => if nltb n0 x then nadd a x else a) v a) con n0).

Arguments fo_increase {A}. Arguments fo_upper {A}. Arguments fo_decrease {A}. Arguments fo_kappa {A}.
Arguments fo_fraction {A}. Arguments fo_eta {A}. Arguments fo_contraction {A}. Arguments fo_merit_only {A}.
Arguments fo_alpha_min {A}. Arguments fo_alpha_reduction {A}. Arguments fo_eps {A}.
Arguments fwidth {A}. Arguments fitype {A}. Arguments fmode {A}. Arguments fl1 {A}. Arguments fpen {A}. Arguments falpha {A}.
Arguments mkFmem {A}. Arguments mkFopts {A}.
Arguments update_penalty {A}. Arguments decreased {A}. Arguments inside {A}. Arguments suff_decrease {A}.
Arguments switching {A}. Arguments armijo {A}. Arguments acceptable {A}.
Arguments mkDir {A iterate}. Arguments d_trial {A iterate}. Arguments d_pred_obj {A iterate}. Arguments d_pred_inf {A iterate}.
Arguments mkG {A iterate}. Arguments g_mem {A iterate}. Arguments g_cost {A iterate}. Arguments g_mult {A iterate}.
Arguments g_step {A iterate}. Arguments g_out {A iterate}.
Arguments funnel_loop {A} o {iterate}. Arguments funnel_step {A} o {iterate}. Arguments funnel_init {A} o {iterate}.
Arguments funnel_run {A} o {iterate}. Arguments funnel_solve {A} o {iterate}.
Arguments funnel_opts_set {A}. Arguments funnel_opts_sets {A}.
