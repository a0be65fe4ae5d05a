(** Property theorems for the funnel globalization. *)
From Coq Require Import ZArith List Bool Reals.
From Flocq Require Import IEEE754.BinarySingleNaN.
From Verif Require Import FP Arith SqpModel RtiModel FunnelModel FunnelProofs FunnelIeee FunnelWidth FunnelPenalty FunnelL1 FunnelCases.
Import ListNotations.

(** C14, funnel part: a failed line search leaves iterate, cost and step size as they were; a
    successful one leaves exactly the point it evaluated.  Any number type. *)
Theorem C14_funnel_failure : forall A (o : fopts A) iterate n d (s s' : gstate A iterate) st,
  funnel_step o n d s = Some (s', st) -> st <> ACADOS_SUCCESS ->
  st = ACADOS_MINSTEP /\ g_out s' = g_out s /\ g_cost s' = g_cost s /\ g_step s' = g_step s.
Proof. exact funnel_failure. Qed.
Print Assumptions C14_funnel_failure.
Theorem C14_funnel_success : forall A (o : fopts A) iterate n d (s s' : gstate A iterate),
  funnel_step o n d s = Some (s', ACADOS_SUCCESS) ->
  d_trial d (g_out s) (g_step s') = (g_out s', g_cost s', fl1 (g_mem s')).
Proof. exact funnel_success. Qed.
Print Assumptions C14_funnel_success.

(** C20: an accepted step is inside the funnel in force. *)
Theorem C20_accept : forall A (o : fopts A) iterate n d (s s' : gstate A iterate), fo_merit_only o = false ->
  funnel_step o n d s = Some (s', ACADOS_SUCCESS) -> nleb (fl1 (g_mem s')) (fwidth (g_mem s)) = true.
Proof. exact funnel_accept. Qed.
Print Assumptions C20_accept.

(** C20, exact arithmetic: the width is positive, never above its start value, and later widths are
    at most earlier ones, for any number of line searches along any directions. *)
Theorem C20_width_real : forall (o : fopts real) iterate,
  (0 < fo_kappa o < 1)%R -> (0 < fo_decrease o < 1)%R ->
  forall fuel k1 k2 (pick : gstate real iterate -> direction real iterate) cost inf (s s1 s2 : gstate real iterate) st,
  (0 < fo_upper o)%R -> (forall s, nonneg_dir iterate (pick s)) ->
  funnel_solve o fuel k1 pick cost inf s = Some (s1, ACADOS_SUCCESS) ->
  funnel_solve o fuel (k1 + k2) pick cost inf s = Some (s2, st) ->
  (0 < fwidth (g_mem s2) <= fwidth (g_mem s1))%R.
Proof. exact funnel_width_mono. Qed.
Print Assumptions C20_width_real.

(** C20, IEEE doubles: the same for kappa in [2^-20, 1-2^-20], decrease at most 1-2^-20, as long as
    the width is at least 2^-900 before each line search. *)
Theorem C20_width_double : forall (o : fopts dbl),
  fle d20 (fo_kappa o) = true /\ fle (fo_kappa o) one20 = true ->
  flt f0 (fo_decrease o) = true /\ fle (fo_decrease o) one20 = true ->
  forall iterate fuel (pick : gstate dbl iterate -> direction dbl iterate),
  (forall s x a, not_negative (snd (d_trial (pick s) x a))) -> forall steps (s s' : gstate dbl iterate) st,
  is_finite (fwidth (g_mem s)) = true ->
  (forall k s1, (k < steps)%nat -> funnel_run o fuel k pick s = Some (s1, ACADOS_SUCCESS) -> fle tiny900 (fwidth (g_mem s1)) = true) ->
  funnel_run o fuel steps pick s = Some (s', st) -> (steps > 0)%nat ->
  is_finite (fwidth (g_mem s')) = true /\ flt f0 (fwidth (g_mem s')) = true /\ fle (fwidth (g_mem s')) (fwidth (g_mem s)) = true.
Proof. exact run_width_dbl. Qed.
Print Assumptions C20_width_double.
Example C20_defaults : fle d20 (fo_kappa dopts) = true /\ fle (fo_kappa dopts) one20 = true /\
  flt f0 (fo_decrease dopts) = true /\ fle (fo_decrease dopts) one20 = true.
Proof. vm_compute. auto. Qed.
(** three h-type steps shrink the width below 12 *)
Example C20_case : fcheck (fun s st => (st =? ACADOS_SUCCESS)%Z && flt (fwidth (g_mem s)) (dcst 12 0) && flt (dcst 11 0) (fwidth (g_mem s)))
  (funnel_solve dopts 20 3 h_dir f0 f1 (fstate0 0%Z)) = true.
Proof. vm_compute. reflexivity. Qed.

(** C20, finding: with a subnormal width the rounded update widens the funnel. *)
Theorem C20_subnormal_refuted : exists (o : fopts dbl) (d : direction dbl unit) s s',
  funnel_opts_sets dopts [SetUpper dbl eta3; SetKappa dbl (dcst 5 (-1))] = Ok o /\
  (forall x a, fle f0 (snd (d_trial d x a)) = true) /\
  funnel_step o 5 d (funnel_init o f0 s) = Some (s', ACADOS_SUCCESS) /\
  flt (fwidth (g_mem (funnel_init o f0 s))) (fwidth (g_mem s')) = true.
Proof. exact funnel_widens. Qed.
Print Assumptions C20_subnormal_refuted.
(** C20, finding: the same at an ordinary width, when the decrease factor is the largest double below
    one (accepted by the range check): the bound on the decrease factor above cannot be dropped. *)
Theorem C20_ordinary_refuted : exists (o : fopts dbl) (d : direction dbl unit) s s',
  funnel_opts_sets dopts [SetUpper dbl w197; SetDecrease dbl below1; SetKappa dbl k38] = Ok o /\
  (forall x a, fle f0 (snd (d_trial d x a)) = true) /\
  funnel_step o 5 d (funnel_init o f0 s) = Some (s', ACADOS_SUCCESS) /\
  flt f1 (fwidth (g_mem (funnel_init o f0 s))) = true /\
  flt (fwidth (g_mem (funnel_init o f0 s))) (fwidth (g_mem s')) = true.
Proof. exact funnel_widens_ordinary. Qed.
Print Assumptions C20_ordinary_refuted.
(** ... and NaN passes the range check of the options. *)
Theorem C20_nan_option_refuted : exists o, funnel_opts_set dopts (SetKappa dbl fnan) = Ok o /\ isnan (fo_kappa o) = true.
Proof. exact funnel_nan_option. Qed.
Print Assumptions C20_nan_option_refuted.

(** C21: for a reduction factor in (0,1) and a minimum step above the smallest normal double the line
    search settles after a bounded number of trial points, whatever the functions return. *)
Theorem C21_funnel : forall (o : fopts dbl) iterate,
  flt f0 (fo_alpha_reduction o) = true -> flt (fo_alpha_reduction o) f1 = true -> flt dbl_min (fo_alpha_min o) = true ->
  exists n, forall (d : direction dbl iterate) s, funnel_step o n d s <> None.
Proof. exact funnel_terminates. Qed.
Print Assumptions C21_funnel.
Example C21_defaults : flt f0 (fo_alpha_reduction dopts) = true /\ flt (fo_alpha_reduction dopts) f1 = true /\ flt dbl_min (fo_alpha_min dopts) = true.
Proof. vm_compute. auto. Qed.
(** NaN everywhere: eleven trial points, then MINSTEP *)
Example C21_case : fsum (funnel_step dopts 11 nan_dir (fstate0 tt)) = Some (ACADOS_MINSTEP, tt, I_none, false) /\
  fsum (funnel_step dopts 9 nan_dir (fstate0 tt)) = None.
Proof. vm_compute. auto. Qed.

(** C21, findings: outside these ranges there are functions on which the search never ends. *)
Theorem C21_zero_refuted : exists (o : fopts dbl) (d : direction dbl unit) s,
  fo_alpha_min o = f0 /\ fo_alpha_reduction o = fo_alpha_reduction (funnel_default dbl) /\ forall n, funnel_step o n d s = None.
Proof. exact funnel_loops_zero. Qed.
Print Assumptions C21_zero_refuted.
Theorem C21_reduction_one_refuted : exists (o : fopts dbl) (d : direction dbl unit) s,
  fo_alpha_min o = fo_alpha_min (funnel_default dbl) /\ fo_alpha_reduction o = f1 /\ forall n, funnel_step o n d s = None.
Proof. exact funnel_loops_one. Qed.
Print Assumptions C21_reduction_one_refuted.
Theorem C21_positive_min_refuted : exists (o : fopts dbl) (d : direction dbl unit) s,
  flt f0 (fo_alpha_min o) = true /\ fo_alpha_reduction o = fo_alpha_reduction (funnel_default dbl) /\ forall n, funnel_step o n d s = None.
Proof. exact funnel_loops_tiny. Qed.
Print Assumptions C21_positive_min_refuted.

(** C22: of the earlier solves only the mode flag and the step-size log entry can be seen. *)
Theorem C22_state : forall A (o : fopts A) iterate fuel steps pick cost inf (s1 s2 : gstate A iterate),
  g_out s1 = g_out s2 -> fmode (g_mem s1) = fmode (g_mem s2) -> g_step s1 = g_step s2 ->
  funnel_solve o fuel steps pick cost inf s1 = funnel_solve o fuel steps pick cost inf s2.
Proof. exact funnel_solve_state. Qed.
Print Assumptions C22_state.
(** C22, finding: the flag is not reset.  The same solve from the same iterate succeeds on a new
    solver object and fails after another solve, with the default options. *)
Theorem C22_refuted : exists (pick1 pick2 : gstate dbl Z -> direction dbl Z) s1 r r',
  funnel_solve dopts 20 2 pick1 f0 f1 (fstate0 0%Z) = Some (s1, ACADOS_SUCCESS) /\
  funnel_solve dopts 20 1 pick2 f0 f1 (fstate0 0%Z) = Some (r, ACADOS_SUCCESS) /\
  funnel_solve dopts 20 1 pick2 f0 f1 (restart 0%Z s1) = Some (r', ACADOS_MINSTEP).
Proof. exact funnel_history. Qed.
Print Assumptions C22_refuted.

(** C57: the penalty parameter stays a finite number in [0,1]; every update can only lower it. *)
Theorem C57_update : forall (o : fopts dbl), fo_eta o = dcst 1 (-6) -> fo_contraction o = dcst 5 (-1) ->
  forall pen po pi, fle f0 pen = true -> is_finite pen = true ->
  is_finite (update_penalty o pen po pi) = true /\ fle f0 (update_penalty o pen po pi) = true /\
  fle (update_penalty o pen po pi) pen = true.
Proof. exact funnel_penalty. Qed.
Print Assumptions C57_update.
Theorem C57_solve : forall (o : fopts dbl), fo_eta o = dcst 1 (-6) -> fo_contraction o = dcst 5 (-1) ->
  forall iterate fuel steps (pick : gstate dbl iterate -> direction dbl iterate) cost inf (s s' : gstate dbl iterate) st,
  funnel_solve o fuel steps pick cost inf s = Some (s', st) ->
  is_finite (g_mult s') = true /\ fle f0 (g_mult s') = true /\ fle (g_mult s') f1 = true.
Proof. exact funnel_solve_penalty. Qed.
Print Assumptions C57_solve.
(** an ordinary update and two hostile ones *)
Example C57_case :
  flt (update_penalty dopts f1 (fopp f1) (dcst 5 (-1))) (dcst 51 (-2)) = true /\
  fle (update_penalty dopts f1 (fopp f1) (dcst 5 (-1))) f0 = false /\
  fle (update_penalty dopts f1 (B754_infinity true) f1) f0 = true /\
  fle f1 (update_penalty dopts f1 fnan fnan) = true.
Proof. vm_compute. auto. Qed.

(** C58 *)
Theorem C58_real : forall dyn con : list (list R),
  (0 <= l1_infeasibility real dyn con)%R /\
  (l1_infeasibility real dyn con = 0%R <-> Forall (Forall (fun x => x = 0%R)) dyn /\ Forall (Forall (fun x => (x <= 0)%R)) con).
Proof. exact l1_zero_iff. Qed.
Print Assumptions C58_real.
Theorem C58_double : forall dyn con : list (list double), not_negative (l1_infeasibility dbl dyn con).
Proof. exact l1_not_negative. Qed.
Print Assumptions C58_double.
Theorem C58_nan_dynamics : forall dyn con : list (list double),
  Exists (Exists (fun x => isnan x = true)) dyn -> isnan (l1_infeasibility dbl dyn con) = true.
Proof. exact l1_nan_dyn. Qed.
Print Assumptions C58_nan_dynamics.
(** C58, finding: a NaN constraint value counts as satisfied. *)
Theorem C58_nan_constraint_refuted : exists con : list (list double),
  Exists (Exists (fun x => isnan x = true)) con /\ fle (l1_infeasibility dbl [] con) f0 = true.
Proof. exact l1_nan_ignored. Qed.
Print Assumptions C58_nan_constraint_refuted.
Example C58_case : l1_infeasibility dbl [[dcst 2 0; dcst (-3) 0]; []] [[dcst (-7) 0; dcst 4 0]] = dcst 9 0.
Proof. apply B2SF_inj. vm_compute. reflexivity. Qed.
