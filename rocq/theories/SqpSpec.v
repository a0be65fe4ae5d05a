(** Vocabulary for stating properties of SQP runs from the trace of events (newest first). *)
From Coq Require Import ZArith List Bool.
From Verif Require Import FP SqpModel.
Import ListNotations.
Open Scope Z_scope.

Section S.
Variable iterate : Type.
Notation event := (event iterate).

Definition is_clock (e : event) : bool := match e with EvClock _ => true | _ => false end.
Definition is_qp (e : event) : bool := match e with EvQP _ _ _ => true | _ => false end.
(** number of QPs solved *)
Definition qp_count (tr : list event) : Z := Z.of_nat (length (filter is_qp tr)).
(** clock readings, newest first *)
Definition clocks (tr : list event) : list double :=
  flat_map (fun e => match e with EvClock t => [t] | _ => [] end) tr.
(** residuals evaluated, oldest first *)
Definition residuals (tr : list event) : list res4 :=
  rev (flat_map (fun e => match e with EvRes _ r => [r] | _ => [] end) tr).
(** iterates at which residuals were evaluated, oldest first *)
Definition points (tr : list event) : list iterate :=
  rev (flat_map (fun e => match e with EvRes x _ => [x] | _ => [] end) tr).
(** QP status and iteration count, oldest first *)
Definition qp_results (tr : list event) : list (Z * Z) :=
  rev (flat_map (fun e => match e with EvQP _ st qi => [(st, qi)] | _ => [] end) tr).
(** step lengths, oldest first *)
Definition step_lengths (tr : list event) : list double :=
  rev (flat_map (fun e => match e with EvGlob _ _ _ a => [a] | _ => [] end) tr).
(** the iterate produced by the newest globalization event, or the initial one *)
Fixpoint last_iterate (x0 : iterate) (tr : list event) : iterate :=
  match tr with
  | [] => x0
  | EvGlob _ x _ _ :: _ => x
  | _ :: r => last_iterate x0 r
  end.
End S.
Arguments is_clock {iterate}. Arguments is_qp {iterate}. Arguments qp_count {iterate}. Arguments clocks {iterate}.
Arguments residuals {iterate}. Arguments points {iterate}. Arguments qp_results {iterate}. Arguments step_lengths {iterate}.
Arguments last_iterate {iterate}.

(** durations between successive clock readings (newest first) *)
Fixpoint durations (ts : list double) : list double :=
  match ts with
  | t :: ((t' :: _) as r) => fsub t t' :: durations r
  | _ => []
  end.

(** estimate of the next iteration's cost from the durations so far (newest first) *)
Fixpoint estimate_of (h : heuristic) (e0 : double) (ds : list double) : double :=
  match ds with
  | [] => e0
  | d :: r =>
      match h with
      | LAST => d
      | MAX_CALL | MAX_OVERALL => let e := estimate_of h e0 r in if fgt d e then d else e
      | AVERAGE => fadd (fmul fhalf d) (fmul fhalf (estimate_of h e0 r))
      | ZERO => e0
      end
  end.

Definition any_nan (r : res4) : bool := isnan (r_stat r) || isnan (r_eq r) || isnan (r_ineq r) || isnan (r_comp r).

(** the estimate a call starts from *)
Definition call_estimate (opts : sqp_opts) (e : double) : double :=
  match timeout_heuristic opts with MAX_OVERALL => e | _ => f0 end.

(** [m] is a maximum of the non-NaN entries of [l] *)
Definition is_max (m : double) (l : list double) : Prop :=
  In m l /\ forall d, In d l -> isnan d = false -> fle d m = true.

(** A sequence of calls with the same options.  Between two calls the user may change everything
    except the running time estimate kept in the solver memory. *)
Inductive history {iterate world} (Or : oracles iterate world) (opts : sqp_opts)
  : mem iterate world -> list double -> mem iterate world -> Prop :=
| hist_start s : history Or opts s [] s
| hist_call s0 ds s s' s'' new :
    history Or opts s0 ds s -> estimate s' = estimate s ->
    sqp_call Or opts s' = Some s'' -> trace s'' = new ++ trace s' ->
    history Or opts s0 (durations (clocks new) ++ ds) s''.
