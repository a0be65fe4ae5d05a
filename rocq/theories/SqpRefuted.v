(** Counterexample runs for claims about the SQP driver that are false. *)
From Coq Require Import ZArith List Bool.
From Verif Require Import FP SqpModel SqpSpec SqpCases.
Import ListNotations.
Open Scope Z_scope.

Lemma force_some {A} (x : option A) : (match x with Some _ => true | None => false end) = true ->
  exists a, x = Some a.
Proof. destruct x; [eauto|discriminate]. Qed.
(** extract the result of a run and evaluate a boolean on it *)
Lemma run_check {A} (x : option A) (P : A -> bool) :
  (match x with Some a => P a | None => false end) = true -> exists a, x = Some a /\ P a = true.
Proof. destruct x; [eauto|discriminate]. Qed.

(** QP failure in the first iteration; the statistics buffer held 77 before the call *)
Lemma stale_row : exists s v, sqp_call (toy 3 100 100) (toy_opts 10 true 0 LAST) (toy_mem 3 [] 10 (z2f 77)) = Some s /\
  status s = ACADOS_QP_FAILURE /\ stat_rows s = 2 /\ report s 1 0 = Some v /\
  forall r, In r (residuals (trace s)) -> feqb (r_stat r) v = false.
Proof.
  destruct (run_check (sqp_call (toy 3 100 100) (toy_opts 10 true 0 LAST) (toy_mem 3 [] 10 (z2f 77)))
    (fun s => (status s =? 4) && (stat_rows s =? 2) &&
      match report s 1 0 with None => false | Some v => forallb (fun r => negb (feqb (r_stat r) v)) (residuals (trace s)) end)) as (s & H & P);
    [vm_compute; reflexivity|].
  apply andb_prop in P. destruct P as [P P3]. apply andb_prop in P. destruct P as [P1 P2].
  destruct (report s 1 0) as [v|] eqn:E; [|discriminate P3].
  exists s, v. split; [exact H|]. split; [apply Z.eqb_eq, P1|]. split; [apply Z.eqb_eq, P2|]. split; [exact E|].
  intros r Hr. rewrite forallb_forall in P3. apply negb_true_iff, P3, Hr.
Qed.

(** memory created with max_iter = 2, limit raised to 10 afterwards *)
Lemma raised_limit : logs_allocated (toy_opts 2 true 0 LAST) (toy_mem 5 [] 2 f0) /\
  sqp_call (toy 100 100 100) (toy_opts 10 true 0 LAST) (toy_mem 5 [] 2 f0) = None.
Proof. split; [apply toy_alloc; discriminate|vm_compute; reflexivity]. Qed.

(** AVERAGE: one measured duration of 10, estimate 5; the QP solve after it is started although
    elapsed time plus the measured duration (20) exceeds the limit (18) *)
Lemma average_half : exists s, sqp_call (toy 100 100 100) (toy_opts 10 true 18 AVERAGE) (toy_mem 1 [0;10;20] 10 f0) = Some s /\
  (exists d, durations (clocks (trace s)) = [d] /\ feqb d (z2f 10) = true) /\ feqb (estimate s) (z2f 5) = true.
Proof.
  destruct (run_check (sqp_call (toy 100 100 100) (toy_opts 10 true 18 AVERAGE) (toy_mem 1 [0;10;20] 10 f0))
    (fun s => match durations (clocks (trace s)) with [d] => feqb d (z2f 10) | _ => false end && feqb (estimate s) (z2f 5))) as (s & H & P);
    [vm_compute; reflexivity|].
  apply andb_prop in P. destruct P as [P1 P2]. exists s. split; [exact H|]. split; [|exact P2].
  destruct (durations (clocks (trace s))) as [|d [|]]; try discriminate P1. exists d. split; [reflexivity|exact P1].
Qed.

Lemma sqp_stale_row : exists (Or : oracles Z (list Z)) opts s0 s v,
  0 <= max_iter opts /\ logs_allocated opts s0 /\ trace s0 = [] /\ sqp_call Or opts s0 = Some s /\
  status s = ACADOS_QP_FAILURE /\ 1 < stat_rows s /\ report s 1 0 = Some v /\
  forall r, In r (residuals (trace s)) -> feqb (r_stat r) v = false.
Proof.
  destruct stale_row as (s & v & A & B & C & D & E). do 3 eexists. exists s, v.
  split; [|split; [|split; [|split; [exact A|]]]]; [discriminate|apply toy_alloc; discriminate|reflexivity|].
  rewrite C. split; [exact B|]. split; [reflexivity|]. split; [exact D|exact E].
Qed.
Lemma sqp_raised_limit : exists (Or : oracles Z (list Z)) created opts s0,
  logs_allocated created s0 /\ max_iter created < max_iter opts /\ sqp_call Or opts s0 = None.
Proof. destruct raised_limit as [A B]. do 4 eexists. split; [exact A|]. split; [|exact B]. reflexivity. Qed.
Lemma sqp_negative_limit : exists (Or : oracles Z (list Z)) opts s0 s,
  sqp_call Or opts s0 = Some s /\ status s = ACADOS_SUCCESS /\ residuals (trace s) = [] /\
  flt (r_stat (o_res Or (nlp_out s) (wd s))) (tol_stat opts) = false.
Proof.
  destruct (run_check (sqp_call (toy 100 100 100) (toy_opts (-1) true 0 LAST) (toy_mem 3 [] 0 f0))
    (fun s => (status s =? 0) && (match residuals (trace s) with [] => true | _ => false end) &&
              negb (flt (r_stat (o_res (toy 100 100 100) (nlp_out s) (wd s))) (tol_stat (toy_opts (-1) true 0 LAST))))) as (s & H & P);
    [vm_compute; reflexivity|].
  do 3 eexists. exists s. split; [exact H|]. apply andb_prop in P. destruct P as [P P3]. apply andb_prop in P. destruct P as [P1 P2].
  split; [apply Z.eqb_eq, P1|]. split; [destruct (residuals (trace s)); [reflexivity|discriminate P2]|].
  apply negb_true_iff, P3.
Qed.
Lemma sqp_average : exists (Or : oracles Z (list Z)) opts s0 s d,
  0 <= max_iter opts /\ sqp_call Or opts s0 = Some s /\ timeout_heuristic opts = AVERAGE /\
  durations (clocks (trace s)) = [d] /\ feqb d (z2f 10) = true /\ feqb (estimate s) (z2f 5) = true.
Proof.
  destruct average_half as (s & A & (d & B & C) & D). do 3 eexists. exists s, d.
  split; [|split; [exact A|]]; [discriminate|]. split; [reflexivity|]. split; [exact B|]. split; [exact C|exact D].
Qed.
