(** C80, C81: the starting point of the QP solver, and the factorization for the sensitivities. *)
From Coq Require Import ZArith List Bool Arith Lia Reals Lra.
From Verif Require Import Arith Vec RSum LinModel QpsModel QpsSpec WarmModel WarmProofs WarmSpec WarmTop.
Import ListNotations.

(** C80_t: ocp_qp_compute_t yields the values of all inequalities, and writes nothing else *)
Theorem C80_t : forall d (q : rqp) ux t, maps_ok d q ->
  (forall i m, (i <= qN d)%nat -> (m < nall d i)%nat -> compute_t (A := real) d q ux t i m = ineq d q ux i m) /\
  (forall i m, (qN d < i)%nat \/ (nall d i <= m)%nat -> compute_t (A := real) d q ux t i m = t i m).
Proof. exact (fun d q ux t H => conj (fun i m => compute_t_ineq d q ux t i m H) (fun i m => compute_t_frame d q ux t i m)). Qed.
Print Assumptions C80_t.
(** one bound and one general constraint with a slack *)
Example C80_t_case : maps_ok dT qT /\
  map (compute_t (A := real) dT qT uT (fun _ _ => 0%R) 0%nat) [0; 1; 2; 3; 4; 5]%nat = map (fun k => IZR k) [-1; 29; -11; -1; 5; 31]%Z.
Proof. exact t_case. Qed.

(** C80_init: the point written from the NLP iterate: zero step, the NLP multipliers, and t = - d *)
Theorem C80_init : forall d (q : rqp) pi lam out, maps_ok d q ->
  (forall i k, (i <= qN d)%nat -> (k < nrow d i)%nat -> (q_rev q i k < Z.of_nat (qns d i))%Z) ->
  from_nlp d q pi lam (initialize_qp_from_nlp (A := real) d q pi lam out).
Proof. exact init_from_nlp. Qed.
Print Assumptions C80_init.
Example C80_init_case : maps_ok dT qT /\ forall i k, (i <= qN dT)%nat -> (k < nrow dT i)%nat -> (q_rev qT i k < Z.of_nat (qns dT i))%Z.
Proof. exact init_case. Qed.

(** C80_sequence: any sequence of QPs and factorizations, without scaling and without a condensing phase in advance: each call of the
    QP solver is on the condensed QP, with the configured options, and starts at the NLP iterate when that is asked for and at the
    previous result otherwise *)
Theorem C80_sequence : forall (Q P XQ XP M W : Type) (cond : Q -> XQ) (crhs : Q -> XQ -> XQ) (csol : Q -> P -> XP)
  (solve : sopts -> XQ -> XP -> M -> XP * M) (expand : Q -> XP -> P -> P) (init : W -> Q -> P -> P) o t0 l0 evs s,
  ready P XQ XP M o t0 l0 s ->
  let s' := run_evs cond crhs csol solve expand init false o evs s in
  ready P XQ XP M o t0 l0 s' /\
  exists cs, x_log (st_x s') = rev cs ++ x_log (st_x s) /\ calls cond csol expand init o t0 l0 (x_out (st_x s)) (st_out s) evs cs.
Proof. exact sequence. Qed.
Print Assumptions C80_sequence.
Example C80_sequence_case : ready Z Z Z Z e_opts 5 6 e_start /\
  map c_start (rev (x_log (st_x (run_evs e_cond e_rhs e_csol e_solve e_expand e_init false e_opts
    [Step true 1 2; Step false 8 3; Fact 9 3; Step false 9 4; Step true 11 5]%Z e_start)))) = [101; 61; 109; 71; 111]%Z.
Proof. exact (conj e_ready (proj1 e_run)). Qed.

(** C80_split: condensing the matrices in advance changes nothing when no start from the NLP iterate is pending *)
Theorem C80_split : forall (Q P XQ XP M : Type) (cond : Q -> XQ) (clhs crhs : Q -> XQ -> XQ) (csol : Q -> P -> XP)
  (solve : sopts -> XQ -> XP -> M -> XP * M) (expand : Q -> XP -> P -> P) (same : Q -> Q -> Prop),
  (forall q q' x, same q' q -> crhs q (clhs q' x) = cond q) ->
  forall q q' out (s : xs XQ XP M), same q' q -> x_flag s = false ->
  rhs_and_solve crhs solve expand q out (condense_lhs clhs q' s) = xcond_solve cond csol solve expand q out s.
Proof. exact split_phases. Qed.
Print Assumptions C80_split.
Example C80_split_case : forall q q' x, True -> e_rhs q (e_lhs q' x) = e_cond q.
Proof. exact e_law. Qed.

(** C80_split_refuted: with it, the first QP of split RTI does not start at the NLP iterate, and a later QP does not start at the result
    of the one before *)
Theorem C80_split_refuted : exists o (s : st Z Z Z Z) w q w' q', ready Z Z Z Z o 5 6 s /\ w_first o = true /\ w_nlp o = true /\
  let s1 := qp_step e_cond e_rhs e_csol e_solve e_expand false shared_seen shared_back e_init o true true w q q s in
  let s2 := qp_step e_cond e_rhs e_csol e_solve e_expand false shared_seen shared_back e_init o false false w' q' q' s1 in
  exists c1 c2, x_log (st_x s2) = c2 :: c1 :: x_log (st_x s) /\
  c_start c1 <> e_csol q (e_init w q (st_out s)) /\ c_start c1 = x_out (st_x s) /\
  c_start c2 <> c_result c1 /\ c_start c2 = e_csol q' (e_expand q (c_result c1) (e_init w q (st_out s))).
Proof. exact split_wrong. Qed.
Print Assumptions C80_split_refuted.
(** ... whatever the QP solver and the condensing *)
Theorem C80_split_always : forall (Q P XQ XP M W : Type) (cond : Q -> XQ) (crhs : Q -> XQ -> XQ) (csol : Q -> P -> XP)
  (solve : sopts -> XQ -> XP -> M -> XP * M) (expand : Q -> XP -> P -> P) (init : W -> Q -> P -> P) o w q s,
  w_first o = true -> w_nlp o = true ->
  let s' := qp_step cond crhs csol solve expand false shared_seen shared_back init o true true w q q s in
  (exists c, x_log (st_x s') = c :: x_log (st_x s) /\ c_start c = x_out (st_x s)) /\ x_flag (st_x s') = true.
Proof. exact split_first. Qed.
Print Assumptions C80_split_always.

(** C80_sens_refuted: a sensitivity evaluated between two QPs becomes the start of the second *)
Theorem C80_sens_refuted : exists o (s : st Z Z Z Z) w q qs out w' q', ready Z Z Z Z o 5 6 s /\
  let s1 := run_ev e_cond e_rhs e_csol e_solve e_expand e_init false o (Step false w q) s in
  let s2 := mkSt (fst (eval_sens e_sens e_expand qs out (st_x s1))) (st_out s1) (st_sout s1) in
  let s3 := run_ev e_cond e_rhs e_csol e_solve e_expand e_init false o (Step false w' q') s2 in
  exists c1 c2, x_log (st_x s3) = c2 :: c1 :: x_log (st_x s) /\ c_start c2 <> c_result c1.
Proof. exact sens_wrong. Qed.
Print Assumptions C80_sens_refuted.
Theorem C80_sens_always : forall (Q P XQ XP M W : Type) (cond : Q -> XQ) (crhs : Q -> XQ -> XQ) (csol : Q -> P -> XP)
  (solve : sopts -> XQ -> XP -> M -> XP * M) (expand : Q -> XP -> P -> P) (init : W -> Q -> P -> P) sens o w q qs out s,
  x_flag (st_x s) = false ->
  let s1 := mkSt (fst (eval_sens sens expand qs out (st_x s))) (st_out s) (st_sout s) in
  let s' := run_ev cond crhs csol solve expand init false o (Step false w q) s1 in
  exists c, x_log (st_x s') = c :: x_log (st_x s) /\ c_start c = sens (x_in (st_x s)) qs (x_mem (st_x s)).
Proof. exact after_sens. Qed.
Print Assumptions C80_sens_always.

(** C80_endian_refuted: on a big-endian machine the request to start at the NLP iterate is not seen *)
Theorem C80_endian_refuted : exists o (s : st Z Z Z Z) w q, ready Z Z Z Z o 5 6 s /\ w_first o = true /\ w_nlp o = true /\
  let s1 := run_ev e_cond e_rhs e_csol e_solve e_expand e_init true o (Step true w q) s in
  exists c, x_log (st_x s1) = c :: x_log (st_x s) /\ c_start c = x_out (st_x s) /\ c_start c <> e_csol q (e_init w q (st_out s)).
Proof. exact endian_wrong. Qed.
Print Assumptions C80_endian_refuted.

(** C80_scaled_refuted: with scaling of the objective or the constraints the QP solver is not given the NLP iterate *)
Theorem C80_scaled_refuted : forall (o : qopts real), o_con o = true \/ o_obj o = true -> exists d q pi lam out s, maps_ok d q /\
  ~ from_nlp d q pi lam (seen_out o (initialize_qp_from_nlp (A := real) d q pi lam out) s).
Proof. exact scaled_start_wrong. Qed.
Print Assumptions C80_scaled_refuted.

(** C81_exit_refuted: update_fact_exit is not restored after a factorization *)
Theorem C81_exit_refuted : exists o (s : st Z Z Z Z) w q w' q', ready Z Z Z Z o 5 6 s /\ fact_exit (x_opts (st_x s)) = 0%Z /\
  let s1 := run_evs e_cond e_rhs e_csol e_solve e_expand e_init false o [Fact w q; Step false w' q'] s in
  exists c rest, x_log (st_x s1) = c :: rest /\ fact_exit (c_opts c) = 1%Z.
Proof. exact exit_wrong. Qed.
Print Assumptions C81_exit_refuted.

(** C81_scaled_refuted: with objective scaling the QP that is factorized is not a positive multiple of the one at the iterate: its
    Hessian is the one of the QP that was scaled last *)
Theorem C81_scaled_refuted : forall nrm (o : qopts real) m, o_obj o = true -> exists d q q',
  let sq := alias_in o q' (m_in (scale_qp (A := real) nrm o d m q)) in
  forall c : R, (forall r k, (r < 2)%nat -> (k < 2)%nat -> (q_H sq 0%nat r k : R) = (c * q_H q' 0%nat r k)%R) -> c = 0%R.
Proof. exact scaled_fact. Qed.
Print Assumptions C81_scaled_refuted.
