(** Concrete runs of the RTI model and witnesses for the refuted claims. *)
From Coq Require Import ZArith List Bool Lia.
From Verif Require Import FP SqpModel SqpCases RtiModel RtiProofs RtiTop.
Import ListNotations.
Open Scope Z_scope.

(** toy QP data: Hessian, gradient, condensed Hessian, number of QPs solved *)
Record tw := mkTw { tH : Z; tg : Z; tc : Z; tn : Z }.
Section T.
Variables (qp_fails_at : Z) (glob_st : Z) (adv_sane : bool).
Definition t_cond (w : tw) : tw := mkTw (tH w) (tg w) (tH w + 100) (tn w).
Definition t_lhs (w : tw) : tw := mkTw (Z.max 1 (tH w)) (tg w) (tc w) (tn w).
Definition t_rhs (w : tw) : tw := mkTw (tH w) (tg w + 2 * tH w) (tc w) (tn w).
Definition rtoy : rti_oracles Z tw := mkRtiOracles Z tw
  (fun _ w => w)
  (fun x w => mkTw (x - 2) (tg w) (tc w) (tn w))
  (fun x w => mkTw (tH w) (3 * x) (tc w) (tn w))
  (fun x w => mkRes (z2f x) (z2f (tg w)) f0 f0)
  (fun _ w => w)
  (fun w => t_rhs (t_lhs w)) t_lhs t_rhs t_cond
  (fun _ _ w => w) (fun _ w => w)
  (fun pre x w => let w := if pre then w else t_cond w in
     (mkTw (tH w) (tg w) (tc w) (tn w + 1), if tn w =? qp_fails_at then 3 else 0, tc w))
  (fun _ => (f0, f0, f0, f0))
  (fun x w => (w, x + tg w - tc w, glob_st))
  (fun _ => adv_sane)
  (fun _ w => w) (fun _ w => w) (fun _ w => w) (fun _ w => w) (fun w => w).
End T.
Definition rtoy_opts (l : level) (n : Z) (lg : bool) : rti_opts := mkRtiOpts l n lg false true false.
Definition rtoy_mem (o : rti_opts) (x : Z) : rmem Z tw :=
  mkRmem Z tw x x (mkTw 0 0 0 0) 0 ACADOS_READY true (2 + as_rti_iter o) (rti_stat_n o)
    (repeat f0 (Z.to_nat ((2 + as_rti_iter o) * rti_stat_n o))) [].

Lemma rtoy_created o x : 0 <= as_rti_iter o -> rti_created o (rtoy_mem o x).
Proof.
  intros H. unfold rti_created, rtoy_mem; cbn [m_stat_m m_stat_n m_stat m_iter m_first m_status]. rewrite repeat_length, Z2Nat.id; [auto 10|].
  apply Z.mul_nonneg_nonneg; [lia|]. unfold rti_stat_n. destruct (log_res o), (rti_ext_qp_res o); lia.
Qed.

Lemma rtoy_split a b c : split_laws Z tw (rtoy a b c).
Proof.
  unfold split_laws, rtoy; cbn. repeat split; intros; try reflexivity.
Qed.

(** (status, iter, iterate, QP solves) *)
Definition rsum (r : outcome (rmem Z tw)) : option (Z * Z * Z * Z) :=
  match r with Ok s => Some (m_status s, m_iter s, m_out s, Z.of_nat (length (m_tr s))) | _ => None end.
Definition is_ub {A} (r : outcome A) : bool := match r with UB => true | _ => false end.
Lemma is_ub_eq {A} (r : outcome A) : is_ub r = true -> r = UB. Proof. destruct r; cbn; congruence. Qed.

(** two feedbacks after one preparation leave the table (as_rti_iter = 0) *)
Lemma rti_two_feedbacks : exists (Or : rti_oracles Z tw) opts s,
  as_level opts = STANDARD_RTI /\ 0 <= as_rti_iter opts /\ rti_created opts s /\
  rti_calls Or opts [Call PREPARATION; Call FEEDBACK; Call FEEDBACK] s = UB.
Proof.
  exists (rtoy 9 0 true), (rtoy_opts STANDARD_RTI 0 false), (rtoy_mem (rtoy_opts STANDARD_RTI 0 false) 4).
  split; [reflexivity|]. split; [discriminate|]. split; [apply rtoy_created; discriminate|]. apply is_ub_eq. vm_compute. reflexivity.
Qed.

(** LEVEL_A with no inner iterations: prepare, feedback, prepare, feedback *)
Lemma rti_level_a_zero : exists (Or : rti_oracles Z tw) opts s,
  as_level opts = LEVEL_A /\ 0 <= as_rti_iter opts /\ rti_created opts s /\
  rti_calls Or opts [Call PREPARATION; Call FEEDBACK; Call PREPARATION; Call FEEDBACK] s = UB.
Proof.
  exists (rtoy 9 0 true), (rtoy_opts LEVEL_A 0 false), (rtoy_mem (rtoy_opts LEVEL_A 0 false) 4).
  split; [reflexivity|]. split; [discriminate|]. split; [apply rtoy_created; discriminate|]. apply is_ub_eq. vm_compute. reflexivity.
Qed.

(** residual logging switched on after creation *)
Lemma rti_log_toggled : exists (Or : rti_oracles Z tw) created opts s,
  as_level opts = STANDARD_RTI /\ as_rti_iter opts = as_rti_iter created /\ 0 <= as_rti_iter opts /\
  log_res created = false /\ log_res opts = true /\ rti_created created s /\
  rti_calls Or opts [Call PREPARATION_AND_FEEDBACK] s = UB.
Proof.
  exists (rtoy 9 0 true), (mkRtiOpts STANDARD_RTI 0 false false false false), (mkRtiOpts STANDARD_RTI 0 true false false false),
    (rtoy_mem (mkRtiOpts STANDARD_RTI 0 false false false false) 4).
  do 2 (split; [reflexivity|]). split; [discriminate|]. do 2 (split; [reflexivity|]). split; [apply rtoy_created; discriminate|]. apply is_ub_eq. vm_compute. reflexivity.
Qed.

(** evaluate a boolean on a concrete run *)
Lemma rrun_check (r : outcome (rmem Z tw)) (f : rmem Z tw -> bool) :
  (match r with Ok s => f s | _ => false end) = true -> exists s, r = Ok s /\ f s = true.
Proof. destruct r as [s| |]; intros H; [exists s; auto|discriminate H|discriminate H]. Qed.

Definition has_glob (g : Z) (l : list rti_event) : bool :=
  existsb (fun e => match e with RGlob h => h =? g | _ => false end) l.
Lemma has_glob_in g l : has_glob g l = true -> In (RGlob g) l.
Proof.
  intros H. apply existsb_exists in H. destruct H as ([|h] & Hin & H); [discriminate H|].
  apply Z.eqb_eq in H. subst h. exact Hin.
Qed.

(** success reported although the globalization reported a minimal step *)
Lemma rti_glob_ignored : exists (Or : rti_oracles Z tw) opts s s' g,
  rti_created opts s /\ m_tr s = [] /\ rti_calls Or opts [Call PREPARATION_AND_FEEDBACK] s = Ok s' /\
  In (RGlob g) (m_tr s') /\ g = ACADOS_MINSTEP /\ m_status s' = ACADOS_SUCCESS.
Proof.
  set (o := rtoy 9 ACADOS_MINSTEP true). set (op := rtoy_opts STANDARD_RTI 0 false). set (s := rtoy_mem op 4).
  destruct (rrun_check (rti_calls o op [Call PREPARATION_AND_FEEDBACK] s)
     (fun s' => has_glob ACADOS_MINSTEP (m_tr s') && (m_status s' =? ACADOS_SUCCESS))) as (s' & E & H);
    [vm_compute; reflexivity|].
  apply andb_prop in H. destruct H as [H1 H2]. apply has_glob_in in H1. apply Z.eqb_eq in H2.
  exists o, op, s, s', ACADOS_MINSTEP. split; [apply rtoy_created; discriminate|].
  split; [reflexivity|]. split; [exact E|]. split; [exact H1|]. split; [reflexivity|exact H2].
Qed.

(** a preparation call returns QP_FAILURE although it solved no QP *)
Lemma rti_prep_stale : exists (Or : rti_oracles Z tw) opts s s1 s2,
  as_level opts = STANDARD_RTI /\ rti_created opts s /\
  rti_calls Or opts [Call PREPARATION_AND_FEEDBACK] s = Ok s1 /\
  rti_call Or opts PREPARATION s1 = Ok s2 /\ m_tr s2 = m_tr s1 /\ m_status s2 = ACADOS_QP_FAILURE.
Proof.
  set (o := rtoy 0 0 true). set (op := rtoy_opts STANDARD_RTI 0 false). set (s := rtoy_mem op 4).
  destruct (rrun_check (rti_calls o op [Call PREPARATION_AND_FEEDBACK] s)
     (fun s' => m_status s' =? ACADOS_QP_FAILURE)) as (s1 & E & H); [vm_compute; reflexivity|].
  apply Z.eqb_eq in H. exists o, op, s, s1. eexists. split; [reflexivity|].
  split; [apply rtoy_created; discriminate|]. split; [exact E|]. split; [unfold rti_call; cbn [level_eqb as_level op rtoy_opts]; unfold preparation_step; reflexivity|].
  split; [reflexivity|exact H].
Qed.

(** without the split laws the two ways of calling differ: here the pre-condensed QP solve uses a
    condensed Hessian that condensing did not refresh *)
Definition bad : rti_oracles Z tw :=
  let o := rtoy 9 0 true in
  mkRtiOracles Z tw (r_init o) (r_matrices o) (r_vectors o) (r_res o) (r_full o) (r_reg o) (r_reg_lhs o) (r_reg_rhs o)
   (fun w => w) (r_warm o) (r_unwarm o) (r_qp o) (r_qp_res o) (r_glob o) (r_sane o) (r_advance Z tw o) (r_zero_order Z tw o)
   (r_level_c Z tw o) (r_level_c_full Z tw o) (r_correct Z tw o).
Lemma rti_split_needed :
  rsum (rti_calls bad (rtoy_opts STANDARD_RTI 0 true) [Call PREPARATION; Call FEEDBACK] (rtoy_mem (rtoy_opts STANDARD_RTI 0 true) 4)) <>
  rsum (rti_calls bad (rtoy_opts STANDARD_RTI 0 true) [Call PREPARATION_AND_FEEDBACK] (rtoy_mem (rtoy_opts STANDARD_RTI 0 true) 4)).
Proof. vm_compute. discriminate. Qed.
