(** Concrete feasibility QPs, mode runs and driver runs; counterexamples. *)
From Coq Require Import ZArith List Bool Lia Reals Lra.
From Verif Require Import Arith Vec LinModel RSum Poly FP SqpModel SqpSpec SqpCases SqpRefuted WfqpModel WfqpProofs WfqpDriver WfqpRun.
Import ListNotations.

(** ** numbering: 5 constraints, two control bounds (the first one soft), one state bound, two others (the last one soft) *)
Definition wd1 : wdims := mkWdims 5 2 2 1 1 0 false.
Definition idxs1 (j : nat) : nat := (if j =? 0 then 0 else 4)%nat.
Lemma wd1_valid : valid_idxs wd1 idxs1.
Proof.
  unfold valid_idxs; cbn. split; [lia|]. split; [lia|]. split.
  - intros [|[|j]] Hj; cbn; lia.
  - intros [|[|j]] [|[|k]] Hj Hk E; cbn in E; lia.
Qed.
Lemma numbering_case : match precompute_idxns wd1 idxs1 (fun _ => 0%nat) with
  | Some (idxns, k) => (map idxns (seq 0 k), map (relaxed_idxs_rev wd1 idxs1 idxns (fun _ => -1)%Z) (seq 0 5)) = ([2; 3]%nat, [0; -1; 2; 3; 1]%Z)
  | None => False end.
Proof. reflexivity. Qed.
(** slacks given by idxs_rev: the slack counts per group are zero and idxs was never set *)
Definition wd2 : wdims := mkWdims 3 2 0 0 0 0 false.
Lemma idxs_rev_overflow : exists d, (w_nbu d + w_nbx d <= w_n d)%nat /\ (w_ns d <= w_n d)%nat /\ w_nsbu d = 0%nat /\ w_nsbx d = 0%nat /\ precompute_idxns d (fun _ => 0%nat) (fun _ => 0%nat) = None.
Proof. exists wd2. cbn. repeat split; lia. Qed.

(** ** a relaxation factor below one: one general constraint 1 <= 0 v *)
Open Scope R_scope.
Definition wd3 : wdims := mkWdims 1 0 0 0 0 0 false.
Definition dn3 : vecR := fun k => if (k =? 0)%nat then 1 else -2.
Lemma factor_below_one : exists d idxs idxns cnt nrev (f : R) mask dn val sl su,
  valid_idxs d idxs /\ precompute_idxns d idxs (fun _ => 0%nat) = Some (idxns, cnt) /\
  (forall j, (j < w_ns d)%nat -> nrev (idxs j) = Z.of_nat j) /\ (forall i, (forall j, (j < w_ns d)%nat -> idxs j <> i) -> (nrev i < 0)%Z) /\ 0 < f < 1 /\
  let rev := relaxed_idxs_rev d idxs idxns (fun _ => -1)%Z in
  qp_feasible (w_n d) (w_ns d + cnt) (relaxed_mask (A := real) d mask (fun _ => 0)) (relaxed_d (A := real) d dn (fun _ => 0)) rev val sl su /\
  ~ qp_feasible (w_n d) (w_ns d) mask (byrd_omojokun_bounds (A := real) d idxns rev f sl su dn) nrev val sl su.
Proof.
  exists wd3, (fun _ => 0%nat), (fun k => if (k =? 0)%nat then 0%nat else 0%nat), 1%nat, (fun _ => (-1)%Z), (1 / 2), (fun _ => 1), dn3, (fun _ => 0), (fun _ => 1), (fun _ => 1).
  split; [unfold valid_idxs; cbn; repeat split; intros; lia|]. split; [reflexivity|]. split; [cbn; intros; lia|]. split; [intros; lia|]. split; [lra|]. cbv zeta. split.
  - split.
    + intros j Hj. cbn in Hj. assert (j = 0)%nat by lia. subst j. unfold relaxed_mask, relaxed_d, slk, dn3; cbn; change (Pos.to_nat 1) with 1%nat; cbn. split; intros _; change (num real) with R; lra.
    + intros k Hk. cbn in Hk. assert (k = 0)%nat by lia. subst k. unfold relaxed_mask, relaxed_d, slk, dn3; cbn; change (Pos.to_nat 1) with 1%nat; cbn. split; intros _; change (num real) with R; lra.
  - intros [F _]. destruct (F 0%nat ltac:(cbn; lia)) as [F1 _]. specialize (F1 R1_neq_R0). revert F1. unfold byrd_omojokun_bounds, slk, dn3, vset; cbn; change (Pos.to_nat 1) with 1%nat; cbn. rr. change (num real) with R in *. lra.
Qed.
(** the same QP with factor one: nontrivial use of the relaxation *)
Lemma factor_case : let rev := relaxed_idxs_rev wd3 (fun _ => 0%nat) (fun _ => 0%nat) (fun _ => -1)%Z in
  byrd_omojokun_bounds (A := real) wd3 (fun _ => 0%nat) rev 1 (fun _ => 1) (fun _ => 1) dn3 0%nat = 0 /\ byrd_omojokun_bounds (A := real) wd3 (fun _ => 0%nat) rev 1 (fun _ => 1) (fun _ => 1) dn3 1%nat = -3.
Proof. unfold byrd_omojokun_bounds, dn3, vset; cbn; change (Pos.to_nat 1) with 1%nat; cbn. rr. change (num real) with R in *. split; lra. Qed.
Close Scope R_scope.

(** ** the iterations with zero slacks need not be consecutive *)
Open Scope Z_scope.
Definition in_of (n b z : bool) := mkSdInput n b z.
Definition lrun : list sd_input := [in_of false true true; in_of true true false; in_of true true true; in_of true true false].
Lemma sd_run_is_run allow wmax l : forall m, exists m' al, is_run allow wmax m (fst (sd_run allow wmax m l)) m' al.
Proof.
  induction l as [|i l IH]; intros m; cbn; [exists m, true; auto|].
  destruct (search_direction allow wmax i m) as [[m1 ok] t] eqn:E. destruct ok.
  - destruct (IH m1) as (m' & al & R). destruct (sd_run allow wmax m1 l) as [tr m2]. cbn in *. exists m', al. split; [reflexivity|]. exists true, m1. auto.
  - cbn. exists m1, false. split; [reflexivity|]. exists false, m1. auto.
Qed.
Lemma not_consecutive : exists l m al x1 x2 x3 x4, is_run true 2 (sd_start NOMINAL_QP) l m al /\ l = [x1; x2; x3; x4] /\
  typ x1 = TypeNFN /\ typ x2 = TypeFN /\ typ x3 = TypeFN /\ slacks_zero (inp x2) = false /\ nominal_tried (typ x4) = true.
Proof.
  destruct (sd_run_is_run true 2 lrun (sd_start NOMINAL_QP)) as (m & al & R).
  eexists _, m, al, _, _, _, _. split; [exact R|]. repeat split.
Qed.
Lemma mode_case : map typ (fst (sd_run true 2 (sd_start NOMINAL_QP) [in_of true true true; in_of false true true; in_of true true true; in_of true true false])) = [TypeN; TypeNFN; TypeFN; TypeN].
Proof. reflexivity. Qed.
(** without permission to return the relaxed mode stays *)
Lemma no_return allow wmax m l m' al a x b y c : allow = false -> 0 < wmax -> good allow wmax m -> is_run allow wmax m l m' al -> l = a ++ (x :: b) ++ y :: c -> typ x = TypeNFN -> Forall (fun z => typ z = TypeFN) b -> nominal_tried (typ y) = false.
Proof.
  intros -> Hw G R E Ht F. destruct (nominal_tried (typ y)) eqn:En; [|reflexivity]. apply (watchdog_return false wmax Hw m l m' al a x b y c G R E Ht F) in En. destruct En as [En _]. discriminate En.
Qed.

(** statements about runs of the driver *)
Section Drv.
Variables iterate world : Type.
Variable Or : woracles iterate world.
Variable o : wopts.
Hypothesis Hw : 0 < w_max o.
Hypothesis Hm : 0 <= max_iter (wb_opts o).
Hypothesis Hn : w_mode o = NOMINAL_QP.
Variables s0 s : wmem iterate world.
Hypothesis Hc : wfqp_call Or o s0 = Some s.
Lemma start_good : good (w_allow o) (w_max o) (sd_start (w_mode o)).
Proof. rewrite Hn. reflexivity. Qed.
Lemma drv_enter : (forall x r, rev (w_log s) = x :: r -> nominal_tried (typ x) = true) /\
  (forall a x y r, rev (w_log s) = a ++ x :: y :: r -> typ x = TypeN -> nominal_tried (typ y) = true) /\
  (forall x, In x (w_log s) -> (typ x = TypeN -> nominal_ok (inp x) = true) /\ (typ x = TypeNFN -> nominal_ok (inp x) = false) /\ typ x <> TypeF).
Proof.
  destruct (wfqp_log _ _ Or o s0 s Hm Hc) as (m & al & R).
  destruct (nominal_first (w_allow o) (w_max o) Hw _ _ m al start_good ltac:(rewrite Hn; reflexivity) R) as (P1 & P2 & P3). split; [exact P1|]. split; [exact P2|].
  intros x Hx. apply P3. apply -> in_rev. exact Hx.
Qed.
Lemma drv_return a x b y c : rev (w_log s) = a ++ (x :: b) ++ y :: c -> typ x = TypeNFN -> Forall (fun z => typ z = TypeFN) b ->
  (nominal_tried (typ y) = true <-> w_allow o = true /\ zeros (x :: b) = w_max o) /\ (w_allow o = true -> zeros (removelast (x :: b)) < w_max o).
Proof.
  intros E Ht F. destruct (wfqp_log _ _ Or o s0 s Hm Hc) as (m & al & R). split.
  - exact (watchdog_return _ _ Hw _ _ m al a x b y c start_good R E Ht F).
  - intros Ha. destruct (watchdog _ _ Hw _ _ m al a x b y c start_good R E Ht F) as [[_ H]|[H _]]; [exact H|congruence].
Qed.
End Drv.

(** ** driver runs: integer iterates, nominal QP infeasible above 3, slacks zero below 6, all QPs fail at 1 *)
Definition wtoy (nan_at : Z) : woracles Z (list Z) := mkWOracles
  (mkOracles Z (list Z) (fun _ w => w) (fun _ w => w)
     (fun x _ => mkRes (if x =? nan_at then fnan else z2f x) f0 f0 f0) (fun w => w) (fun w => w) (fun w => (w, f0)) (fun _ => f1)
     (fun x w => ([x], if (3 <? x) || (x =? 1) then 3 else 0, 5)) (fun _ => (f0, f0, f0, f0)) (fun _ => f1) (fun _ _ => f1) (fun x w _ => (w, x - 1, 0, f1)))
  (fun x w => ([x], if x =? 1 then 3 else 0, 6)) (fun x w => ([x], 0, 7)) (fun w => match w with x :: _ => x <? 6 | [] => false end) (fun _ => f1) (fun _ => f1).
Definition wtoy_opts (mi : Z) (md : sd_mode) : wopts := mkWopts (toy_opts mi true 0 LAST) md true 2 true true.
Definition wtoy_mem (x mi : Z) : wmem Z (list Z) := mkWmem
  (mkMem Z (list Z) x [] 0 0 (mkRes f0 f0 f0 f0) f0 f0 f0 f0 f0 (mi + 1) 13 (repeat f0 (Z.to_nat ((mi + 1) * 13))) (repeat 99 (Z.to_nat (mi + 1))) (repeat f0 (Z.to_nat mi)) (repeat f0 (Z.to_nat mi)) [])
  (sd_start NOMINAL_QP) [].
Definition wsummary (r : option (wmem Z (list Z))) : option (Z * Z * Z * Z * list sd_type) :=
  match r with Some s => Some (status (w_b s), iter (w_b s), nlp_out (w_b s), qp_count (trace (w_b s)), rev (map typ (w_log s))) | None => None end.
Lemma wtoy_alloc x mi md : 0 <= mi -> w_allocated (wtoy_opts mi md) (wtoy_mem x mi).
Proof. intros H. unfold w_allocated, wtoy_opts, wtoy_mem; cbn. rewrite !repeat_length. repeat split; lia. Qed.
Lemma wfqp_case : wsummary (wfqp_call (wtoy 100) (wtoy_opts 10 NOMINAL_QP) (wtoy_mem 7 10)) = Some (4, 6, 1, 13, [TypeNFN; TypeFN; TypeFN; TypeFN; TypeN; TypeN; TypeNFN]).
Proof. vm_compute. reflexivity. Qed.
Lemma wfqp_nan_case : wsummary (wfqp_call (wtoy 2) (wtoy_opts 10 NOMINAL_QP) (wtoy_mem 3 10)) = Some (1, 1, 2, 1, [TypeN]).
Proof. vm_compute. reflexivity. Qed.
Lemma wfqp_success_case : wsummary (wfqp_call (wtoy 100) (wtoy_opts 10 NOMINAL_QP) (wtoy_mem 0 10)) = Some (0, 0, 0, 0, []).
Proof. vm_compute. reflexivity. Qed.
(** the mode that is not implemented: neither success nor a failure status *)
Lemma feasibility_mode : exists (Or : woracles Z (list Z)) opts s0 s, 0 <= max_iter (wb_opts opts) /\ w_allocated opts s0 /\ wfqp_call Or opts s0 = Some s /\ status (w_b s) = ACADOS_READY.
Proof.
  exists (wtoy 100), (wtoy_opts 10 FEASIBILITY_QP), (wtoy_mem 7 10).
  destruct (run_check (wfqp_call (wtoy 100) (wtoy_opts 10 FEASIBILITY_QP) (wtoy_mem 7 10)) (fun s => status (w_b s) =? 5)) as (s & H & HP); [vm_compute; reflexivity|].
  exists s. split; [cbn; lia|]. split; [apply wtoy_alloc; lia|]. split; [exact H|]. apply Z.eqb_eq, HP.
Qed.
(** iteration limit raised after the memory was created: the unguarded store of the step length *)
Lemma raised_limit : wfqp_call (wtoy 100) (mkWopts (mkSqpOpts 5 true fhalf fhalf fhalf fhalf f0 (z2f (-10000000000)) f0 LAST false false false false false 0) NOMINAL_QP true 2 false false) (wtoy_mem 9 2) = None.
Proof. vm_compute. reflexivity. Qed.
