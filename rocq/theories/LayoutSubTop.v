(** Top-level statements about the solver and module objects, and the cases in which the announced
    size is too small. *)
From Coq Require Import ZArith List String Lia Bool.
From Verif Require Import Layout LayoutProofs LayoutNlp LayoutNlpProofs LayoutEnv LayoutSolver LayoutSolverProofs
  LayoutMod LayoutModProofs.
Import ListNotations.
Open Scope string_scope.
Open Scope Z_scope.

(** ** an environment whose matrices are stored in panels of 8 rows and 4 columns *)
Definition up (k x : Z) : Z := (x + k - 1) / k * k.
Definition env_panel : cenv := mkEnv
  (fun _ => 48) (fun _ => 20)
  (fun m => up 8 (8 * m)) (fun m n => 8 * (up 8 m * up 4 n)) (fun _ _ => 128).
Lemma up_ge k x : 0 < k -> x <= up k x.
Proof. intros H. apply (align_ge k x H). Qed.
Lemma up_div k x : 0 < k -> exists q, up k x = q * k.
Proof. intros H. exists ((x + k - 1) / k). reflexivity. Qed.
Lemma env_panel_ok : env_ok env_panel.
Proof.
  unfold env_ok, env_panel; cbn [so soi ms_dvec ms_dmat sub].
  repeat split; intros; try lia.
  - apply up_ge. lia.
  - destruct (up_div 8 (8 * m)) as [q ->]; [lia|]. apply Z.mod_mul. lia.
  - pose proof (up_ge 8 m). pose proof (up_ge 4 n). nia.
  - destruct (up_div 8 m) as [q ->]; [lia|]. destruct (up_div 4 n) as [r ->]; [lia|].
    replace (8 * (q * 8 * (r * 4))) with (q * r * 4 * 64) by lia. apply Z.mod_mul. lia.
Qed.

Lemma blocks_take_last k len p : blocks [Take k len] p = [mkBlock k p len].
Proof. reflexivity. Qed.

Lemma align64_ge p : p <= align_char_to 64 p. Proof. apply align_ge; lia. Qed.

Lemma ls_model_overrun : exists E c, env_ok E /\ cost_ok c /\ forall base,
  exists b, In b (blocks (o_ops (ls_model_obj E c)) base) /\
            base + o_size (ls_model_obj E c) < blk_start b + blk_len b.
Proof.
  exists env_panel, (mkCostDims 1 5 1 1 0 0). split; [apply env_panel_ok|].
  split; [repeat split; cbn; lia|]. intros base.
  set (q := align_char_to 64 (base + 48)). pose proof (align64_ge (base + 48)) as Hq. fold q in Hq.
  exists (mkBlock KDmatMem (q + 256 + 256) 512). split.
  - cbn. right; right; right; left. reflexivity.
  - cbn [blk_start blk_len].
    replace (o_size (ls_model_obj env_panel (mkCostDims 1 5 1 1 0 0))) with 888 by reflexivity. lia.
Qed.

(** ** options with discrete dynamics: five ints (ocp_nlp_dynamics_disc.h:79-86) *)
Section O.
Variable E : cenv.
Variable d : nlp_dims.
Hypothesis HE : env_ok E.
Lemma sub4 s i : sub E s i mod 4 = 0.
Proof. apply (mod_divide_trans _ 4 8); [lia|lia|exists 2; lia|apply env_sub8; exact HE]. Qed.
Lemma opts_disc_fits chk a : (1 <= a)%Z -> (a | 8) ->
  exists n, fits chk (opts_assign_with E d (fun _ => KIntStruct) (fun _ => 20)) a 4 n /\
            n <= opts_size_with E d (fun _ => 20).
Proof.
  intros Ha Hd. assert (H4 := sub4).
  unfold opts_size_with, opts_assign_with.
  eexists. split.
  - eapply (fits_app _ _ _ a 4).
    + eapply (fits_coarsen _ _ _ 8 4); [lia|lia|div_solve|].
      eapply fits_align; [lia|exact Hd|lia|]. repeat lay1.
    + eapply (fits_app _ _ _ 4 4); [apply fits_for; intros i Hi; lay_all|].
      eapply (fits_app _ _ _ 4 4); (eapply fits_for; intros i Hi).
      * eapply (fits_take _ _ _ _ 4 4); [nn|lia|lia|apply Z.divide_refl|apply H4|intros; apply Z.divide_refl|apply fits_nil].
      * eapply (fits_take _ _ _ _ 4 4); [nn|lia|lia|apply Z.divide_refl|apply H4|intros; apply Z.divide_refl|apply fits_nil].
  - sums. lia.
Qed.
End O.

(** ** a continuous-time stage after an odd number of discrete ones *)
Lemma opts_mixed_misaligned E d : env_ok E -> (1 < dN d)%nat -> forall base, exists b,
  let dyn := fun i => if Nat.eqb i 0 then 20 else sub E "dynamics_opts" i in
  In b (blocks (opts_assign_with E d (fun i => if Nat.eqb i 0 then KIntStruct else KSub8) dyn) base) /\
  blk_kind b = KSub8 /\ blk_len b = sub E "dynamics_opts" 1 /\ blk_start b mod 8 = 4.
Proof.
  intros HE HN base. unfold opts_assign_with. rewrite blocks_app.
  set (dyn := fun i => if Nat.eqb i 0 then 20 else sub E "dynamics_opts" i).
  match goal with |- context [finish ?l base] => set (pre := l) end.
  assert (Hp : finish pre base mod 8 = 0).
  { assert (F : exists n, fits false pre 1 8 n) by (eexists; unfold pre; repeat lay1).
    destruct F as (n & _ & F). apply (F base (Z.mod_1_r base)). }
  set (p := finish pre base) in *.
  exists (mkBlock KSub8 (p + 20) (sub E "dynamics_opts" 1)). cbn zeta.
  split; [|split; [reflexivity|split; [reflexivity|]]].
  - apply in_or_app. right. rewrite blocks_app. apply in_or_app. left. clearbody p. clear pre Hp.
    destruct (dN d) as [|[|n]]; [lia|lia|]. clear HN.
    induction n as [|n IH].
    + cbn. right. left. reflexivity.
    + change (for_ops (S (S (S n))) ?b) with (app (for_ops (S (S n)) b) (b (S (S n)))).
      rewrite blocks_app. apply in_or_app. left. exact IH.
  - cbn [blk_start]. rewrite Z.add_mod by lia. rewrite Hp. reflexivity.
Qed.

(** ** SQP_WITH_FEASIBLE_QP: a negative number of non-slacked constraints *)
(** One shooting interval, two bounded controls at both stages and one slack shared by the two
    bounds through [idxs_rev]: no [nsbu] is set, [ns] is 1, [ni] is 3. *)
Definition dims_shared : nlp_dims := mkDims 1
  (fun _ => 5) (fun _ => 1) (fun _ => 2) (fun _ => 0) (fun _ => 1) (fun _ => 0)
  (fun _ => 3) (fun _ => 2) (fun _ => 0) (fun _ => 0) 0 0.
Definition wf_shared : wf_dims := mkWf (fun _ => 2) (fun _ => 0) (fun _ => 0) (fun _ => 0)
  (fun _ => 0) (fun _ => 0).
Lemma dims_shared_ok : dims_ok dims_shared.
Proof. unfold dims_ok, dims_shared; cbn; repeat split; intros; lia. Qed.

Lemma wfqp_overlap E o so_ base : exists i j a b, (i < j)%nat /\
  nth_error (blocks (o_ops (wfqp_mem_obj E dims_shared o so_ wf_shared)) base) i = Some a /\
  nth_error (blocks (o_ops (wfqp_mem_obj E dims_shared o so_ wf_shared)) base) j = Some b /\
  blk_kind a = KInt /\ blk_len a = 8 /\ blk_kind b = KBool /\ blk_len b = 256 /\ blk_start b = blk_start a.
Proof.
  exists 12%nat, 15%nat. eexists; eexists.
  split; [lia|]. split; [reflexivity|]. split; [reflexivity|].
  cbn [blk_kind blk_len blk_start]. repeat split; try reflexivity.
  repeat match goal with |- context [?p + wf_nns dims_shared wf_shared ?i * so_int] =>
    change (wf_nns dims_shared wf_shared i * so_int) with (-4) end.
  match goal with |- ?p + ?a + _ + _ = ?p => change a with 8 end. lia.
Qed.

(** ** discrete dynamics: the Jacobian written by compute_fun_and_adj *)
(** ocp_nlp_dynamics_disc.c:905-919: [disc_dyn_fun_jac] writes a matrix of [nu+nx] rows and [nx1]
    columns of doubles into [work->tmp_nv_nv]. *)
Definition disc_jac_bytes (y : dyn_dims) : Z := 8 * ((y_nu y + y_nx y) * y_nx1 y).
Lemma disc_ws_matrix E sa y base : exists b,
  In b (blocks (o_ops (disc_ws_obj E sa y)) base) /\ blk_kind b = KDmatMem /\
  blk_len b = ms_dmat E (y_nu y + y_nx y) (y_nu y + y_nx y).
Proof.
  eexists. unfold disc_ws_obj; cbn [o_ops]. split; [|split].
  - rewrite blocks_app. apply in_or_app. left. right. left. reflexivity.
  - reflexivity.
  - reflexivity.
Qed.
Lemma disc_jac_fits E sa y base : env_ok E -> dyn_ok y -> y_nx1 y <= y_nu y + y_nx y ->
  forall b, In b (blocks (o_ops (disc_ws_obj E sa y)) base) -> blk_kind b = KDmatMem ->
  disc_jac_bytes y <= blk_len b.
Proof.
  intros HE (H1 & H2 & H3 & H4) Hle b Hb Hk.
  assert (blk_len b = ms_dmat E (y_nu y + y_nx y) (y_nu y + y_nx y)) as ->.
  { unfold disc_ws_obj in Hb; cbn [o_ops] in Hb. rewrite blocks_app in Hb. apply in_app_or in Hb as [Hb|Hb].
    - destruct Hb as [<-|[<-|[]]]; [discriminate Hk|reflexivity].
    - destruct sa; [|destruct Hb]. destruct Hb as [<-|[]]. discriminate Hk. }
  destruct HE as (_ & _ & _ & HM & _). unfold disc_jac_bytes.
  eapply Z.le_trans; [|apply HM; lia]. nia.
Qed.
Lemma disc_jac_overrun : exists E y, env_ok E /\ dyn_ok y /\ forall sa base b,
  In b (blocks (o_ops (disc_ws_obj E sa y)) base) -> blk_kind b = KDmatMem ->
  blk_len b < disc_jac_bytes y.
Proof.
  exists env64, (mkDynDims 2 0 30 0). split; [apply env64_ok|]. split; [repeat split; cbn; lia|].
  intros sa base b Hb Hk.
  unfold disc_ws_obj in Hb; cbn [o_ops] in Hb. rewrite blocks_app in Hb. apply in_app_or in Hb as [Hb|Hb].
  - destruct Hb as [<-|[<-|[]]]; [discriminate Hk|]. vm_compute. reflexivity.
  - destruct sa; [|destruct Hb]. destruct Hb as [<-|[]]. discriminate Hk.
Qed.

(** ** sizes announced by the modules, as assumed of [sub] in [env_ok] *)
Ltac get8 H := intros ob Hin; split; [apply obj_size_nn; rewrite Forall_forall in H; apply H; exact Hin|].
Section Z8.
Variable E : cenv.
Hypothesis HE : env_ok E.
Variables sens_f sens_a : bool.
Variable h : bgh_dims.
Variable nr : Z.
Hypothesis Hh : bgh_ok h.
Hypothesis Hr : 0 <= nr.
Variable c : cost_dims.
Hypothesis Hc : cost_ok c.
Variable y : dyn_dims.
Hypothesis Hy : dyn_ok y.
Variables sim_dims sim_opts sim_mem sim_ws sim_model sim_in sim_out : Z.
Hypothesis H1 : 0 <= sim_dims /\ sim_dims mod 4 = 0.
Hypothesis H2 : size_ok sim_opts.
Hypothesis H3 : size_ok sim_mem.
Hypothesis H4 : size_ok sim_ws.
Hypothesis H5 : size_ok sim_model.
Hypothesis H6 : size_ok sim_in.
Hypothesis H7 : size_ok sim_out.

(** models, memories and workspaces *)
Definition stage_objects : list obj :=
  [bgh_dims_obj E; bgh_model_obj E h; bgh_mem_obj E h; bgh_ws_obj E h sens_f sens_a;
   bgp_model_obj E h; bgp_mem_obj E h; bgp_ws_obj E h nr;
   cost_opts_obj E "ocp_nlp_cost_ls_opts"; cost_opts_obj E "ocp_nlp_cost_nls_opts";
   cost_opts_obj E "ocp_nlp_cost_conl_opts"; cost_opts_obj E "ocp_nlp_cost_external_opts";
   ls_model_obj E c; ls_mem_obj E c; ls_ws_obj E c; nls_model_obj E c; nls_mem_obj E c; nls_ws_obj E c;
   conl_model_obj E c; conl_mem_obj E c; conl_ws_obj E c;
   ext_model_obj E c; ext_mem_obj E c; ext_ws_obj E sens_f sens_a c;
   cont_opts_obj E sim_opts; cont_mem_obj E y sim_mem; cont_ws_obj E y sim_ws sim_in sim_out;
   cont_model_obj E sim_model;
   disc_mem_obj E y; disc_ws_obj E sens_a y; disc_model_obj E].
Lemma stage_objects_8 : Forall (fun ob => o_size ob mod 8 = 0) stage_objects.
Proof.
  destruct Hh as (? & ? & ? & ? & ? & ? & ? & ? & ? & ? & ? & ?). destruct Hc as (? & ? & ? & ? & ? & ?).
  destruct Hy as (? & ? & ? & ?). destruct H2, H3, H4, H5, H6, H7.
  unfold stage_objects. each;
  unfold bgh_dims_obj, bgh_model_obj, bgh_mem_obj, bgh_ws_obj, bgp_model_obj, bgp_mem_obj, bgp_ws_obj, cost_opts_obj,
   ls_model_obj, ls_mem_obj, ls_ws_obj, nls_model_obj, nls_mem_obj, nls_ws_obj, conl_model_obj, conl_mem_obj, conl_ws_obj,
   ext_model_obj, ext_mem_obj, ext_ws_obj, cont_opts_obj, cont_mem_obj, cont_ws_obj, cont_model_obj, disc_mem_obj, disc_ws_obj,
   disc_model_obj; cbn [o_size].
  all: md.
Qed.
End Z8.

(** ** the statements of the property file *)
Definition carved_ok (base : Z) (ob : obj) : Prop :=
  carved_within base (o_size ob) (blocks (o_ops ob) base) /\
  (base mod 8 = 0 -> Forall aligned (blocks (o_ops ob) base)).
Lemma fits_ok base l : Forall obj_fits l -> Forall (carved_ok base) l.
Proof. apply Forall_impl. intros ob H. split; [apply obj_fits_carved; exact H|apply obj_fits_aligned; exact H]. Qed.

Lemma solvers_ok E d o so_ w base : env_ok E -> dims_ok d ->
  (forall i, 0 <= wf_nbu w i /\ 0 <= wf_nsbu w i /\ 0 <= wf_nbx w i /\ 0 <= wf_nsbx w i
             /\ 0 <= qp_ng w i /\ 0 <= rqp_ng w i) ->
  (forall i, (i <= dN d)%nat -> 0 <= wf_nns d w i) ->
  Forall (carved_ok base) (solver_objects E d o so_ w ++ reg_objects E d w ++ glob_opts_objects E ++ glob_mem_objects E)%list.
Proof.
  intros HE Hd Hw Hn. apply fits_ok. apply Forall_app; split; [apply solver_objects_fit; assumption|].
  apply Forall_app; split; [apply reg_objects_fit; assumption|apply glob_objects_fit; assumption].
Qed.
Lemma modules_ok E h nr c y sf sa sim_dims sim_opts sim_mem sim_ws sim_model sim_in sim_out base :
  env_ok E -> bgh_ok h -> 0 <= nr -> cost_ok c -> dyn_ok y -> 0 <= sim_dims /\ sim_dims mod 4 = 0 ->
  size_ok sim_opts -> size_ok sim_mem -> size_ok sim_ws -> size_ok sim_model -> size_ok sim_in -> size_ok sim_out ->
  Forall (carved_ok base) (constraint_objects E h sf sa nr ++ cost_objects E sf sa c
     ++ dynamics_objects E sa y sim_dims sim_opts sim_mem sim_ws sim_model sim_in sim_out)%list.
Proof.
  intros. apply fits_ok. apply Forall_app; split; [apply constraint_objects_fit; assumption|].
  apply Forall_app; split; [apply cost_objects_fit; assumption|apply dynamics_objects_fit; assumption].
Qed.
Lemma ls_model_ok E c base : env_ok E -> cost_ok c ->
  ms_dmat E (c_ny c) (c_nz c) <= ms_dmat E (c_nz c) (c_ny c) -> carved_ok base (ls_model_obj E c).
Proof. intros HE Hc H. pose proof (ls_model_fits E HE c Hc H) as F. 
  split; [apply obj_fits_carved; exact F|apply obj_fits_aligned; exact F]. Qed.
Lemma external_ok na nr asz rsz iw fw extw n base :
  (forall i, 0 <= asz i) -> (forall i, 0 <= rsz i) -> 0 <= iw -> 0 <= fw -> 0 <= n ->
  Forall (carved_ok base) [param_generic_obj n; casadi_obj na nr asz rsz iw fw extw].
Proof. intros. apply fits_ok. repeat constructor; first [apply param_generic_fits|apply casadi_fits]; assumption. Qed.

Lemma opts_disc_ok E d base : env_ok E ->
  carved_within base (opts_size_with E d (fun _ => 20)) (blocks (opts_assign_with E d (fun _ => KIntStruct) (fun _ => 20)) base) /\
  Forall aligned (blocks (opts_assign_with E d (fun _ => KIntStruct) (fun _ => 20)) base).
Proof.
  intros HE. destruct (opts_disc_fits E d HE true 1 ltac:(lia) (Z.divide_1_l 8)) as (n & F & L). split.
  - eapply fits_carved; [exact F|apply Z.mod_1_r|exact L].
  - eapply fits_aligned; [exact F|apply Z.mod_1_r].
Qed.

(** refinement: a sub-object carved in its block *)
Lemma nested_ok base size l1 b l2 ob :
  carved_within base size (l1 ++ b :: l2)%list -> blk_len b = o_size ob -> carved_ok (blk_start b) ob ->
  carved_within base size (l1 ++ blocks (o_ops ob) (blk_start b) ++ l2)%list /\
  (blk_kind b = KSub8 -> aligned b -> Forall aligned (blocks (o_ops ob) (blk_start b))).
Proof.
  intros H Hl [Hc Ha]. split.
  - eapply nested_carved; [exact H|]. rewrite Hl. exact Hc.
  - intros Hk Hb. apply Ha. unfold aligned in Hb. rewrite Hk in Hb. exact Hb.
Qed.

Definition wf_ex : wf_dims := mkWf (fun _ => 2) (fun _ => 0) (fun _ => 1) (fun _ => 0) (fun _ => 1) (fun _ => 1).
Lemma wf_ex_nns n i : 0 <= wf_nns (dims_ex n) wf_ex i.
Proof. unfold wf_nns; cbn. destruct i; cbn; lia. Qed.
