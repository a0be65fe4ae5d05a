(** The carve-outs of LayoutQp.v fit in the announced sizes. *)
From Coq Require Import ZArith List String Lia Bool.
From Verif Require Import Layout LayoutProofs LayoutNlp LayoutNlpProofs LayoutSolver LayoutSolverProofs LayoutQp.
Import ListNotations.
Open Scope string_scope.
Open Scope Z_scope.

(** The object fits, with every field aligned, from an 8-aligned base. *)
Definition obj_fits8 (ob : obj) : Prop := exists a n, fits true (o_ops ob) 8 a n /\ n <= o_size ob.
Lemma obj_fits8_carved ob base : obj_fits8 ob -> base mod 8 = 0 ->
  carved_within base (o_size ob) (blocks (o_ops ob) base) /\ Forall aligned (blocks (o_ops ob) base).
Proof. intros (a & n & H & L) Hb. split; [eapply fits_carved; [exact H|exact Hb|exact L]|eapply fits_aligned; [exact H|exact Hb]]. Qed.
Lemma obj8_nn ob : obj_fits8 ob -> 0 <= o_size ob.
Proof. intros (a & n & [G H] & L). destruct (H 0 eq_refl) as (A & _ & _). pose proof (good_finish _ 0 G). lia. Qed.

Section P.
Variable E : cenv.
Variable N : Z.
Variable dd : dqd.
Variable sd : spd.
Variable ci : Z.
Hypothesis HE : env_ok E.
Hypothesis HN : 0 <= N.
Hypothesis Hd : dqd_ok dd.
Hypothesis Hs : spd_ok sd.
Hypothesis Hci : ci = 4 \/ ci = 8.

Lemma h_ns : 0 <= q_ns dd. Proof. apply Hd. Qed.
Lemma h_nv : 0 <= q_nv dd. Proof. apply Hd. Qed.
Lemma h_ne : 0 <= q_ne dd. Proof. apply Hd. Qed.
Lemma h_nb : 0 <= q_nb dd. Proof. apply Hd. Qed.
Lemma h_ng : 0 <= q_ng dd. Proof. apply Hd. Qed.
Lemma h_n : 0 <= s_n sd. Proof. apply Hs. Qed.
Lemma h_m : 0 <= s_m sd. Proof. apply Hs. Qed.
Lemma h_P : 0 <= s_P sd. Proof. apply Hs. Qed.
Lemma h_A : 0 <= s_A sd. Proof. apply Hs. Qed.
Lemma h_ci : 0 <= ci. Proof. destruct Hci; lia. Qed.
Hint Resolve h_ns h_nv h_ne h_nb h_ng h_n h_m h_P h_A h_ci : lay.
Lemma h_nv2 : 0 <= nv2 dd. Proof. unfold nv2. nn. Qed.
Lemma h_nb2 : 0 <= nb2 dd. Proof. unfold nb2. nn. Qed.
Lemma h_ng2 : 0 <= ng2 dd. Proof. unfold ng2. nn. Qed.
Lemma h_qm : 0 <= q_m dd. Proof. unfold q_m. nn. Qed.
Lemma din_nn i : 0 <= dense_in_size E i. Proof. unfold dense_in_size. nn. Qed.
Lemma din_8 i : dense_in_size E i mod 8 = 0. Proof. unfold dense_in_size. md. Qed.
Lemma dout_nn i : 0 <= dense_out_size E i. Proof. unfold dense_out_size. nn. Qed.
Lemma dout_8 i : dense_out_size E i mod 8 = 0. Proof. unfold dense_out_size. md. Qed.
Lemma dsm_nn s h i : 0 <= dense_small_size E s h i. Proof. unfold dense_small_size. nn. Qed.
Lemma dsm_8 s h i : dense_small_size E s h i mod 8 = 0. Proof. unfold dense_small_size. md. Qed.
Lemma odim_nn : 0 <= ocp_dims_size E. Proof. unfold ocp_dims_size. nn. Qed.
Lemma odim_8 : ocp_dims_size E mod 8 = 0. Proof. unfold ocp_dims_size. md. Qed.
Hint Resolve h_nv2 h_nb2 h_ng2 h_qm din_nn din_8 dout_nn dout_8 dsm_nn dsm_8 odim_nn odim_8 : lay.
Lemma oin_nn i : 0 <= ocp_in_size E i. Proof. unfold ocp_in_size. nn. Qed.
Lemma oin_8 i : ocp_in_size E i mod 8 = 0. Proof. unfold ocp_in_size. md. Qed.
Lemma oout_nn i : 0 <= ocp_out_size E i. Proof. unfold ocp_out_size. nn. Qed.
Lemma oout_8 i : ocp_out_size E i mod 8 = 0. Proof. unfold ocp_out_size. md. Qed.
Lemma osm_nn s h i : 0 <= ocp_small_size E s h i. Proof. unfold ocp_small_size. nn. Qed.
Lemma osm_8 s h i : ocp_small_size E s h i mod 8 = 0. Proof. unfold ocp_small_size. md. Qed.
Lemma stk_nn : 0 <= stacked_size E dd. Proof. unfold stacked_size. nn. Qed.
Lemma stk_8 : stacked_size E dd mod 8 = 0. Proof. unfold stacked_size. destruct (0 <? q_ns dd); [apply din_8|reflexivity]. Qed.
Lemma qpr_nn : 0 <= qproblem_size E dd. Proof. unfold qproblem_size. nn. Qed.
Lemma qpr_8 : qproblem_size E dd mod 8 = 0. Proof. unfold qproblem_size. md. Qed.
Hint Resolve oin_nn oin_8 oout_nn oout_8 osm_nn osm_8 stk_nn stk_8 qpr_nn qpr_8 : lay.

Ltac one := unfold obj_fits8; cbn [o_ops o_size]; eexists; eexists; split; [repeat lay1|].
Ltac fin := try (eapply Z.le_trans; [|apply mim_ge]); sums; try lia.
Ltac each := repeat apply Forall_cons; try apply Forall_nil.

Lemma dense_fit : Forall obj_fits8 (dense_objects E).
Proof.
  unfold dense_objects, dense_seed_obj, dense_res_obj, dense_res_ws_obj; cbn [map app]; each.
  all: unfold dense_config_obj, dense_dims_obj, dense_in_obj, dense_out_obj, dense_small_obj, dense_in_size, dense_out_size, dense_small_size; one; fin.
Qed.
Lemma ocp_fit : Forall obj_fits8 (ocp_objects E).
Proof.
  unfold ocp_objects, ocp_seed_obj, ocp_res_obj, ocp_res_ws_obj; cbn [map app]; each.
  all: unfold ocp_config_obj, cond_config_obj, ocp_dims_obj, ocp_in_obj, ocp_out_obj, ocp_small_obj; one.
  all: unfold ocp_in_size, ocp_out_size, ocp_small_size; fin.
  unfold ocp_dims_size. pose proof (mim_ge 8 (so E "ocp_qp_dims" + sub E "d_ocp_qp_dim" 0)). lia.
Qed.
Lemma cdims_fit : Forall obj_fits8 (cond_dims_objects E N).
Proof. unfold cond_dims_objects; each; unfold fcond_dims_obj, pcond_dims_obj, fcond_dims_size, pcond_dims_size; one; fin. Qed.
Lemma copts_fit : Forall obj_fits8 (cond_opts_objects E N).
Proof. unfold cond_opts_objects; each; unfold fcond_opts_obj, pcond_opts_obj, fcond_opts_size, pcond_opts_size; one; fin. Qed.
Lemma cmem_fit : Forall obj_fits8 (cond_mem_objects E).
Proof. unfold cond_mem_objects; each; unfold fcond_mem_obj, pcond_mem_obj, fcond_mem_size, pcond_mem_size; one; fin. Qed.
Lemma qopts_fit : Forall obj_fits8 (qp_opts_objects E).
Proof.
  unfold qp_opts_objects, dense_hpipm_opts_obj, ocp_hpipm_opts_obj; each.
  all: unfold hpipm_obj, qpoases_opts_obj, daqp_opts_obj, osqp_opts_obj, clarabel_opts_obj, hpipm_size; one; fin.
Qed.
Lemma qmem_fit : Forall obj_fits8 (qp_mem_objects E dd sd).
Proof.
  unfold qp_mem_objects, dense_hpipm_mem_obj, ocp_hpipm_mem_obj; each.
  all: unfold hpipm_obj, hpipm_size, qpoases_mem_obj, qpoases_mem_size, qpoases_mem_ops, clarabel_mem_obj, clarabel_mem_ops, clarabel_mem_size; cbv zeta; one; fin.
Qed.

(** *** DAQP *)
Lemma tri_nn k : 0 <= k -> 0 <= (k + 2) * (k + 1) / 2.
Proof. intros H. apply Z.div_pos; nia. Qed.
Lemma tri_h : 0 <= (q_nv dd + q_ns dd + 2) * (q_nv dd + q_ns dd + 1) / 2.
Proof. apply tri_nn. nn. Qed.
Hint Resolve tri_h : lay.
Lemma dw_nn : 0 <= daqp_work_size E (q_nv dd) (q_m dd) 0 (q_ns dd).
Proof. unfold daqp_work_size. rewrite Z.sub_0_r. nn. Qed.
Lemma dw_8 : daqp_work_size E (q_nv dd) (q_m dd) 0 (q_ns dd) mod 8 = 0.
Proof. unfold daqp_work_size. md. Qed.
Hint Resolve dw_nn dw_8 : lay.
Lemma dw_fit : obj_fits8 (daqp_work_obj E dd).
Proof.
  unfold daqp_work_obj, daqp_work_ops, daqp_work_size. rewrite Z.sub_0_r. cbv zeta. 
  pose proof tri_h. set (T := (q_nv dd + q_ns dd + 2) * (q_nv dd + q_ns dd + 1) / 2) in *. one. fin.
Qed.
Lemma daqp_any : exists a n, fits false (o_ops (daqp_mem_obj E dd)) 8 a n /\ n <= o_size (daqp_mem_obj E dd).
Proof.
  cbn [daqp_mem_obj o_ops o_size]. unfold daqp_mem_size, daqp_mem_head, daqp_mem_slack, daqp_mem_tail, daqp_align. cbv zeta. cbn [repeat app].
  eexists; eexists; split; [repeat lay1|]. fin.
Qed.
Lemma daqp_even : Z.even (q_ns dd) = true -> obj_fits8 (daqp_mem_obj E dd).
Proof.
  intros Hev. assert (M : (q_ns dd * 1 * so_int) mod 8 = 0).
  { apply Z.even_spec in Hev. destruct Hev as [k ->]. replace (2 * k * 1 * so_int) with (k * 8) by (unfold so_int; lia). apply Z.mod_mul; lia. }
  unfold daqp_mem_obj, daqp_mem_size, daqp_mem_head, daqp_mem_slack, daqp_mem_tail, daqp_align. cbv zeta. cbn [repeat app].
  unfold obj_fits8; cbn [o_ops o_size]; eexists; eexists; split.
  - do 9 lay1. eapply (fits_take _ _ _ _ _ 8); [nn|lia|lia|div_solve|exact M|intros _; cbn [kind_align]; exists 2; lia|]. repeat lay1.
  - fin.
Qed.
(** the first of the six arrays of doubles starts 4 bytes off for an odd number of slacks *)
Lemma daqp_odd base : Z.odd (q_ns dd) = true -> base mod 8 = 0 ->
  exists b, In b (blocks (o_ops (daqp_mem_obj E dd)) base) /\ blk_kind b = KDouble /\ blk_len b = 8 * q_ns dd /\ blk_start b mod 8 = 4.
Proof.
  intros Hod Hb. set (p := finish (daqp_mem_head E dd) base).
  exists (mkBlock KDouble p (q_ns dd * 1 * so_dbl)). cbn [blk_kind blk_len blk_start].
  split; [|split; [reflexivity|split; [unfold so_dbl; lia|]]].
  - cbn [daqp_mem_obj o_ops]. rewrite blocks_app. apply in_or_app. right. fold p. rewrite blocks_app. apply in_or_app. left.
    unfold daqp_mem_slack. cbn [repeat]. rewrite blocks_take. left. reflexivity.
  - unfold p, daqp_mem_head. cbv zeta. rewrite !finish_take. unfold finish; cbn [carve snd].
    match goal with |- (?q + q_ns dd * 1 * so_int) mod 8 = 4 => assert (M : q mod 8 = 0) end.
    { repeat (apply mod_add; [lia| |md]). exact Hb. }
    rewrite Z.add_mod, M by lia. apply Z.odd_spec in Hod. destruct Hod as [k Hk]. rewrite Hk.
    replace ((2 * k + 1) * 1 * so_int) with (4 + k * 8) by (unfold so_int; lia). rewrite Z_mod_plus_full. reflexivity.
Qed.

(** *** OSQP *)
Lemma ow_nn : 0 <= osqp_work_size E ci (s_n sd) (s_m sd) (s_P sd) (s_A sd).
Proof. unfold osqp_work_size. nn. Qed.
Hint Resolve ow_nn : lay.
Lemma ow_8 : ci = 8 -> osqp_work_size E ci (s_n sd) (s_m sd) (s_P sd) (s_A sd) mod 8 = 0.
Proof. intros ->. unfold osqp_work_size. md. Qed.
Lemma ow_4 : osqp_work_size E ci (s_n sd) (s_m sd) (s_P sd) (s_A sd) mod 4 = 0.
Proof. destruct Hci as [-> | ->]; unfold osqp_work_size; md. Qed.
Lemma ow_fit : obj_fits8 (osqp_work_obj E sd ci).
Proof.
  destruct Hci as [-> | ->]; unfold osqp_work_obj, osqp_work_ops, osqp_work_size, KCint; cbn [Z.eqb Pos.eqb]; cbv zeta; one; fin.
Qed.
Lemma om_8 : ci = 8 -> obj_fits8 (osqp_mem_obj E sd ci).
Proof.
  intros Hc. pose proof (ow_8 Hc) as M. pose proof ow_nn as Q. revert M Q. 
  unfold osqp_mem_obj, osqp_mem_head, osqp_mem_tail, osqp_mem_size, KCint. rewrite Hc. cbn [Z.eqb Pos.eqb]; cbv zeta; cbn [app].
  set (w := osqp_work_size _ _ _ _ _ _). intros M Q. one. fin.
Qed.
Lemma om_any : exists a n, fits false (o_ops (osqp_mem_obj E sd ci)) 8 a n /\ n <= o_size (osqp_mem_obj E sd ci).
Proof.
  pose proof ow_4 as M. pose proof ow_nn as Q. revert M Q.
  cbn [osqp_mem_obj o_ops o_size]. unfold osqp_mem_head, osqp_mem_tail, osqp_mem_size.
  set (w := osqp_work_size _ _ _ _ _ _). intros M Q. unfold KCint.
  destruct Hci as [-> | ->]; cbn [Z.eqb Pos.eqb]; cbv zeta; cbn [app]; eexists; eexists; (split; [repeat lay1|]); fin.
Qed.
(** with 4-byte integers and an odd number of nonzeros everything after them is 4 bytes off *)
Lemma om_odd base : ci = 4 -> Z.odd (s_P sd + s_A sd) = true -> base mod 8 = 0 ->
  Forall (fun b => blk_kind b = KStruct \/ blk_kind b = KSub8) (blocks (osqp_mem_tail E sd ci) (finish (osqp_mem_head E sd ci) base)) /\
  Forall (fun b => blk_start b mod 8 = 4) (blocks (osqp_mem_tail E sd ci) (finish (osqp_mem_head E sd ci) base)).
Proof.
  intros -> Hod Hb. unfold osqp_mem_tail. split.
  { rewrite !blocks_take. unfold blocks; cbn [carve fst]. repeat apply Forall_cons; try apply Forall_nil; cbn [blk_kind]; auto. }
  assert (S : finish (osqp_mem_head E sd 4) base mod 8 = 4).
  { unfold osqp_mem_head, KCint. cbn [Z.eqb Pos.eqb]; cbv zeta. rewrite finish_take.
    match goal with |- finish (Align 8 :: ?r) ?p mod 8 = 4 => change (finish (Align 8 :: r) p) with (finish r (align_char_to 8 p)) end.
    rewrite !finish_take. unfold finish; cbn [carve snd].
    set (q := align_char_to 8 (base + so E "ocp_qp_osqp_memory")).
    assert (Q : q mod 8 = 0) by (apply align_mod; lia).
    apply Z.odd_spec in Hod. destruct Hod as [k Hk].
    apply Z.mod_divide in Q; [|lia]. destruct Q as [j Hj].
    match goal with |- ?x mod 8 = 4 => replace x with (4 + (j + s_n sd + 2 * s_m sd + s_P sd + s_A sd + s_n sd + 1 + k) * 8) by (rewrite Hj; unfold so_dbl; lia) end.
    rewrite Z_mod_plus_full. reflexivity. }
  set (p := finish _ base) in *. rewrite !blocks_take. unfold blocks; cbn [carve fst].
  assert (T : forall s x, x mod 8 = 4 -> (x + so E s) mod 8 = 4).
  { intros s x Hx. rewrite Z.add_mod, Hx by lia. rewrite (env_so8 E s HE). reflexivity. }
  repeat apply Forall_cons; try apply Forall_nil; cbn [blk_start]; repeat apply T; exact S.
Qed.

(** *** condensing solver *)
Lemma xc_fit c s : 0 <= c -> c mod 8 = 0 -> 0 <= s -> s mod 8 = 0 ->
  Forall obj_fits8 [xcond_config_obj E; xcond_dims_obj E c; xcond_opts_obj E c s; xcond_mem_obj E c s; xcond_ws_obj E].
Proof.
  intros C1 C8 S1 S8. each; unfold xcond_config_obj, xcond_dims_obj, xcond_opts_obj, xcond_mem_obj, xcond_ws_obj; one; fin.
Qed.
(** *** sizes *)
Definition size8 (ob : obj) : Prop := 0 <= o_size ob /\ o_size ob mod 8 = 0.
Lemma fit_size8 l : Forall obj_fits8 l -> Forall (fun ob => o_size ob mod 8 = 0) l -> Forall size8 l.
Proof. intros F G. rewrite Forall_forall in *. intros x Hx. split; [apply obj8_nn, F, Hx|apply G, Hx]. Qed.
Ltac szs := each; cbn [o_size]; md.
Lemma dense_8 : Forall size8 (dense_objects E).
Proof.
  apply fit_size8; [apply dense_fit|]. unfold dense_objects, dense_seed_obj, dense_res_obj, dense_res_ws_obj; cbn [map app].
  unfold dense_config_obj, dense_dims_obj, dense_in_obj, dense_out_obj, dense_small_obj. szs.
Qed.
Lemma ocp_8 : Forall size8 (ocp_objects E).
Proof.
  apply fit_size8; [apply ocp_fit|]. unfold ocp_objects, ocp_seed_obj, ocp_res_obj, ocp_res_ws_obj; cbn [map app].
  unfold ocp_config_obj, cond_config_obj, ocp_dims_obj, ocp_in_obj, ocp_out_obj, ocp_small_obj. szs.
Qed.
Lemma cdims_8 : Forall size8 (cond_dims_objects E N).
Proof. apply fit_size8; [apply cdims_fit|]. unfold cond_dims_objects, fcond_dims_obj, pcond_dims_obj, fcond_dims_size, pcond_dims_size. szs. Qed.
Lemma copts_8 : Forall size8 (cond_opts_objects E N).
Proof. apply fit_size8; [apply copts_fit|]. unfold cond_opts_objects, fcond_opts_obj, pcond_opts_obj, fcond_opts_size, pcond_opts_size. szs. Qed.
Lemma cmem_8 : Forall size8 (cond_mem_objects E).
Proof. apply fit_size8; [apply cmem_fit|]. unfold cond_mem_objects, fcond_mem_obj, pcond_mem_obj, fcond_mem_size, pcond_mem_size. szs. Qed.
Lemma qopts_8 : Forall size8 (qp_opts_objects E).
Proof.
  apply fit_size8; [apply qopts_fit|]. unfold qp_opts_objects, dense_hpipm_opts_obj, ocp_hpipm_opts_obj, hpipm_obj, hpipm_size, qpoases_opts_obj, daqp_opts_obj, osqp_opts_obj, clarabel_opts_obj. szs.
Qed.
Lemma qmem_8 : Forall size8 (qp_mem_objects E dd sd).
Proof.
  apply fit_size8; [apply qmem_fit|]. unfold qp_mem_objects, dense_hpipm_mem_obj, ocp_hpipm_mem_obj, hpipm_obj, hpipm_size, qpoases_mem_obj, qpoases_mem_size, clarabel_mem_obj, clarabel_mem_size. cbv zeta. szs.
Qed.
Lemma daqp_8 : size8 (daqp_mem_obj E dd).
Proof.
  split; [|cbn [daqp_mem_obj o_size]; unfold daqp_mem_size; md].
  destruct daqp_any as (a & n & [G H] & L). destruct (H 0 eq_refl) as (A & _ & _). pose proof (good_finish _ 0 G). lia.
Qed.
Lemma osqp_8 : ci = 8 -> size8 (osqp_mem_obj E sd ci).
Proof.
  intros Hc. split; [apply obj8_nn, om_8, Hc|]. cbn [osqp_mem_obj o_size]. unfold osqp_mem_size. pose proof (ow_8 Hc) as M. revert M. set (w := osqp_work_size _ _ _ _ _ _). rewrite Hc. intros M. md.
Qed.
End P.
