(** The carve-outs of LayoutSim.v fit in the announced sizes. *)
From Coq Require Import ZArith List String Lia Bool.
From Verif Require Import Layout LayoutProofs LayoutNlp LayoutNlpProofs LayoutSolver LayoutSolverProofs LayoutMod
  LayoutModProofs LayoutSim.
Import ListNotations.
Open Scope string_scope.
Open Scope Z_scope.

Ltac fin' := sums; repeat match goal with
  | |- context[make_int_multiple_of ?k ?s] =>
      let M := fresh "M" in pose proof (mim_ge k s) as M;
      let m := fresh "m" in set (m := make_int_multiple_of k s) in *; clearbody m
  | _ : context[make_int_multiple_of ?k ?s] |- _ =>
      let M := fresh "M" in pose proof (mim_ge k s) as M;
      let m := fresh "m" in set (m := make_int_multiple_of k s) in *; clearbody m
  end; try lia.

Definition sim_ok (d : sim_dims) : Prop :=
  0 <= s_nx d /\ 0 <= s_nu d /\ 0 <= s_nz d /\ 0 <= s_np d /\ 0 <= s_ny d /\
  0 <= g_nx1 d /\ g_nx1 d <= s_nx d /\ 0 <= g_nz1 d /\ g_nz1 d <= s_nz d /\ 0 <= g_nout d /\ 0 <= g_nuhat d.
Definition sopts_ok (o : sim_opts) : Prop := 0 <= s_ns o /\ 0 <= num_forw_sens o.

Lemma butcher_nn n : 0 <= n -> 0 <= butcher_work n.
Proof. intros H. unfold butcher_work, so_dbl, so_int. eapply Z.le_trans; [|apply mim_ge].
  destruct (_ >? _) eqn:G; [nia|]. unfold legendre_work, so_dbl; nia. Qed.
Lemma butcher_8 n : butcher_work n mod 8 = 0.
Proof. apply mim_mod; lia. Qed.

Lemma tableau_fits n : 0 <= n -> obj_fits (tableau_work_obj n).
Proof.
  intros H. unfold tableau_work_obj, tableau_ops; two.
  unfold butcher_work. eapply Z.le_trans; [|apply mim_ge]. unfold so_dbl, so_int.
  destruct (_ >? _) eqn:G; [nia|]. unfold legendre_work, so_dbl in *. rewrite Z.gtb_ltb, Z.ltb_ge in G. nia.
Qed.
Lemma legendre_fits n : 0 <= n -> obj_fits (legendre_work_obj n).
Proof.
  intros H. unfold legendre_work_obj, legendre_ops; two.
  unfold butcher_work. eapply Z.le_trans; [|apply mim_ge]. unfold so_dbl, so_int, legendre_work, so_dbl.
  destruct (_ >? _) eqn:G; [rewrite Z.gtb_ltb, Z.ltb_lt in G; nia|]. nia.
Qed.

Section P.
Variable E : cenv.
Hypothesis HE : env_ok E.
Variable d : sim_dims.
Hypothesis Hd : sim_ok d.
Variable o : sim_opts.
Hypothesis Ho : sopts_ok o.
Variable model : Z.
Hypothesis Hm : size_ok model.

Lemma nf_nn : 0 <= erk_nf o.
Proof. unfold erk_nf. destruct Ho. destruct (_ && _)%bool; lia. Qed.
Lemma nX_nn : 0 <= erk_nX d o.
Proof. unfold erk_nX. pose proof nf_nn. destruct Hd as (? & ? & ? & ? & _). destruct (sens_forw_p o); nia. Qed.
Lemma nhess_nn : 0 <= erk_nhess o.
Proof. unfold erk_nhess. pose proof nf_nn. apply Z.div_pos; nia. Qed.
Lemma nK_nn : 0 <= irk_nK d o.
Proof. unfold irk_nK. destruct Hd as (? & ? & ? & _), Ho. nia. Qed.

Ltac dd := destruct Hd as (? & ? & ? & ? & ? & ? & ? & ? & ? & ? & ?), Ho as [? ?];
  assert (Hst := Zle_0_nat (num_steps o)).
Lemma sim_in_fits : obj_fits (sim_in_obj E d model).
Proof. dd. destruct Hm. unfold sim_in_obj. two. fin'. Qed.
Lemma sim_out_fits : obj_fits (sim_out_obj E d).
Proof. dd. unfold sim_out_obj. two. fin'. Qed.
Lemma erk_opts_fits : obj_fits (erk_opts_obj E).
Proof. unfold erk_opts_obj, tableau_dbl, NS_MAX. two. fin'. Qed.
Lemma coll_opts_fits : obj_fits (irk_opts_obj E) /\ obj_fits (gnsf_opts_obj E).
Proof.
  assert (B := butcher_nn NS_MAX ltac:(unfold NS_MAX; lia)). assert (B8 := butcher_8 NS_MAX).
  unfold irk_opts_obj, gnsf_opts_obj, coll_opts_size, tableau_dbl in *.
  generalize dependent (butcher_work NS_MAX). intros b B B8. unfold NS_MAX. split; two; fin'.
Qed.
Lemma fun_model_fits s : obj_fits (fun_model_obj E s).
Proof. unfold fun_model_obj. two. fin'. Qed.
Lemma erk_mem_fits : obj_fits (erk_mem_obj E d o).
Proof. dd. unfold erk_mem_obj. two. destruct (sens_forw_p o); fin'. Qed.
Lemma erk_ws_fits : obj_fits (erk_ws_obj E d o).
Proof.
  pose proof nX_nn. pose proof nhess_nn. dd. unfold erk_ws_obj.
  generalize dependent (erk_nX d o); generalize dependent (erk_nhess o). intros nh ? nX ?.
  destruct (sens_adj o), (sens_hess o); cbn [orb]; two; fin'.
Qed.
Lemma irk_mem_fits : obj_fits (irk_mem_obj E d o).
Proof. dd. unfold irk_mem_obj. destruct (cost_computation o), (sens_forw_p o); cbn [when]; two; fin'. Qed.
Lemma lirk_mem_fits : obj_fits (lirk_mem_obj E d o).
Proof. dd. unfold lirk_mem_obj. two; fin'. Qed.
Lemma lirk_ws_fits : obj_fits (lirk_ws_obj E d o).
Proof. dd. unfold lirk_ws_obj. two; fin'. Qed.
Lemma gnsf_model_fits : obj_fits (gnsf_model_obj E d).
Proof. dd. unfold gnsf_model_obj. two; fin'. Qed.
Lemma gnsf_mem_fits : obj_fits (gnsf_mem_obj E d o).
Proof. dd. unfold gnsf_mem_obj. two; destruct (sens_algebraic o); fin'.
  all: pose proof (env_so E "blasfeo_dmat" HE); unfold so_int in *; nia. Qed.
Lemma ws_size_ge : gnsf_sim_size E d o <= gnsf_ws_size E d o /\ gnsf_pre_size E d o <= gnsf_ws_size E d o.
Proof. unfold gnsf_ws_size. destruct (_ >? _) eqn:G; rewrite Z.gtb_ltb in G;
  [apply Z.ltb_lt in G|apply Z.ltb_ge in G]; lia. Qed.
Lemma gnsf_pre_fits : obj_fits (gnsf_pre_obj E d o).
Proof.
  dd. unfold gnsf_pre_obj, gnsf_pre_ops. two. eapply Z.le_trans; [|exact (proj2 ws_size_ge)]. unfold gnsf_pre_size. fin'.
Qed.
Lemma gnsf_ws_fits : obj_fits (gnsf_ws_obj E d o).
Proof.
  dd. unfold gnsf_ws_obj, gnsf_sim_ops. two. eapply Z.le_trans; [|exact (proj1 ws_size_ge)]. unfold gnsf_sim_size. cbv zeta.
  rewrite (Z.mul_comm (s_nx d) (Z.of_nat (num_steps o) + 1)). fin'.
Qed.
End P.
