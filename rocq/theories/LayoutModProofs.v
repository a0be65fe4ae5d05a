(** The carve-outs of LayoutMod.v fit in the announced sizes. *)
From Coq Require Import ZArith List String Lia Bool.
From Verif Require Import Layout LayoutProofs LayoutNlp LayoutNlpProofs LayoutSolver LayoutSolverProofs LayoutMod.
Import ListNotations.
Open Scope string_scope.
Open Scope Z_scope.

Lemma fits_when_c chk (b : bool) l al al' n : 0 < al -> 0 < al' -> (al' | al) ->
  fits chk l al al' n -> fits chk (when b l) al al' (if b then n else 0).
Proof. intros Ha Ha' Hd H. destruct b; cbn; [exact H|].
  eapply fits_coarsen; [exact Ha|exact Ha'|exact Hd|apply fits_nil]. Qed.
Ltac lay1' := first [ lay1 |
  match goal with
  | |- fits _ (when _ _ ++ _) ?a _ _ =>
      eapply (fits_app _ _ _ a 8); [apply fits_when_c; [lia|lia|div_solve|lay_all]|]
  | |- fits _ (when _ _) ?a _ _ => first [apply fits_when; lay_all | apply (fits_when_c _ _ _ a 8); [lia|lia|div_solve|lay_all]]
  end ].
Ltac two := unfold obj_fits; cbn [o_ops o_size]; split;
  [eexists; eexists; split; [repeat lay1'|] | eexists; eexists; repeat lay1'].
Ltac fin := try (eapply Z.le_trans; [|apply mim_ge]); sums; try lia.

Definition bgh_ok (h : bgh_dims) : Prop :=
  0 <= h_nx h /\ 0 <= h_nu h /\ 0 <= h_nz h /\ 0 <= h_nb h /\ 0 <= h_ng h /\ 0 <= h_nh h /\ 0 <= h_ns h
  /\ 0 <= h_npg h /\ 0 <= h_nbue h /\ 0 <= h_nbxe h /\ 0 <= h_nge h /\ 0 <= h_nhe h.
Definition cost_ok (c : cost_dims) : Prop :=
  0 <= c_nx c /\ 0 <= c_nz c /\ 0 <= c_nu c /\ 0 <= c_ny c /\ 0 <= c_ns c /\ 0 <= c_npg c.
Definition dyn_ok (y : dyn_dims) : Prop :=
  0 <= y_nx y /\ 0 <= y_nu y /\ 0 <= y_nx1 y /\ 0 <= y_npg y.
Definition size_ok (z : Z) : Prop := 0 <= z /\ z mod 8 = 0.

Ltac each := repeat apply Forall_cons; try apply Forall_nil.

Section P.
Variable E : cenv.
Hypothesis HE : env_ok E.
Variables sens_f sens_a : bool.

Section H.
Variable h : bgh_dims.
Variable nr : Z.
Hypothesis Hh : bgh_ok h.
Hypothesis Hr : 0 <= nr.

Lemma constraint_objects_fit : Forall obj_fits (constraint_objects E h sens_f sens_a nr).
Proof.
  destruct Hh as (? & ? & ? & ? & ? & ? & ? & ? & ? & ? & ? & ?).
  unfold constraint_objects. each.
  - unfold bgh_dims_obj; two. fin.
  - unfold bgh_model_obj; two. fin.
  - unfold bgh_opts_obj; two. fin.
  - unfold bgh_mem_obj; two. fin.
  - unfold bgh_ws_obj; two. destruct sens_f, sens_a, (0 <? h_nz h), (0 <? h_nh h); fin.
  - unfold bgp_dims_obj; two. fin.
  - unfold bgp_model_obj; two. fin.
  - unfold bgp_opts_obj; two. fin.
  - unfold bgp_mem_obj; two. fin.
  - unfold bgp_ws_obj; two. fin.
Qed.
End H.

Section C.
Variable c : cost_dims.
Hypothesis Hc : cost_ok c.
Lemma cost_objects_fit : Forall obj_fits (cost_objects E sens_f sens_a c).
Proof.
  destruct Hc as (? & ? & ? & ? & ? & ?).
  unfold cost_objects. each.
  1-4: unfold cost_dims_obj; two; fin.
  1-4: unfold cost_opts_obj; two; fin.
  - unfold ls_mem_obj; two. fin.
  - unfold ls_ws_obj; two. fin.
  - unfold nls_model_obj; two. fin.
  - unfold nls_mem_obj; two. fin.
  - unfold nls_ws_obj; two. fin.
  - unfold conl_model_obj; two. fin.
  - unfold conl_mem_obj; two. fin.
  - unfold conl_ws_obj; two. fin.
  - unfold ext_model_obj; two. fin.
  - unfold ext_mem_obj; two. fin.
  - unfold ext_ws_obj; two. destruct sens_f, sens_a; fin.
Qed.
(** the least-squares model fits if a transposed matrix needs no more memory *)
Lemma ls_model_fits : ms_dmat E (c_ny c) (c_nz c) <= ms_dmat E (c_nz c) (c_ny c) -> obj_fits (ls_model_obj E c).
Proof.
  destruct Hc as (? & ? & ? & ? & ? & ?). intros Ht.
  unfold ls_model_obj; two. fin.
Qed.
End C.

Section D.
Variable y : dyn_dims.
Hypothesis Hy : dyn_ok y.
Variables sim_dims sim_opts sim_mem sim_ws sim_model sim_in sim_out : Z.
Hypothesis H1 : 0 <= sim_dims /\ sim_dims mod 4 = 0.
Hypothesis H2 : size_ok sim_opts.
Hypothesis H3 : size_ok sim_mem.
Hypothesis H4 : size_ok sim_ws.
Hypothesis H5 : size_ok sim_model.
Hypothesis H6 : size_ok sim_in.
Hypothesis H7 : size_ok sim_out.
Lemma dynamics_objects_fit :
  Forall obj_fits (dynamics_objects E sens_a y sim_dims sim_opts sim_mem sim_ws sim_model sim_in sim_out).
Proof.
  destruct Hy as (? & ? & ? & ?).
  destruct H1, H2, H3, H4, H5, H6, H7.
  unfold dynamics_objects. each.
  - unfold cont_dims_obj; two. fin.
  - unfold cont_opts_obj; two. fin.
  - unfold cont_mem_obj; two. fin.
  - unfold cont_ws_obj; two. fin.
  - unfold cont_model_obj; two. fin.
  - unfold disc_dims_obj; two. fin.
  - unfold disc_opts_obj; two. fin.
  - unfold disc_mem_obj; two. fin.
  - unfold disc_ws_obj; two. destruct sens_a; fin.
  - unfold disc_model_obj; two. fin.
Qed.
End D.

Lemma param_generic_fits n : 0 <= n -> obj_fits (param_generic_obj n).
Proof. intros H. unfold param_generic_obj; two. fin. Qed.
Lemma casadi_fits na nr asz rsz iw fw extw :
  (forall i, 0 <= asz i) -> (forall i, 0 <= rsz i) -> 0 <= iw -> 0 <= fw ->
  obj_fits (casadi_obj na nr asz rsz iw fw extw).
Proof.
  intros Ha Hr Hi Hf. unfold casadi_obj; two.
  assert (A : forall n g, zsum n (fun i => g i * so_dbl) = zsum n g * so_dbl).
  { intros n g. induction n as [|m IH]; cbn [zsum]; [reflexivity|]. rewrite IH. lia. }
  sums. rewrite !A. eapply Z.le_trans; [|apply mim_ge]. destruct extw; cbn [negb]; lia.
Qed.
End P.
