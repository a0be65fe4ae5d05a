(** Carve-outs of ocp_nlp_common.c fit in their announced sizes. *)
From Coq Require Import ZArith List String Lia.
From Verif Require Import Layout LayoutProofs LayoutNlp.
Import ListNotations.
Open Scope Z_scope.

Lemma fits_when chk (b : bool) l al n :
  fits chk l al al n -> fits chk (when b l) al al (if b then n else 0).
Proof. destruct b; cbn; [auto|]. intros _. apply fits_nil. Qed.

Lemma fits_if chk (b : bool) l1 l2 al al1 n m :
  fits chk l1 al al1 n -> fits chk l2 al al1 m ->
  fits chk (if b then l1 else l2) al al1 (if b then n else m).
Proof. destruct b; auto. Qed.

Ltac lay_take := match goal with
  | |- fits _ (Take ?k ?l :: _) ?a _ _ => first [take_to a | take_to 8 | take_to 4 | take_to 1]
  end.

Ltac lay1 :=
  match goal with
  | |- fits _ [] _ _ _ => apply fits_nil
  | |- fits _ (Align ?k :: _) _ _ _ => al_step k
  | |- fits _ (Take _ _ :: _) _ _ _ => lay_take
  | |- fits _ (if _ then _ else _) _ _ _ => eapply fits_if
  | |- fits _ ((if _ then _ else _) ++ _) ?a _ _ =>
      first [ eapply (fits_app _ _ _ a a); [eapply fits_if; [lay_all|lay_all]|]
            | eapply (fits_weaken _ _ a 8); [lia|lia|div_solve|
                eapply (fits_app _ _ _ 8 8); [eapply fits_if; [lay_all|lay_all]|]] ]
  | |- fits _ ([] ++ _) _ _ _ => cbn [app]
  | |- fits _ ((_ :: _) ++ _) _ _ _ => cbn [app]
  | |- fits _ ((_ ++ _) ++ _) _ _ _ => rewrite <- app_assoc
  | |- fits _ (for_ops _ _ ++ _) ?a _ _ =>
      first [ eapply (fits_app _ _ _ a a); [apply fits_for; intros ? ?; lay_all|]
            | eapply (fits_weaken _ _ a 8); [lia|lia|div_solve|
                eapply (fits_app _ _ _ 8 8); [apply fits_for; intros ? ?; lay_all|]] ]
  | |- fits _ (for_ops _ _) ?a _ _ =>
      first [ apply (fits_for _ _ _ a); intros ? ?; lay_all
            | eapply (fits_weaken _ _ a 8); [lia|lia|div_solve| apply (fits_for _ _ _ 8); intros ? ?; lay_all] ]
  | |- fits _ (when _ _ ++ _) ?a _ _ =>
      eapply (fits_app _ _ _ a a); [apply fits_when; lay_all|]
  end
with lay_all := solve [repeat lay1].

Ltac sums := repeat (first [rewrite zsum_S | rewrite zsum_plus | rewrite zsum_scal | rewrite zsum_const]); cbn beta.

Section P.
Variable E : cenv.
Variable d : nlp_dims.
Hypothesis HE : env_ok E.
Hypothesis Hd : dims_ok d.

Lemma nn_nv i : 0 <= nv d i. Proof. destruct Hd as [H _]; apply (H i). Qed.
Lemma nn_nx i : 0 <= nx d i. Proof. destruct Hd as [H _]; apply (H i). Qed.
Lemma nn_nu i : 0 <= nu d i. Proof. destruct Hd as [H _]; apply (H i). Qed.
Lemma nn_nz i : 0 <= nz d i. Proof. destruct Hd as [H _]; apply (H i). Qed.
Lemma nn_ns i : 0 <= ns d i. Proof. destruct Hd as [H _]; apply (H i). Qed.
Lemma nn_np i : 0 <= np d i. Proof. destruct Hd as [H _]; apply (H i). Qed.
Lemma nn_ni i : 0 <= ni d i. Proof. destruct Hd as [H _]; apply (H i). Qed.
Lemma nn_ni_nl i : 0 <= ni_nl d i. Proof. destruct Hd as [H _]; apply (H i). Qed.
Lemma nn_npg : 0 <= np_global d. Proof. apply Hd. Qed.
Lemma nn_ngd : 0 <= n_global_data d. Proof. apply Hd. Qed.
Hint Resolve nn_nv nn_nx nn_nu nn_nz nn_ns nn_np nn_ni nn_ni_nl nn_npg nn_ngd : lay.

Lemma out_fits : exists n, fits true (out_assign E d) 1 8 n /\ n <= out_size E d.
Proof.
  eexists. split; [unfold out_assign; repeat lay1|].
  unfold out_size. eapply Z.le_trans; [|apply mim_ge].
  sums. lia.
Qed.

Lemma res_fits : exists n, fits true (res_assign E d) 1 8 n /\ n <= res_size E d.
Proof.
  eexists. split; [unfold res_assign; repeat lay1|].
  unfold res_size. eapply Z.le_trans; [|apply mim_ge]. sums. lia.
Qed.

Lemma in_fits : exists n, fits true (in_assign E d) 1 8 n /\ n <= in_size E d.
Proof.
  eexists. split; [unfold in_assign; repeat lay1|].
  unfold in_size. eapply Z.le_trans; [|apply mim_ge]. sums. lia.
Qed.

Lemma opts_fits : exists n, fits true (opts_assign E d) 1 8 n /\ n <= opts_size E d.
Proof.
  eexists. split; [unfold opts_assign, opts_assign_with; repeat lay1|].
  unfold opts_size, opts_size_with. sums. lia.
Qed.

Lemma config_fits : exists n, fits true (config_assign E d) 8 8 n /\ n <= config_size E d.
Proof.
  eexists. split; [unfold config_assign; repeat lay1|].
  unfold config_size. sums. lia.
Qed.

Lemma out_size_nn : 0 <= out_size E d.
Proof. unfold out_size; nn. Qed.
Lemma res_size_nn : 0 <= res_size E d.
Proof. unfold res_size; nn. Qed.
Lemma out_size_8 : out_size E d mod 8 = 0.
Proof. apply mim_mod; lia. Qed.
Lemma res_size_8 : res_size E d mod 8 = 0.
Proof. apply mim_mod; lia. Qed.
Hint Resolve out_size_nn res_size_nn out_size_8 res_size_8 : lay.

Lemma mem_fits o : exists n, fits true (mem_assign E d o) 1 8 n /\ n <= mem_size E d o.
Proof.
  eexists. split; [unfold mem_assign; repeat lay1|].
  unfold mem_size. eapply Z.le_trans; [|apply mim_ge]. sums.
  destruct (with_anderson o), (store_iterates o), (sens_forw o), (log_primal o), (log_dual o);
  unfold so_bool; lia.
Qed.

Lemma zmax_nn n f : 0 <= zmax n f.
Proof. induction n as [|m IH]; cbn; lia. Qed.
Lemma zmax_le n f i : (i < n)%nat -> f i <= zmax n f.
Proof. induction n as [|m IH]; cbn; intros Hi; [lia|]. 
  destruct (Nat.eq_dec i m) as [->|Hne]; [lia|]. specialize (IH ltac:(lia)). lia. Qed.
Lemma zmax_in n f : zmax n f = 0 \/ exists i, (i < n)%nat /\ zmax n f = f i.
Proof. induction n as [|m IH]; cbn; [left; reflexivity|].
  destruct (Z.max_spec (zmax m f) (f m)) as [[_ ->]|[_ ->]].
  - right; exists m; split; [lia|reflexivity].
  - destruct IH as [->|(i&Hi&->)]; [left; reflexivity|right; exists i; split; [lia|reflexivity]].
Qed.
Lemma max_mod a b k : a mod k = 0 -> b mod k = 0 -> Z.max a b mod k = 0.
Proof. destruct (Z.max_spec a b) as [[_ ->]|[_ ->]]; auto. Qed.
Lemma zmax_mod n f k : 0 < k -> (forall i, f i mod k = 0) -> zmax n f mod k = 0.
Proof. intros Hk H. destruct (zmax_in n f) as [->|(i&_&->)]; [apply Z.mod_0_l; lia|apply H]. Qed.

Lemma module_ws_nn o : 0 <= module_ws_size E d o.
Proof. unfold module_ws_size. destruct (shared_ws o); [|nn].
  pose proof (env_sub E "qp_solver_ws" 0 HE). lia. Qed.
Lemma module_ws_8 o : module_ws_size E d o mod 8 = 0.
Proof. unfold module_ws_size. destruct (shared_ws o); [|md].
  repeat apply max_mod; try apply zmax_mod; try lia; intros; apply env_sub8; assumption. Qed.
Lemma ext_ws_nn o : 0 <= ext_ws_size E d o.
Proof. unfold ext_ws_size. destruct (shared_ws o); [|nn].
  pose proof (zmax_nn (S (dN d)) (sub E "constraints_ext_ws")). lia. Qed.
Lemma ext_ws_8 o : ext_ws_size E d o mod 8 = 0.
Proof. unfold ext_ws_size. destruct (shared_ws o); [|md].
  repeat apply max_mod; try apply zmax_mod; try lia; intros; apply env_sub8; assumption. Qed.
Lemma nn_nvmax : 0 <= nv_max d. Proof. apply zmax_nn. Qed.
Lemma nn_nxmax : 0 <= nx_max d. Proof. apply zmax_nn. Qed.
Lemma nn_nimax : 0 <= ni_max d. Proof. apply zmax_nn. Qed.
Lemma nn_nsmax : 0 <= ns_max d. Proof. apply zmax_nn. Qed.
Hint Resolve module_ws_nn module_ws_8 ext_ws_nn ext_ws_8 nn_nvmax nn_nxmax nn_nimax nn_nsmax : lay.

(** started at an 8-byte boundary every block is aligned *)
Lemma ws_fits o : exists n, fits true (ws_assign E d o) 8 8 n /\ n <= ws_size E d o.
Proof.
  eexists. split; [unfold ws_assign; repeat lay1|].
  unfold ws_size. 
  unfold module_ws_size, ext_ws_size. destruct (shared_ws o), (ext_qp_res o); sums; lia.
Qed.
(** from any base address nothing overruns *)
Lemma ws_fits_any o : exists n, fits false (ws_assign E d o) 1 8 n /\ n <= ws_size E d o.
Proof.
  eexists. split; [unfold ws_assign; repeat lay1|].
  unfold ws_size. 
  unfold module_ws_size, ext_ws_size. destruct (shared_ws o), (ext_qp_res o); sums; lia.
Qed.
Lemma config_fits_any : exists n, fits false (config_assign E d) 1 1 n /\ n <= config_size E d.
Proof.
  eexists. split; [unfold config_assign; repeat lay1|].
  unfold config_size. sums. lia.
Qed.

(** each module workspace fits into the shared block *)
Lemma shared_ws_covers o : shared_ws o = true ->
  sub E "qp_solver_ws" 0 <= module_ws_size E d o /\
  (forall i, (i < dN d)%nat -> sub E "dynamics_ws" i <= module_ws_size E d o) /\
  (forall i, (i <= dN d)%nat -> sub E "cost_ws" i <= module_ws_size E d o) /\
  (forall i, (i <= dN d)%nat -> sub E "constraints_ws" i <= module_ws_size E d o) /\
  (forall i, (i <= dN d)%nat -> sub E "constraints_ext_ws" i <= ext_ws_size E d o) /\
  (forall i, (i <= dN d)%nat -> sub E "cost_ext_ws" i <= ext_ws_size E d o) /\
  (forall i, (i < dN d)%nat -> sub E "dynamics_ext_ws" i <= ext_ws_size E d o).
Proof.
  intros Hs. unfold module_ws_size, ext_ws_size. rewrite Hs.
  split; [lia|]. 
  repeat split; intros i Hi.
  - pose proof (zmax_le (dN d) (sub E "dynamics_ws") i Hi). lia.
  - pose proof (zmax_le (S (dN d)) (sub E "cost_ws") i ltac:(lia)). lia.
  - pose proof (zmax_le (S (dN d)) (sub E "constraints_ws") i ltac:(lia)). lia.
  - pose proof (zmax_le (S (dN d)) (sub E "constraints_ext_ws") i ltac:(lia)). lia.
  - pose proof (zmax_le (S (dN d)) (sub E "cost_ext_ws") i ltac:(lia)). lia.
  - pose proof (zmax_le (dN d) (sub E "dynamics_ext_ws") i Hi). lia.
Qed.

Lemma reg_dims_nn : 0 <= reg_dims_size E d.
Proof. unfold reg_dims_size; nn. Qed.
Lemma reg_dims_4 : reg_dims_size E d mod 4 = 0.
Proof. unfold reg_dims_size; md. Qed.
Lemma qps_dims_nn : 0 <= qpscaling_dims_size E d.
Proof. unfold qpscaling_dims_size; nn. Qed.
Lemma qps_dims_8 : qpscaling_dims_size E d mod 8 = 0.
Proof. unfold qpscaling_dims_size; md. Qed.
Lemma qps_dims_4 : qpscaling_dims_size E d mod 4 = 0.
Proof. unfold qpscaling_dims_size; md. Qed.
Hint Resolve reg_dims_nn reg_dims_4 qps_dims_nn qps_dims_8 qps_dims_4 : lay.

Lemma reg_dims_fits : exists n, fits true (reg_dims_assign E d) 8 4 n /\ n <= reg_dims_size E d.
Proof.
  eexists. split; [unfold reg_dims_assign; repeat lay1|]. unfold reg_dims_size; lia.
Qed.
Lemma qps_dims_fits : exists n, fits true (qpscaling_dims_assign E d) 8 8 n /\ n <= qpscaling_dims_size E d.
Proof.
  eexists. split; [unfold qpscaling_dims_assign; repeat lay1|].
  unfold qpscaling_dims_size. eapply Z.le_trans; [|apply mim_ge]. lia.
Qed.
Lemma qps_dims_fits_any : exists n, fits false (qpscaling_dims_assign E d) 1 8 n /\ n <= qpscaling_dims_size E d.
Proof.
  eexists. split; [unfold qpscaling_dims_assign; repeat lay1|].
  unfold qpscaling_dims_size. eapply Z.le_trans; [|apply mim_ge]. lia.
Qed.
Lemma dims_self_fits : exists n, fits false (dims_self_assign E d) 1 4 n /\ n <= dims_self_size E d.
Proof.
  eexists. split; [unfold dims_self_assign; repeat lay1|].
  unfold dims_self_size. eapply Z.le_trans; [|apply mim_ge]. 
  pose proof (env_so E "ocp_nlp_reg_dims" HE). lia.
Qed.

Lemma dims_self_nn : 0 <= dims_self_size E d.
Proof. unfold dims_self_size; nn. Qed.
Hint Resolve dims_self_nn : lay.

Lemma dims_fits dyn cost con qp rqp :
  (forall i, 0 <= dyn i) -> (forall i, 0 <= cost i) -> (forall i, 0 <= con i) -> 0 <= qp -> 0 <= rqp ->
  exists n, fits false (dims_assign E d dyn cost con qp rqp) 1 1 n /\ n <= dims_size E d dyn cost con qp rqp.
Proof.
  intros Hdyn Hcost Hcon Hqp Hrqp.
  eexists. split; [unfold dims_assign; repeat lay1|].
  unfold dims_size. sums. lia.
Qed.
End P.
