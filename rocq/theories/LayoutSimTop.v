(** Integrator objects: all fit; the carve-outs with options changed at evaluation time. *)
From Coq Require Import ZArith List String Lia Bool.
From Verif Require Import Layout LayoutProofs LayoutNlp LayoutNlpProofs LayoutEnv LayoutSolver LayoutSolverProofs
  LayoutMod LayoutModProofs LayoutSubTop LayoutSim LayoutSimProofs LayoutSimIrk.
Import ListNotations.
Open Scope string_scope.
Open Scope Z_scope.

Lemma sim_objects_fit E d o model : env_ok E -> sim_ok d -> sopts_ok o -> size_ok model ->
  Forall obj_fits (sim_objects E d o model).
Proof.
  intros HE Hd Ho Hm. unfold sim_objects. each.
  - apply sim_in_fits with (o := o); assumption.
  - apply sim_out_fits with (o := o); assumption.
  - apply erk_opts_fits; assumption.
  - apply coll_opts_fits; assumption.
  - apply coll_opts_fits; assumption.
  - apply fun_model_fits; assumption.
  - apply fun_model_fits; assumption.
  - apply fun_model_fits; assumption.
  - apply erk_mem_fits; assumption.
  - apply erk_ws_fits; assumption.
  - apply irk_mem_fits; assumption.
  - apply irk_ws_fits; assumption.
  - apply lirk_mem_fits; assumption.
  - apply lirk_ws_fits; assumption.
  - apply gnsf_model_fits with (o := o); assumption.
  - apply gnsf_mem_fits; assumption.
  - apply gnsf_pre_fits; assumption.
  - apply gnsf_ws_fits; assumption.
Qed.
Lemma sim_objects_ok E d o model base : env_ok E -> sim_ok d -> sopts_ok o -> size_ok model ->
  Forall (carved_ok base) (sim_objects E d o model).
Proof. intros. apply fits_ok. apply sim_objects_fit; assumption. Qed.

Lemma tableau_ok n base : 0 <= n -> Forall (carved_ok base) [tableau_work_obj n; legendre_work_obj n].
Proof. intros H. apply fits_ok. repeat constructor; first [apply tableau_fits|apply legendre_fits]; exact H. Qed.

(** sizes *)
Ltac md8 := cbn [o_size]; cbv zeta; md.
Lemma sim_sizes_8 E d o model k : env_ok E -> sim_ok d -> sopts_ok o -> size_ok model ->
  size_ok (o_size (sim_opts_obj E k)) /\ size_ok (o_size (sim_mem_obj E d o k)) /\
  size_ok (o_size (sim_ws_obj E d o k)) /\ size_ok (o_size (sim_model_obj E d k)) /\
  size_ok (o_size (sim_in_obj E d model)) /\ size_ok (o_size (sim_out_obj E d)).
Proof.
  intros HE Hd Ho Hm. pose proof (sim_objects_fit E d o model HE Hd Ho Hm) as F.
  unfold sim_objects in F. rewrite !Forall_cons_iff in F.
  destruct F as (F1 & F2 & F3 & F4 & F5 & F6 & F7 & F8 & F9 & F10 & F11 & F12 & F13 & F14 & F15 & F16 & F17 & F18 & _).
  assert (Hd' := Hd). destruct Hd' as (? & ? & ? & ? & ? & ? & ? & ? & ? & ? & ?).
  assert (G : gnsf_ws_size E d o mod 8 = 0).
  { unfold gnsf_ws_size, gnsf_sim_size, gnsf_pre_size. cbv zeta. destruct (_ >? _); md. }
  unfold size_ok. repeat split.
  - destruct k; apply obj_size_nn; assumption.
  - destruct k; cbn [sim_opts_obj]; unfold erk_opts_obj, irk_opts_obj, gnsf_opts_obj, coll_opts_size; md8.
  - destruct k; apply obj_size_nn; assumption.
  - destruct k; cbn [sim_mem_obj]; unfold erk_mem_obj, irk_mem_obj, lirk_mem_obj, gnsf_mem_obj; md8.
  - destruct k; apply obj_size_nn; assumption.
  - destruct k; cbn [sim_ws_obj]; unfold erk_ws_obj, irk_ws_obj, lirk_ws_obj, gnsf_ws_obj; [md8|md8|md8|exact G].
  - destruct k; apply obj_size_nn; assumption.
  - destruct k; cbn [sim_model_obj]; unfold fun_model_obj, gnsf_model_obj; md8.
  - apply obj_size_nn; assumption.
  - unfold sim_in_obj. md8.
  - apply obj_size_nn; assumption.
  - unfold sim_out_obj. md8.
Qed.

(** the continuous-time dynamics module with the sizes of an actual integrator *)
Definition cont_objects E sa y d o k : list obj :=
  dynamics_objects E sa y (sim_dims_size k) (o_size (sim_opts_obj E k)) (o_size (sim_mem_obj E d o k))
    (o_size (sim_ws_obj E d o k)) (o_size (sim_model_obj E d k))
    (o_size (sim_in_obj E d (o_size (sim_model_obj E d k)))) (o_size (sim_out_obj E d)).
Lemma cont_objects_ok E sa y d o k base : env_ok E -> dyn_ok y -> sim_ok d -> sopts_ok o ->
  Forall (carved_ok base) (cont_objects E sa y d o k).
Proof.
  intros HE Hy Hd Ho. apply fits_ok. unfold cont_objects.
  assert (M : size_ok (o_size (sim_model_obj E d k))).
  { apply (sim_sizes_8 E d o 0 k HE Hd Ho). split; [lia|reflexivity]. }
  destruct (sim_sizes_8 E d o _ k HE Hd Ho M) as (? & ? & ? & ? & ? & ?).
  apply dynamics_objects_fit; try assumption.
  split; [destruct k; unfold sim_dims_size, so_int; lia|destruct k; reflexivity].
Qed.

(** ** options changed at evaluation time *)
Lemma carved_more base s s' bs : s <= s' -> carved_within base s bs -> carved_within base s' bs.
Proof.
  intros L [A B]. split; [|exact B]. eapply Forall_impl; [|exact A].
  intros b (P & Q & R). unfold inside. lia.
Qed.
Lemma mim_mono k a b : 1 < k -> a <= b -> make_int_multiple_of k a <= make_int_multiple_of k b.
Proof.
  intros H L. unfold make_int_multiple_of. replace (k >? 1) with true by (symmetry; apply Z.gtb_lt; lia).
  apply Z.mul_le_mono_nonneg_r; [lia|]. apply Z.div_le_mono; lia.
Qed.
Lemma with_sens_ok o f a h : sopts_ok o -> sopts_ok (with_sens o f a h).
Proof. intros [A B]. split; assumption. Qed.

Section Mono.
Variable E : cenv.
Hypothesis HE : env_ok E.
Variable d : sim_dims.
Hypothesis Hd : sim_ok d.
Variable o : sim_opts.
Hypothesis Ho : sopts_ok o.
Hypothesis Hs : (1 <= num_steps o)%nat.

Lemma nX_le f a h : (f = true -> sens_forw_x o = true) -> erk_nX d (with_sens o f a h) <= erk_nX d o.
Proof.
  intros Hf. destruct Hd as (? & _ & _ & ? & _), Ho as [_ ?]. unfold erk_nX. cbn [with_sens sens_forw_p].
  assert (erk_nf (with_sens o f a h) <= erk_nf o).
  { unfold erk_nf. cbn [with_sens sens_forw_x sens_forw_p num_forw_sens].
    destruct f; [rewrite Hf by reflexivity; lia|]. destruct (sens_forw_x o), (sens_forw_p o); cbn; lia. }
  apply Z.mul_le_mono_nonneg_l; [assumption|]. destruct (sens_forw_p o); lia.
Qed.
Lemma nX_ge_nx : s_nx d <= erk_nX d o.
Proof.
  destruct Hd as (? & _ & _ & ? & _). pose proof (nf_nn o Ho). unfold erk_nX. destruct (sens_forw_p o); nia.
Qed.

(** no sensitivities, and only adjoints when adjoints or Hessians were announced *)
Lemma erk_size_le a : (a = true -> (sens_adj o || sens_hess o)%bool = true) ->
  o_size (erk_ws_obj E d (with_sens o false a false)) <= o_size (erk_ws_obj E d o).
Proof.
  intros Ha. assert (X := nX_le false a false ltac:(discriminate)). assert (X0 := nX_ge_nx).
  assert (Xn := nX_nn d Hd (with_sens o false a false) (with_sens_ok _ _ _ _ Ho)).
  assert (Hn := nhess_nn o Ho).
  destruct Hd as (? & ? & _), Ho as [? _].
  assert (St : 1 <= Z.of_nat (num_steps o)) by lia.
  unfold erk_ws_obj. cbn [o_size]. cbv zeta. cbn [with_sens sens_adj sens_hess s_ns num_steps].
  apply Zplus_le_compat_r. apply mim_mono; [lia|]. rewrite orb_false_r. unfold so_dbl.
  generalize dependent (erk_nX d (with_sens o false a false)). intros X' XX X'0.
  generalize dependent (erk_nX d o). intros XO XL XG. generalize dependent (erk_nhess o). intros nh ?.
  generalize dependent (Z.of_nat (num_steps o)). intros st St.
  assert (P1 : s_ns o * X' <= s_ns o * XO) by nia.
  assert (P2 : st * X' <= st * XO) by nia.
  assert (P3 : st * s_ns o * X' <= st * s_ns o * XO) by nia.
  assert (P4 : s_ns o * XO <= st * s_ns o * XO) by nia.
  assert (P5 : 0 <= s_ns o * nh) by nia. assert (P6 : XO <= st * XO) by nia.
  assert (P7 : 0 <= s_ns o * (s_nx d + s_nu d)) by nia.
  destruct a; [destruct (sens_adj o), (sens_hess o); cbn [orb] in *; try (specialize (Ha eq_refl); discriminate Ha); lia|].
  destruct (sens_adj o), (sens_hess o); cbn [orb]; lia.
Qed.
Lemma irk_size_le a : (a = true -> (sens_adj o || sens_hess o)%bool = true) ->
  o_size (irk_ws_obj E d (with_sens o false a false)) <= o_size (irk_ws_obj E d o).
Proof.
  intros Ha. assert (K := nK_nn d Hd o Ho). destruct Hd as (? & ? & ? & ? & ? & _), Ho as [? _].
  unfold irk_ws_obj. cbn [o_size]. cbv zeta. change (irk_nK d (with_sens o false a false)) with (irk_nK d o).
  cbn [with_sens sens_adj sens_hess s_ns num_steps sens_forw_p sens_algebraic output_z exact_z_output cost_computation cost_conl].
  apply Zplus_le_compat_r. apply mim_mono; [lia|]. rewrite orb_false_r. cbn [negb]. unfold so_int, so_dbl.
  assert (St : 1 <= Z.of_nat (num_steps o)) by lia.
  generalize dependent (Z.of_nat (num_steps o)). intros st St.
  generalize dependent (irk_nK d o). intros nK ?.
  repeat match goal with
  | |- context[ms_dvec E ?m] => let v := fresh "v" in pose proof (env_dvec E m HE ltac:(nn)); generalize dependent (ms_dvec E m); intros v ?
  | |- context[ms_dmat E ?m ?n] => let v := fresh "v" in pose proof (env_dmat E m n HE ltac:(nn) ltac:(nn)); generalize dependent (ms_dmat E m n); intros v ?
  | |- context[so E ?m] => let v := fresh "v" in pose proof (env_so E m HE); generalize dependent (so E m); intros v ?
  end.
  repeat match goal with |- context[if ?b then ?x else 0] =>
    lazymatch b with sens_forw_p o => idtac | (_ && _)%bool => idtac | cost_computation o => idtac | (sens_algebraic o || _)%bool => idtac end;
    let c := fresh "c" in set (c := if b then x else 0) in *; clearbody c end.
  assert (T : forall v, 0 <= v -> v <= st * v) by (clear - St; intros v Hv; nia).
  assert (K4 : 0 <= nK * 4) by lia.
  rewrite ?Z.mul_add_distr_r, <- ?Z.mul_assoc, ?Z.mul_1_l. clear Ho Hs Hd.
  repeat match goal with |- context[st * ?v] => pose proof (T v ltac:(assumption)); generalize dependent (st * v); intros end.
  clear T.
  destruct (sens_hess o) eqn:Hh; cbn [negb].
  - rewrite orb_true_r. destruct a; lia.
  - rewrite orb_false_r in *. destruct a; [rewrite Ha by reflexivity; lia|]. destruct (sens_adj o); lia.
Qed.

Lemma ws_size_le k a : (a = true -> (sens_adj o || sens_hess o)%bool = true) ->
  o_size (sim_ws_obj E d (with_sens o false a false) k) <= o_size (sim_ws_obj E d o k).
Proof.
  intros Ha. destruct k; cbn [sim_ws_obj].
  - apply erk_size_le; exact Ha.
  - apply irk_size_le; exact Ha.
  - unfold lirk_ws_obj. cbn [o_size]. cbv zeta. cbn [with_sens s_ns]. apply Z.le_refl.
  - unfold gnsf_ws_obj. cbn [o_size]. unfold gnsf_ws_size, gnsf_sim_size, gnsf_pre_size. cbv zeta.
    cbn [with_sens s_ns num_steps]. apply Z.le_refl.
Qed.
Lemma ws_fits k o' : sopts_ok o' -> obj_fits (sim_ws_obj E d o' k).
Proof.
  intros H. destruct k; cbn [sim_ws_obj];
  [apply erk_ws_fits|apply irk_ws_fits|apply lirk_ws_fits|apply gnsf_ws_fits]; assumption.
Qed.
Lemma switched_ok k a base : (a = true -> (sens_adj o || sens_hess o)%bool = true) ->
  carved_within base (o_size (sim_ws_obj E d o k)) (blocks (o_ops (sim_ws_obj E d (with_sens o false a false) k)) base) /\
  (base mod 8 = 0 -> Forall aligned (blocks (o_ops (sim_ws_obj E d (with_sens o false a false) k)) base)).
Proof.
  intros Ha. assert (F := ws_fits k (with_sens o false a false) (with_sens_ok _ _ _ _ Ho)). split.
  - eapply carved_more; [apply ws_size_le; exact Ha|]. apply obj_fits_carved. exact F.
  - apply obj_fits_aligned. exact F.
Qed.
End Mono.

(** ** adjoint sensitivities requested at evaluation time only *)
Lemma align8_id p : p mod 8 = 0 -> align_char_to 8 p = p.
Proof. intros H. unfold align_char_to. rewrite (Z.div_mod p 8) at 2 by lia. rewrite H.
  replace (p + 8 - 1) with (7 + p / 8 * 8) by (rewrite (Z.div_mod p 8) at 2 by lia; lia).
  rewrite Z.div_add by lia. change (7 / 8) with 0. lia. Qed.
Lemma mim8_id s : s mod 8 = 0 -> make_int_multiple_of 8 s = s.
Proof. intros H. exact (align8_id s H). Qed.

(** number of doubles in the ERK workspace for forward sensitivities, and for adjoints only *)
Definition erk_forw_dbl d o : Z :=
  let nX := s_nx d * (1 + num_forw_sens o) in (nX + s_nu d) + s_ns o * nX + nX.
Definition erk_adj_dbl d o : Z :=
  let nx := s_nx d in let nu := s_nu d in let st := Z.of_nat (num_steps o) in
  (nx + nu) + s_ns o * st * nx + (st + 1) * nx + (2 * nx + nu) + (nu + nx) + s_ns o * (nu + nx).

Lemma erk_adj_exact E d o base : env_ok E -> sim_ok d -> sopts_ok o -> base mod 8 = 0 ->
  sens_forw_x o = true -> sens_forw_p o = false -> sens_adj o = false -> sens_hess o = false ->
  (carved_within base (o_size (erk_ws_obj E d o)) (blocks (o_ops (erk_ws_obj E d (adj_only o))) base) <->
   erk_adj_dbl d o <= erk_forw_dbl d o + 1).
Proof.
  intros HE Hd Ho Hb Hf Hp Ha Hh.
  assert (S8 := env_so8 E "sim_erk_workspace" HE). assert (S0 := env_so E "sim_erk_workspace" HE).
  assert (Sz : o_size (erk_ws_obj E d o) = so E "sim_erk_workspace" + 8 * erk_forw_dbl d o + 8).
  { unfold erk_ws_obj. cbn [o_size]. cbv zeta. rewrite Ha, Hh. cbn [orb].
    assert (NX : erk_nX d o = s_nx d * (1 + num_forw_sens o)).
    { unfold erk_nX, erk_nf. rewrite Hf, Hp. cbn [negb andb]. f_equal. lia. }
    rewrite NX. rewrite mim8_id.
    - unfold erk_forw_dbl, so_dbl. cbv zeta. lia.
    - md. }
  rewrite Sz. set (W := so E "sim_erk_workspace") in *. clear Sz.
  unfold erk_ws_obj. cbn [o_ops]. cbv zeta.
  change (sens_adj (adj_only o)) with true. change (sens_hess (adj_only o)) with false. cbn [orb].
  assert (NX : erk_nX d (adj_only o) = s_nx d).
  { unfold erk_nX, erk_nf, adj_only. cbn [with_sens sens_forw_p sens_forw_x num_forw_sens]. rewrite Hp. cbn [negb andb]. lia. }
  rewrite NX. change (s_ns (adj_only o)) with (s_ns o). change (num_steps (adj_only o)) with (num_steps o).
  destruct Hd as (? & ? & _), Ho as [? _]. assert (Hst := Zle_0_nat (num_steps o)).
  unfold erk_adj_dbl. cbv zeta. generalize dependent (Z.of_nat (num_steps o)). intros st Hst.
  cbn [app]. fold W. split.
  - intros [A _]. rewrite Forall_forall in A. specialize (A (mkBlock KDouble
      (base + W + (s_nx d + s_nu d) * so_dbl + s_ns o * st * s_nx d * so_dbl + (st + 1) * s_nx d * so_dbl
       + (2 * s_nx d + s_nu d) * so_dbl + (s_nu d + s_nx d) * so_dbl) (s_ns o * (s_nu d + s_nx d) * so_dbl))).
    destruct A as (_ & _ & A); [|cbn [blk_start blk_len] in A; unfold so_dbl in A; lia].
    unfold blocks. cbn [carve fst snd]. rewrite align8_id by (apply mod_add; [lia|exact Hb|exact S8]).
    right; right; right; right; right; right; left. reflexivity.
  - intros L. eapply (fits_carved false _ 8); [repeat lay1'|exact Hb|]. unfold so_dbl. lia.
Qed.

(** lower bounds on the extent of a carve-out *)
Fixpoint taken (l : list op) : Z :=
  match l with [] => 0 | Align _ :: r => taken r | Take _ n :: r => n + taken r end.
Fixpoint aligns_pos (l : list op) : Prop :=
  match l with [] => True | Align k :: r => 0 < k /\ aligns_pos r | Take _ _ :: r => aligns_pos r end.
Lemma taken_app a b : taken (a ++ b)%list = taken a + taken b.
Proof. induction a as [|[k|k n] r IH]; cbn [taken app]; lia. Qed.
Lemma aligns_app a b : aligns_pos a -> aligns_pos b -> aligns_pos (a ++ b)%list.
Proof. induction a as [|[k|k n] r IH]; cbn [aligns_pos app]; tauto. Qed.
Lemma taken_finish l : aligns_pos l -> forall p, p + taken l <= finish l p.
Proof.
  induction l as [|[k|k n] r IH]; intros H p.
  - unfold finish; cbn. lia.
  - destruct H as [Hk Hr]. change (finish (Align k :: r) p) with (finish r (align_char_to k p)).
    specialize (IH Hr (align_char_to k p)). pose proof (align_ge k p Hk). cbn [taken]. lia.
  - rewrite finish_take. specialize (IH H (p + n)). cbn [taken]. lia.
Qed.
Lemma carved_finish l k n base size : carved_within base size (blocks (l ++ [Take k n])%list base) ->
  finish (l ++ [Take k n])%list base <= base + size.
Proof.
  intros [A _]. rewrite blocks_app in A. apply Forall_app in A. destruct A as [_ A].
  rewrite blocks_take in A. inversion A as [|? ? (_ & _ & B) _]. cbn [blk_start blk_len] in B.
  rewrite finish_app, finish_take. unfold finish at 1; cbn. exact B.
Qed.
Lemma mim_lt k s : 1 < k -> make_int_multiple_of k s < s + k.
Proof.
  intros H. unfold make_int_multiple_of. replace (k >? 1) with true by (symmetry; apply Z.gtb_lt; lia).
  exact (align_lt k s ltac:(lia)).
Qed.
Lemma taken_for n body c : (forall i, taken (body i) = c) -> taken (for_ops n body) = Z.of_nat n * c.
Proof. intros H. induction n as [|n IH]; [reflexivity|]. cbn [for_ops]. rewrite taken_app, IH, H. lia. Qed.
Lemma taken_when (b : bool) l : taken (when b l) = if b then taken l else 0.
Proof. destruct b; reflexivity. Qed.
Lemma aligns_for n body : (forall i, aligns_pos (body i)) -> aligns_pos (for_ops n body).
Proof. intros H. induction n as [|n IH]; [exact I|]. cbn [for_ops]. apply aligns_app; [exact IH|apply H]. Qed.
Lemma aligns_when (b : bool) l : aligns_pos l -> aligns_pos (when b l).
Proof. destruct b; [intros H; exact H|intros _; exact I]. Qed.
Definition ends_take (l : list op) : Prop := exists l' k n, l = (l' ++ [Take k n])%list.
Lemma ends_app a b : ends_take b -> ends_take (a ++ b)%list.
Proof. intros (l & k & n & ->). exists (a ++ l)%list, k, n. apply app_assoc. Qed.
Lemma carved_taken l base size : ends_take l -> aligns_pos l -> carved_within base size (blocks l base) ->
  taken l <= size.
Proof.
  intros (l' & k & n & ->) Ha H. apply carved_finish in H. pose proof (taken_finish _ Ha base). lia.
Qed.

Lemma irk_adj_overrun E d o base : env_ok E -> sim_ok d -> sopts_ok o ->
  sens_adj o = false -> sens_hess o = false ->
  135 < Z.of_nat (num_steps o) *
        (2 * so E "blasfeo_dvec" + ms_dvec E (s_nx d) + ms_dvec E ((s_nx d + s_nz d) * s_ns o)) ->
  ~ carved_within base (o_size (irk_ws_obj E d o)) (blocks (o_ops (irk_ws_obj E d (adj_only o))) base).
Proof.
  intros HE Hd Ho Ha Hh L C.
  assert (T : taken (o_ops (irk_ws_obj E d (adj_only o))) <= o_size (irk_ws_obj E d o)).
  { eapply carved_taken; [| |exact C].
    - unfold irk_ws_obj. cbn [o_ops]. cbv zeta. repeat (apply ends_app).
      change (sens_hess (adj_only o)) with false. cbn [negb].
      exists []%list, KInt, (irk_nK d (adj_only o) * so_int). reflexivity.
    - unfold irk_ws_obj. cbn [o_ops]. cbv zeta. change (sens_hess (adj_only o)) with false. cbn [negb].
      repeat first [apply aligns_app | apply aligns_when | apply aligns_for; intros ?]; cbn [aligns_pos]; try (repeat split; lia). }
  clear C. revert T. unfold irk_ws_obj. cbn [o_ops o_size]. cbv zeta.
  change (sens_hess (adj_only o)) with false. change (sens_adj (adj_only o)) with true.
  change (irk_nK d (adj_only o)) with (irk_nK d o). rewrite Ha, Hh. cbn [negb orb].
  change ((s_nx d + s_nz d) * s_ns o) with (irk_nK d o) in L.
  unfold adj_only. cbn [with_sens s_ns num_steps sens_forw_p sens_algebraic output_z exact_z_output cost_computation cost_conl].
  rewrite !taken_app, !taken_when, !taken_app, !taken_when. cbn [taken].
  rewrite (taken_for _ _ (ms_dvec E (s_nx d) + ms_dvec E (irk_nK d o))) by (intros; cbn [taken]; lia).
  match goal with |- context[make_int_multiple_of 64 ?s] => pose proof (mim_lt 64 s ltac:(lia)) as M;
    set (m := make_int_multiple_of 64 s) in *; clearbody m end.
  intros T. revert M T. destruct (cost_computation o), (cost_conl o), (sens_forw_p o),
    (sens_algebraic o || output_z o)%bool, (sens_algebraic o && exact_z_output o)%bool; intros M T; lia.
Qed.

(** the ERK workspace inside the workspace of the dynamics module: the carve-out leaves the module *)
Definition erk_forw (steps : nat) : sim_opts := mkSimOpts 4 steps 2 true false false false false false false false false.
Definition sim_dims_11 : sim_dims := mkSimDims 1 1 0 0 0 0 0 0 0.
Definition dyn_11 : dyn_dims := mkDynDims 1 1 1 0.
Definition cont_ws_of E y d o k : obj :=
  cont_ws_obj E y (o_size (sim_ws_obj E d o k)) (o_size (sim_in_obj E d (o_size (sim_model_obj E d k))))
    (o_size (sim_out_obj E d)).
Lemma erk_adj_module : exists E y d o, env_ok E /\ dyn_ok y /\ sim_ok d /\ sopts_ok o /\
  y_nx y = s_nx d /\ y_nu y = s_nu d /\ y_nx1 y = s_nx d /\ num_forw_sens o = s_nx d + s_nu d /\
  sens_forw_x o = true /\ sens_adj o = false /\ sens_hess o = false /\
  forall base, base mod 8 = 0 -> exists ws b,
    In ws (blocks (o_ops (cont_ws_of E y d o ERK)) base) /\ blk_kind ws = KSub8 /\
    blk_len ws = o_size (sim_ws_obj E d o ERK) /\
    In b (blocks (o_ops (sim_ws_obj E d (adj_only o) ERK)) (blk_start ws)) /\
    base + o_size (cont_ws_of E y d o ERK) < blk_start b + blk_len b.
Proof.
  exists env64, dyn_11, sim_dims_11, (erk_forw 100).
  split; [apply env64_ok|]. split; [repeat split; cbn; lia|]. split; [repeat split; cbn; lia|].
  split; [split; cbn; lia|]. do 7 (split; [reflexivity|]). intros base Hb.
  set (wsz := o_size (sim_ws_obj env64 sim_dims_11 (erk_forw 100) ERK)).
  set (isz := o_size (sim_in_obj env64 sim_dims_11 (o_size (sim_model_obj env64 sim_dims_11 ERK)))).
  set (osz := o_size (sim_out_obj env64 sim_dims_11)).
  assert (Ew : wsz = 208) by reflexivity. assert (Ei : isz = 160) by reflexivity. assert (Eo : osz = 192) by reflexivity.
  set (q := base + 48 + isz + osz).
  exists (mkBlock KSub8 q wsz).
  exists (mkBlock KDouble (q + 48 + 16 + 3200 + 808 + 24 + 16) 64). split; [|split; [reflexivity|split; [reflexivity|split]]].
  - right; right; right; left. reflexivity.
  - cbn [blk_start]. unfold sim_ws_obj, erk_ws_obj. cbn [o_ops]. cbv zeta.
    unfold blocks. cbn [app sens_adj adj_only with_sens erk_forw sens_hess orb carve fst snd].
    rewrite align8_id.
    + right; right; right; right; right; right; left. reflexivity.
    + unfold q. rewrite Ei, Eo. cbn [so env64]. rewrite <- !Z.add_assoc. rewrite Z.add_mod, Hb by lia. reflexivity.
  - cbn [blk_start blk_len]. assert (Hc : o_size (cont_ws_of env64 dyn_11 sim_dims_11 (erk_forw 100) ERK) = 736) by reflexivity.
    rewrite Hc. unfold q. lia.
Qed.

Lemma compute_fun_ok E : env_ok E -> forall d, sim_ok d -> forall o, sopts_ok o -> (1 <= num_steps o)%nat ->
  forall k base,
  carved_within base (o_size (sim_ws_obj E d o k)) (blocks (o_ops (sim_ws_obj E d (no_sens o) k)) base) /\
  (base mod 8 = 0 -> Forall aligned (blocks (o_ops (sim_ws_obj E d (no_sens o) k)) base)).
Proof. intros HE d Hd o Ho Hs k base. apply switched_ok; try assumption. discriminate. Qed.
Lemma compute_adj_ok E : env_ok E -> forall d, sim_ok d -> forall o, sopts_ok o -> (1 <= num_steps o)%nat ->
  sens_adj o = true \/ sens_hess o = true -> forall k base,
  carved_within base (o_size (sim_ws_obj E d o k)) (blocks (o_ops (sim_ws_obj E d (adj_only o) k)) base) /\
  (base mod 8 = 0 -> Forall aligned (blocks (o_ops (sim_ws_obj E d (adj_only o) k)) base)).
Proof.
  intros HE d Hd o Ho Hs A k base. apply switched_ok; try assumption. intros _. apply orb_true_iff. exact A.
Qed.
Lemma sim_case_ok : sim_ok (mkSimDims 1 1 1 1 1 1 0 1 1).
Proof. repeat split; cbn; lia. Qed.
Lemma sopts_case_ok : sopts_ok (mkSimOpts 4 10 2 true false true true true true true true true).
Proof. split; cbn; lia. Qed.
Lemma erk_case : ~ (1 + 1) + 4 * 1 * 1 + (1 + 1) * 1 + (2 * 1 + 1) + (1 + 1) + 4 * (1 + 1) <= (3 + 1) + 4 * 3 + 3 + 1.
Proof. lia. Qed.
Lemma irk_case : 135 < Z.of_nat 1 * (2 * so env64 "blasfeo_dvec" + ms_dvec env64 1 + ms_dvec env64 4).
Proof. reflexivity. Qed.
