(** Facts about the funnel line search that hold for every number type, and in exact arithmetic. *)
From Coq Require Import ZArith List Bool Reals Lra Lia.
From Verif Require Import FP Arith SqpModel RtiModel FunnelModel.
Import ListNotations.

Section G.
Variable A : arith.
Variable o : fopts A.
Variable iterate : Type.
Notation gstate := (gstate A iterate).

Lemma acceptable_spec m po ac al ci ti cm tm pm pi m' acc :
  acceptable o m po ac al ci ti cm tm pm pi = (m', acc) ->
  fl1 m' = fl1 m /\ fpen m' = fpen m /\ falpha m' = falpha m /\
  (acc = true -> fo_merit_only o = true \/ nleb ti (fwidth m) = true) /\
  (fwidth m' = fwidth m \/ (acc = true /\ suff_decrease o (fwidth m) ti = true /\ fwidth m' = decreased o (fwidth m) ti)).
Proof.
  unfold acceptable. intros H.
  destruct (fo_merit_only o) eqn:Em; cbn [orb] in H.
  - rewrite orb_true_r in H. cbn [negb] in H.
    destruct (armijo _ _ _ _); [destruct (suff_decrease _ _ _) eqn:Es|]; injection H as <- <-; cbn; intuition congruence.
  - rewrite orb_false_r in H. destruct (inside _ _) eqn:Ei.
    2:{ injection H as <- <-; cbn; intuition congruence. }
    unfold inside in Ei.
    destruct (fmode m); cbn [negb] in H.
    + destruct (armijo _ _ _ _); [destruct (suff_decrease _ _ _) eqn:Es|]; injection H as <- <-; cbn; intuition congruence.
    + destruct (switching _ _ _ _); [destruct (armijo _ _ _ _)|destruct (suff_decrease _ _ _) eqn:Es;
        [|destruct (nltb ti ci && _)]]; injection H as <- <-; cbn; intuition congruence.
Qed.

(** outcome of the loop: either some trial point was evaluated and accepted, or nothing but the
    mode flag changed *)
Lemma loop_spec n d ci cc cm : forall al (s : gstate) s' st,
  funnel_loop o n d ci cc cm al s = Some (s', st) ->
  g_mult s' = g_mult s /\
  ((st = ACADOS_MINSTEP /\ g_out s' = g_out s /\ g_cost s' = g_cost s /\ g_step s' = g_step s /\
    fwidth (g_mem s') = fwidth (g_mem s) /\ fl1 (g_mem s') = fl1 (g_mem s)) \/
   (st = ACADOS_SUCCESS /\ exists x c v,
     d_trial d (g_out s) (g_step s') = (x, c, v) /\
     g_out s' = x /\ g_cost s' = c /\ fl1 (g_mem s') = v /\ falpha (g_mem s') = g_step s' /\
     (fo_merit_only o = true \/ nleb v (fwidth (g_mem s)) = true) /\
     (fwidth (g_mem s') = fwidth (g_mem s) \/
      (suff_decrease o (fwidth (g_mem s)) v = true /\ fwidth (g_mem s') = decreased o (fwidth (g_mem s)) v)))).
Proof.
  induction n as [|n IH]; intros al s s' st H; cbn [funnel_loop] in H; [discriminate H|].
  destruct (d_trial d (g_out s) al) as [[x c] v] eqn:Et.
  destruct (acceptable o (g_mem s) _ _ _ _ _ _ _ _ _) as [m acc] eqn:Ea.
  apply acceptable_spec in Ea. destruct Ea as (E1 & E2 & E3 & E4 & E5).
  destruct acc.
  - injection H as <- <-. cbn. split; [reflexivity|]. right. split; [reflexivity|]. exists x, c, v.
    do 5 (split; [auto|]). split; [apply E4; reflexivity|]. destruct E5 as [E5|(_ & E5)]; auto.
  - assert (Ew : fwidth m = fwidth (g_mem s)) by (destruct E5 as [E5|(E5 & _)]; [exact E5|discriminate E5]).
    destruct (nltb al (fo_alpha_min o)).
    + injection H as <- <-. cbn. split; [reflexivity|]. left. auto 8.
    + apply IH in H. cbn in H. rewrite Ew, E1 in H. exact H.
Qed.

Lemma step_spec n d (s : gstate) s' st :
  funnel_step o n d s = Some (s', st) ->
  g_mult s' = update_penalty o (g_mult s) (d_pred_obj d) (d_pred_inf d) /\
  ((st = ACADOS_MINSTEP /\ g_out s' = g_out s /\ g_cost s' = g_cost s /\ g_step s' = g_step s /\
    fwidth (g_mem s') = fwidth (g_mem s) /\ fl1 (g_mem s') = fl1 (g_mem s)) \/
   (st = ACADOS_SUCCESS /\ exists x c v,
     d_trial d (g_out s) (g_step s') = (x, c, v) /\
     g_out s' = x /\ g_cost s' = c /\ fl1 (g_mem s') = v /\ falpha (g_mem s') = g_step s' /\
     (fo_merit_only o = true \/ nleb v (fwidth (g_mem s)) = true) /\
     (fwidth (g_mem s') = fwidth (g_mem s) \/
      (suff_decrease o (fwidth (g_mem s)) v = true /\ fwidth (g_mem s') = decreased o (fwidth (g_mem s)) v)))).
Proof. intros H. apply loop_spec in H. exact H. Qed.

(** C14 *)
Lemma funnel_failure n d (s : gstate) s' st : funnel_step o n d s = Some (s', st) -> st <> ACADOS_SUCCESS ->
  st = ACADOS_MINSTEP /\ g_out s' = g_out s /\ g_cost s' = g_cost s /\ g_step s' = g_step s.
Proof. intros H Hs. apply step_spec in H. destruct H as [_ [H|[H _]]]; [intuition|contradiction]. Qed.
Lemma funnel_success n d (s : gstate) s' : funnel_step o n d s = Some (s', ACADOS_SUCCESS) ->
  d_trial d (g_out s) (g_step s') = (g_out s', g_cost s', fl1 (g_mem s')).
Proof.
  intros H. apply step_spec in H. destruct H as [_ [[H _]|[_ (x & c & v & H & E1 & E2 & E3 & _)]]]; [discriminate H|].
  rewrite H. congruence.
Qed.
Lemma funnel_accept n d (s : gstate) s' : fo_merit_only o = false ->
  funnel_step o n d s = Some (s', ACADOS_SUCCESS) -> nleb (fl1 (g_mem s')) (fwidth (g_mem s)) = true.
Proof.
  intros Hm H. apply step_spec in H. destruct H as [_ [[H _]|[_ (x & c & v & _ & _ & _ & E3 & _ & E5 & _)]]]; [discriminate H|].
  rewrite E3. destruct E5 as [E5|E5]; [congruence|exact E5].
Qed.

(** C22 positive part *)
Lemma funnel_solve_state fuel steps pick cost inf (s1 s2 : gstate) :
  g_out s1 = g_out s2 -> fmode (g_mem s1) = fmode (g_mem s2) -> g_step s1 = g_step s2 ->
  funnel_solve o fuel steps pick cost inf s1 = funnel_solve o fuel steps pick cost inf s2.
Proof. intros E1 E2 E3. unfold funnel_solve, funnel_init. cbn. rewrite E1, E2, E3. reflexivity. Qed.
End G.

(** exact arithmetic *)
Section R.
Variable o : fopts real.
Variable iterate : Type.
Notation gstate := (gstate real iterate).
Local Open Scope R_scope.
Hypothesis Hk : 0 < fo_kappa o < 1.
Hypothesis Hd : 0 < fo_decrease o < 1.

Lemma decreased_real w t : 0 < w -> 0 <= t -> suff_decrease o w t = true -> 0 < decreased o w t <= w.
Proof.
  intros Hw Ht. unfold suff_decrease, decreased. cbn. destruct (Rleb_spec t (fo_decrease o * w)) as [L|L]; [|discriminate].
  intros _. destruct Hk as [K1 K2], Hd as [D1 D2].
  assert (0 <= (1 - fo_kappa o) * t) by (apply Rmult_le_pos; lra).
  assert (0 < fo_kappa o * w) by (apply Rmult_lt_0_compat; lra).
  assert (t <= w) by nra.
  assert ((1 - fo_kappa o) * t <= (1 - fo_kappa o) * w) by (apply Rmult_le_compat_l; lra).
  lra.
Qed.

Definition nonneg_dir (d : direction real iterate) := forall x a, 0 <= snd (d_trial d x a).

Lemma step_width n d (s s' : gstate) st : nonneg_dir d -> 0 < fwidth (g_mem s) ->
  funnel_step o n d s = Some (s', st) -> 0 < fwidth (g_mem s') <= fwidth (g_mem s).
Proof.
  intros Hn Hw H. apply step_spec in H. destruct H as [_ [(_ & _ & _ & _ & -> & _)|(_ & x & c & v & Et & _ & _ & _ & _ & _ & E)]].
  - lra.
  - destruct E as [-> | [Es ->]]; [lra|]. apply decreased_real; auto.
    specialize (Hn (g_out s) (g_step s')). rewrite Et in Hn. exact Hn.
Qed.

Lemma run_width fuel steps pick : (forall s : gstate, nonneg_dir (pick s)) -> forall (s s' : gstate) st, 0 < fwidth (g_mem s) ->
  funnel_run o fuel steps pick s = Some (s', st) -> 0 < fwidth (g_mem s') <= fwidth (g_mem s).
Proof.
  intros Hp. induction steps as [|k IH]; intros s s' st Hw H; cbn [funnel_run] in H; [injection H as <- <-; lra|].
  destruct (funnel_step o fuel (pick s) s) as [[s1 st1]|] eqn:E; [|discriminate H].
  pose proof (step_width _ _ _ _ _ (Hp s) Hw E) as W.
  destruct (Z.eqb st1 ACADOS_SUCCESS).
  - apply IH in H; lra.
  - injection H as <- <-. exact W.
Qed.

(** C20 *)
Lemma funnel_width_real fuel steps (pick : gstate -> direction real iterate) cost inf (s s' : gstate) st :
  0 < fo_upper o -> (forall s, nonneg_dir (pick s)) ->
  funnel_solve o fuel steps pick cost inf s = Some (s', st) ->
  0 < fwidth (g_mem s') <= Rmax (fo_upper o) (fo_increase o * inf).
Proof.
  intros Hu Hp H. apply run_width in H; [|exact Hp|].
  - cbn in H. rewrite nmax_real in H. exact H.
  - cbn. rewrite nmax_real. apply Rlt_le_trans with (1 := Hu). apply Rmax_l.
Qed.
(** later widths are at most earlier widths of the same solve *)
Lemma funnel_width_mono fuel k1 k2 (pick : gstate -> direction real iterate) cost inf (s s1 s2 : gstate) st :
  0 < fo_upper o -> (forall s, nonneg_dir (pick s)) ->
  funnel_solve o fuel k1 pick cost inf s = Some (s1, ACADOS_SUCCESS) ->
  funnel_solve o fuel (k1 + k2) pick cost inf s = Some (s2, st) ->
  0 < fwidth (g_mem s2) <= fwidth (g_mem s1).
Proof.
  intros Hu Hp H1 H2. pose proof (funnel_width_real _ _ _ _ _ _ _ _ Hu Hp H1) as W1.
  assert (H3 : funnel_run o fuel k2 pick s1 = Some (s2, st)).
  { unfold funnel_solve in *. revert H1 H2. generalize (funnel_init o inf (mkG (g_mem s) cost n1 (g_step s) (g_out s))) as s0.
    induction k1 as [|k IH]; intros s0 H1 H2; cbn [funnel_run Nat.add] in *; [injection H1 as <-; exact H2|].
    destruct (funnel_step o fuel (pick s0) s0) as [[s3 st3]|]; [|discriminate H1].
    destruct (Z.eqb st3 ACADOS_SUCCESS) eqn:E; [apply (IH s3); assumption|].
    injection H1 as _ H1. subst st3. discriminate E. }
  apply run_width in H3; [exact H3|exact Hp|lra].
Qed.
End R.
