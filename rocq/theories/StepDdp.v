(** The DDP trial iterate over the reals. *)
From Coq Require Import ZArith List Bool Lia Reals Lra.
From Verif Require Import Arith Vec LinModel LinProofs RSum Poly StepModel StepProofs.
Import ListNotations.
Open Scope R_scope.

Section Loc.
Variable A : arith.
Lemma emap_loc n ob f st zi g (h : heap A) ob' f' st' : ob' <> ob \/ f' <> f \/ st' <> st -> emap n ob f st zi g h ob' f' st' = h ob' f' st'.
Proof.
  intros Ne. unfold emap. induction n as [|n IH]; cbn [loop]; [reflexivity|]. unfold hset at 1.
  replace ((ob' =? ob)%nat && field_eqb f' f && (st' =? st)%nat)%bool with false; [exact IH|]. symmetry.
  destruct (Nat.eqb_spec ob' ob), (field_eqb_spec f' f), (Nat.eqb_spec st' st); try reflexivity. exfalso. intuition.
Qed.
End Loc.

Section Ddp.
Notation hp := (heap real).
Variable d : sdims.
Variable zd : zdata real.
Variables src qp dst : nat.
Hypothesis Nq : dst <> qp.
Variable alpha : R.
Variable K : nat -> matR.
Variable kff : nat -> vecR.
Variable phi : nat -> vecR -> vecR.
Let stage := ddp_stage d src dst alpha K kff phi.
Variable h : hp.
Let h0 : hp := emap (snx d 0) dst Fux 0 (snu d 0) (fun h k => h src Fux 0%nat (snu d 0 + k)%nat + alpha * h qp Fux 0%nat (snu d 0 + k)%nat) h.
Let hm m := loop m stage h0.

Lemma h0_x k : (k < snx d 0)%nat -> h0 dst Fux 0%nat (snu d 0 + k)%nat = h src Fux 0%nat (snu d 0 + k)%nat + alpha * h qp Fux 0%nat (snu d 0 + k)%nat.
Proof.
  intros Hk. unfold h0. rewrite emap_val.
  - replace (hit _ _ _ _ _ _ _ _ _) with true by (symmetry; apply hit_spec; repeat split; lia). replace (snu d 0 + k - snu d 0)%nat with k by lia. reflexivity.
  - intros k' h' Hk' Hh. rewrite !Hh; [reflexivity| |]; apply hit_no; [left; congruence|right; right; right; lia].
Qed.
Lemma h0_loc ob f st : ob <> dst \/ f <> Fux \/ st <> 0%nat -> h0 ob f st = h ob f st.
Proof. intros N. apply emap_loc, N. Qed.
Lemma h0_u k : (k < snu d 0)%nat -> h0 dst Fux 0%nat k = h dst Fux 0%nat k.
Proof.
  intros Hk. unfold h0. rewrite emap_val.
  - rewrite hit_no by (right; right; right; lia). reflexivity.
  - intros k' h' Hk' Hh. rewrite !Hh; [reflexivity| |]; apply hit_no; [left; congruence|right; right; right; lia].
Qed.

(** one stage *)
Section Stage.
Variable i : nat.
Variable g : hp.
Let g1 := emap (snu d i) dst Fux i 0 (fun h r => h src Fux i r + ddp_du d src dst alpha K kff i g r) g.
Lemma g1_u r : (r < snu d i)%nat -> g1 dst Fux i r = g src Fux i r + ddp_du d src dst alpha K kff i g r.
Proof.
  intros Hr. unfold g1. rewrite emap_val.
  - replace (hit _ _ _ _ _ _ _ _ _) with true by (symmetry; apply hit_spec; repeat split; lia). rewrite Nat.sub_0_r. reflexivity.
  - intros k' h' Hk' Hh. rewrite Hh; [reflexivity|]. apply hit_no. right; right; right; lia.
Qed.
Lemma g1_x k : (snu d i <= k)%nat -> g1 dst Fux i k = g dst Fux i k.
Proof.
  intros Hk. unfold g1. rewrite emap_val.
  - rewrite hit_no by (right; right; right; lia). reflexivity.
  - intros k' h' Hk' Hh. rewrite Hh; [reflexivity|]. apply hit_no. right; right; right; lia.
Qed.
Lemma stage_unfold : stage i g = emap (snx d (S i)) dst Fux (S i) (snu d (S i)) (fun h r => (phi i (g1 dst Fux i) r - g1 src Fux (S i) (snu d (S i) + r)%nat) + h src Fux (S i) (snu d (S i) + r)%nat) g1.
Proof. reflexivity. Qed.
Lemma stage_ux_i : stage i g dst Fux i = g1 dst Fux i.
Proof. rewrite stage_unfold. apply emap_loc. right; right. lia. Qed.
Lemma stage_next r : (r < snx d (S i))%nat -> stage i g dst Fux (S i) (snu d (S i) + r)%nat = phi i (stage i g dst Fux i) r.
Proof.
  intros Hr. rewrite stage_ux_i. rewrite stage_unfold, emap_val.
  - replace (hit _ _ _ _ _ _ _ _ _) with true by (symmetry; apply hit_spec; repeat split; lia). replace (snu d (S i) + r - snu d (S i))%nat with r by lia. rr; change (num real) with R in *; lra.
  - intros k' h' Hk' Hh. rewrite Hh; [reflexivity|]. apply hit_no. right; right; right; lia.
Qed.
Lemma stage_next_u r : (r < snu d (S i))%nat -> stage i g dst Fux (S i) r = g dst Fux (S i) r.
Proof.
  intros Hr. rewrite stage_unfold, emap_val.
  - rewrite hit_no by (right; right; right; lia). unfold g1. rewrite emap_loc by (right; right; lia). reflexivity.
  - intros k' h' Hk' Hh. rewrite Hh; [reflexivity|]. apply hit_no. right; right; right; lia.
Qed.
Lemma stage_loc ob f st : ob <> dst \/ f <> Fux \/ (st <> i /\ st <> S i) -> stage i g ob f st = g ob f st.
Proof. intros N. rewrite stage_unfold, emap_loc by tauto. unfold g1. apply emap_loc. tauto. Qed.
End Stage.

Lemma hm_loc m ob f st : ob <> dst \/ f <> Fux \/ (m < st)%nat -> hm m ob f st = h ob f st.
Proof.
  induction m as [|m IH]; intros N; cbn [loop].
  - apply h0_loc. lia + tauto || (destruct N as [N|[N|N]]; [left|right; left|right; right; lia]; assumption).
  - unfold hm. cbn [loop]. fold (hm m). rewrite stage_loc; [apply IH|]; destruct N as [N|[N|N]]; [left|right; left|right; right; lia|left|right; left|right; right; lia]; assumption.
Qed.
Lemma hm_later m i : (i < m)%nat -> hm m dst Fux i = hm (S i) dst Fux i.
Proof.
  induction m as [|m IH]; intros Hi; [lia|]. destruct (Nat.eq_dec i m) as [->|N]; [reflexivity|]. rewrite <- IH by lia. unfold hm at 1. cbn [loop]. apply stage_loc. right; right. lia.
Qed.
Lemma hm_x m i k : (i <= m)%nat -> (snu d i <= k)%nat -> hm m dst Fux i k = hm i dst Fux i k.
Proof.
  intros Hi Hk. destruct (Nat.eq_dec i m) as [->|N]; [reflexivity|]. rewrite hm_later by lia. unfold hm at 1. cbn [loop]. rewrite stage_ux_i. apply g1_x, Hk.
Qed.
Lemma hm_u_before i r : (r < snu d i)%nat -> hm i dst Fux i r = h dst Fux i r.
Proof.
  intros Hr. destruct i as [|i]; [apply h0_u, Hr|]. unfold hm. cbn [loop]. fold (hm i). rewrite stage_next_u by exact Hr. rewrite hm_loc by (right; right; lia). reflexivity.
Qed.
Let F := ddp_primal d src qp dst alpha K kff phi h.
Lemma F_eq : F = hm (sN d). Proof. reflexivity. Qed.
(** C18: the trial trajectory is a rollout, whether or not the destination is the source *)
Lemma ddp_rollout i r : (i < sN d)%nat -> (r < snx d (S i))%nat -> F dst Fux (S i) (snu d (S i) + r)%nat = phi i (F dst Fux i) r.
Proof.
  intros Hi Hr. rewrite F_eq, hm_x by lia. rewrite (hm_later (sN d) i Hi). unfold hm at 1 2. cbn [loop]. apply stage_next, Hr.
Qed.
Lemma ddp_x0 k : (k < snx d 0)%nat -> F dst Fux 0%nat (snu d 0 + k)%nat = h src Fux 0%nat (snu d 0 + k)%nat + alpha * h qp Fux 0%nat (snu d 0 + k)%nat.
Proof. intros Hk. rewrite F_eq, hm_x by lia. apply h0_x, Hk. Qed.
Lemma du_sum i g r : ddp_du d src dst alpha K kff i g r = sum (snx d i) (fun c => K i r c * (g dst Fux i (snu d i + c)%nat - g src Fux i (snu d i + c)%nat)) + alpha * kff i r.
Proof. unfold ddp_du. rewrite vsum_sum.
  rewrite (sum_ext _ _ (fun c => K i r c * (g dst Fux i (snu d i + c)%nat - g src Fux i (snu d i + c)%nat))); [reflexivity|]. intros c _. rr; change (num real) with R in *; lra. Qed.
(** the control law with feedback, when the trial is built in its own buffer *)
Lemma ddp_control i r : src <> dst -> (i < sN d)%nat -> (r < snu d i)%nat ->
  F dst Fux i r = h src Fux i r + alpha * kff i r + sum (snx d i) (fun c => K i r c * (F dst Fux i (snu d i + c)%nat - h src Fux i (snu d i + c)%nat)).
Proof.
  intros Ns Hi Hr. rewrite F_eq. replace (hm (sN d) dst Fux i r) with (hm i src Fux i r + ddp_du d src dst alpha K kff i (hm i) r)
    by (rewrite (hm_later (sN d) i Hi); unfold hm at 3; cbn [loop]; fold (hm i); rewrite stage_ux_i, g1_u by exact Hr; reflexivity). rewrite du_sum.
  assert (E : forall k, hm i src Fux i k = h src Fux i k) by (intros; rewrite hm_loc by auto; reflexivity). rewrite E.
  rewrite (sum_ext _ _ (fun c => K i r c * (hm (sN d) dst Fux i (snu d i + c)%nat - h src Fux i (snu d i + c)%nat))).
  2:{ intros c Hc. rewrite E. rewrite (hm_x (sN d) i) by lia. reflexivity. }
  rr; change (num real) with R in *; lra.
Qed.
(** updating in place: the feedback term vanishes *)
Lemma ddp_control_alias i r : src = dst -> (i < sN d)%nat -> (r < snu d i)%nat -> F dst Fux i r = h src Fux i r + alpha * kff i r.
Proof.
  intros Es Hi Hr. rewrite F_eq. replace (hm (sN d) dst Fux i r) with (hm i src Fux i r + ddp_du d src dst alpha K kff i (hm i) r)
    by (rewrite (hm_later (sN d) i Hi); unfold hm at 3; cbn [loop]; fold (hm i); rewrite stage_ux_i, g1_u by exact Hr; reflexivity). rewrite du_sum. rewrite Es.
  rewrite sum_zero by (intros; rr; change (num real) with R in *; lra). rewrite hm_u_before by exact Hr. rr; change (num real) with R in *; lra.
Qed.

(** ** duals *)
Variable full : bool.
Let body i (h : hp) := z_update d zd qp dst alpha i (ddp_dual d qp dst alpha full i h).
Definition dtarget (h : hp) (f : field) (i k : nat) : R :=
  match f with
  | Flam => if (k <? 2 * sni d i)%nat then (if full then h qp Flam i k else (1 - alpha) * h dst Flam i k + alpha * h qp Flam i k) else h dst Flam i k
  | Fpi => if ((i <? sN d)%nat && (k <? snx d (S i))%nat)%bool then (if full then h qp Fpi i k else (1 - alpha) * h dst Fpi i k + alpha * h qp Fpi i k) else h dst Fpi i k
  | f => h dst f i k
  end.
Lemma scale_add n f i (g : hp) ob f' st k :
  emap n dst f i 0 (fun h k => h dst f i k + alpha * h qp f i k) (emap n dst f i 0 (fun h k => (1 - alpha) * h dst f i k) g) ob f' st k =
  if hit dst f i 0 n ob f' st k then (1 - alpha) * g dst f i k + alpha * g qp f i k else g ob f' st k.
Proof.
  rewrite emap_pt.
  2:{ intros k' Hk h' Hh. rewrite (Hh dst), (Hh qp) by (apply self_unhit || (apply qp_unhit; exact Nq)). reflexivity. }
  rewrite !emap_pt; try (intros k' Hk h' Hh; rewrite (Hh dst) by apply self_unhit; reflexivity).
  destruct (hit dst f i 0 n ob f' st k) eqn:E; [|reflexivity]. rewrite (qp_unhit qp dst Nq). apply hit_spec in E. rewrite hit_self. destruct (Nat.ltb_spec k n); [reflexivity|lia].
Qed.
Lemma copy_val n f i (g : hp) ob f' st k : emap n dst f i 0 (fun h k => h qp f i k) g ob f' st k = if hit dst f i 0 n ob f' st k then g qp f i k else g ob f' st k.
Proof. apply emap_pt. intros k' Hk h' Hh. apply Hh. apply qp_unhit, Nq. Qed.
Lemma ddp_dual_val i g ob f st k : ddp_dual d qp dst alpha full i g ob f st k =
  if hit dst Flam i 0 (2 * sni d i) ob f st k then (if full then g qp Flam i k else (1 - alpha) * g dst Flam i k + alpha * g qp Flam i k)
  else if hit dst Fpi i 0 (if (i <? sN d)%nat then snx d (S i) else 0) ob f st k then (if full then g qp Fpi i k else (1 - alpha) * g dst Fpi i k + alpha * g qp Fpi i k) else g ob f st k.
Proof.
  unfold ddp_dual. destruct full, (i <? sN d)%nat; cbv zeta.
  - rewrite !copy_val. rewrite (qp_unhit qp dst Nq). destruct (hit dst Fpi i 0 (snx d (S i)) ob f st k) eqn:E; [|reflexivity]. apply hit_spec in E. destruct E as (-> & -> & -> & _). rewrite hit_other by (right; left; discriminate). reflexivity.
  - rewrite copy_val. destruct (hit dst Flam i 0 (2 * sni d i) ob f st k); [reflexivity|]. destruct (hit dst Fpi i 0 0 ob f st k) eqn:E2; [apply hit_spec in E2; lia|reflexivity].
  - rewrite !scale_add. rewrite (qp_unhit qp dst Nq). rewrite (hit_other dst Flam i 0 (2 * sni d i) dst Fpi) by (right; left; discriminate).
    destruct (hit dst Fpi i 0 (snx d (S i)) ob f st k) eqn:E; [|reflexivity]. apply hit_spec in E. destruct E as (-> & -> & -> & _). rewrite hit_other by (right; left; discriminate). reflexivity.
  - rewrite scale_add. destruct (hit dst Flam i 0 (2 * sni d i) ob f st k); [reflexivity|]. destruct (hit dst Fpi i 0 0 ob f st k) eqn:E2; [apply hit_spec in E2; lia|reflexivity].
Qed.
Lemma body_val i g ob f st k : f <> Fz -> body i g ob f st k = if ((ob =? dst)%nat && (st =? i)%nat)%bool then dtarget g f i k else g ob f st k.
Proof.
  intros Nf. unfold body. rewrite z_update_val by exact Nq. rewrite ddp_dual_val. rewrite (hit_other dst Fz) by auto.
  destruct (Nat.eqb_spec ob dst) as [->|No]; cbn [andb]; [|rewrite !hit_other by auto; reflexivity].
  destruct (Nat.eqb_spec st i) as [->|Ns]; [|rewrite !hit_other by auto; reflexivity].
  unfold dtarget. destruct f; [| | |contradiction].
  - rewrite !hit_other by (right; left; discriminate). reflexivity.
  - rewrite hit_self. destruct (k <? 2 * sni d i)%nat; [reflexivity|]. rewrite hit_other by (right; left; discriminate). reflexivity.
  - rewrite (hit_other dst Flam) by (right; left; discriminate). rewrite hit_self. destruct (i <? sN d)%nat; reflexivity.
Qed.
Lemma body_loop m g ob f i k : f <> Fz -> loop m body g ob f i k = if ((ob =? dst)%nat && (i <? m)%nat)%bool then dtarget g f i k else g ob f i k.
Proof.
  intros Nf. revert ob i k. induction m as [|m IH]; intros ob i k; cbn [loop]; [rewrite andb_false_r; reflexivity|]. rewrite body_val by exact Nf.
  destruct (Nat.eqb_spec ob dst) as [->|No]; cbn [andb].
  - destruct (Nat.eqb_spec i m) as [->|Ni].
    + destruct (Nat.ltb_spec m (S m)); [|lia]. unfold dtarget. 
      assert (Rd : forall ob k, loop m body g ob f m k = g ob f m k) by (intros; rewrite IH, Nat.ltb_irrefl, andb_false_r; reflexivity).
      destruct f; rewrite ?Rd; try reflexivity.
    + rewrite IH, Nat.eqb_refl. cbn [andb]. destruct (Nat.ltb_spec i m), (Nat.ltb_spec i (S m)); try reflexivity; lia.
  - rewrite IH. destruct (Nat.eqb_spec ob dst); [contradiction|reflexivity].
Qed.
(** the multipliers of the trial iterate; the old value is the one left in the destination buffer *)
Lemma ddp_duals f i k : f = Flam \/ f = Fpi -> ddp_trial d zd src qp dst alpha K kff phi full h dst f i k = if (i <=? sN d)%nat then dtarget h f i k else h dst f i k.
Proof.
  intros Hf. unfold ddp_trial. fold F. fold body. rewrite body_loop by (intros ->; destruct Hf; discriminate). rewrite Nat.eqb_refl. cbn [andb].
  assert (E : forall ob i k, F ob f i k = h ob f i k). { intros. rewrite F_eq, hm_loc; [reflexivity|]. right; left. destruct Hf; subst f; discriminate. }
  destruct (Nat.ltb_spec i (S (sN d))), (Nat.leb_spec i (sN d)); try lia; [|apply E]. unfold dtarget. destruct f; rewrite ?E; reflexivity.
Qed.
(** the primal part is not changed by the dual loop *)
Lemma ddp_trial_ux st : ddp_trial d zd src qp dst alpha K kff phi full h dst Fux st = F dst Fux st.
Proof.
  unfold ddp_trial. fold F. fold body. induction (S (sN d)) as [|m IH]; cbn [loop]; [reflexivity|]. rewrite <- IH. generalize (loop m body F). intros g. unfold body, z_update, ddp_dual.
  destruct full, (m <? sN d)%nat; cbv zeta; rewrite ?emap_loc by (right; left; discriminate); reflexivity.
Qed.
End Ddp.
