(** Alignment of the sub-objects of the dims object (ocp_nlp_common.c:240-387). *)
From Coq Require Import ZArith String List Lia.
From Verif Require Import Layout LayoutProofs LayoutNlp LayoutNlpProofs.
Import ListNotations.
Open Scope list_scope.
Open Scope Z_scope.

Lemma even_Z n : Nat.even n = true -> exists k, Z.of_nat n = 2 * k.
Proof. intros H. apply Nat.even_spec in H. destruct H as [k ->]. exists (Z.of_nat k). lia. Qed.
Lemma odd_Z n : Nat.even n = false -> exists k, Z.of_nat n = 2 * k + 1.
Proof. intros H. destruct (Nat.Even_or_Odd n) as [He|[k ->]].
  - apply Nat.even_spec in He. congruence.
  - exists (Z.of_nat k). lia. Qed.

Lemma blocks_align n r p : blocks (Align n :: r) p = blocks r (align_char_to n p).
Proof. reflexivity. Qed.

Section P.
Variable E : cenv.
Variable d : nlp_dims.
Hypothesis HE : env_ok E.

Lemma mod8_of x k : x = 8 * k -> x mod 8 = 0.
Proof. intros ->. rewrite Z.mul_comm. apply Z.mod_mul; lia. Qed.

Lemma reg_size_even : Nat.even (dN d) = true -> reg_dims_size E d mod 8 = 4.
Proof.
  intros H. destruct (even_Z _ H) as [k Hk]. unfold reg_dims_size, so_int. rewrite Hk.
  pose proof (env_so8 E "ocp_nlp_reg_dims" HE) as H8. 
  apply Z.mod_divide in H8; [|lia]. destruct H8 as [c Hc]. rewrite Hc.
  replace (c * 8 + 5 * (2 * k + 1) * 4) with (4 + (c + 5 * k + 2) * 8) by lia.
  rewrite Z.mod_add by lia. reflexivity.
Qed.
Lemma reg_size_odd : Nat.even (dN d) = false -> reg_dims_size E d mod 8 = 0.
Proof.
  intros H. destruct (odd_Z _ H) as [k Hk]. unfold reg_dims_size, so_int. rewrite Hk.
  apply mod_add; [lia|apply env_so8; exact HE|]. apply (mod8_of _ (5 * (k + 1))). lia.
Qed.

Lemma dims_self_misaligned base : Nat.even (dN d) = true ->
  exists b, In b (blocks (dims_self_assign E d) base) /\ blk_kind b = KSub8 /\
            blk_len b = qpscaling_dims_size E d /\ blk_start b mod 8 = 4.
Proof.
  intros Hev. unfold dims_self_assign.
  rewrite blocks_app.
  match goal with |- context [finish ?l base] => set (pp := l) end.
  rewrite (blocks_align 8 _ (finish pp base)).
  set (q := align_char_to 8 (finish pp base)).
  exists (mkBlock KSub8 (q + reg_dims_size E d) (qpscaling_dims_size E d)).
  split; [|split; [reflexivity|split; [reflexivity|]]].
  - apply in_or_app. right. rewrite !blocks_take. cbn [In]. auto.
  - cbn [blk_start]. rewrite Z.add_mod by lia. rewrite reg_size_even by exact Hev.
    unfold q. rewrite align_mod by lia. reflexivity.
Qed.

Lemma dims_self_aligned base : Nat.even (dN d) = false ->
  Forall aligned (blocks (dims_self_assign E d) base).
Proof.
  intros Hod. pose proof (reg_size_odd Hod) as H8. pose proof (reg_dims_nn E d HE) as Hn.
  pose proof (qps_dims_nn E d HE) as Hq. pose proof (qps_dims_8 E d) as Hq8.
  assert (exists n, fits true (dims_self_assign E d) 1 8 n) as [n Hf].
  { eexists. unfold dims_self_assign. repeat lay1. }
  eapply fits_aligned; [exact Hf|]. apply Z.mod_1_r.
Qed.

(** The QP dims struct after N+1 cost dims of 20 bytes (ocp_nlp_cost_nls.h:61-68 and
    ocp_nlp_cost_conl.h:62-69: five ints). *)
Lemma dims_qp_misaligned dyn con qp rqp base :
  Nat.even (dN d) = true -> base mod 8 = 0 ->
  (forall i, dyn i mod 8 = 0) -> (forall i, con i mod 8 = 0) ->
  exists b, In b (blocks (dims_assign E d dyn (fun _ => 20) con qp rqp) base) /\ blk_kind b = KSub8 /\
            blk_len b = qp /\ blk_start b mod 8 = 4.
Proof.
  intros Hev Hb Hdyn Hcon. destruct (even_Z _ Hev) as [k Hk].
  unfold dims_assign. rewrite blocks_app, blocks_app, blocks_app, blocks_app.
  set (p1 := finish [Take KSub (dims_self_size E d)] base).
  set (p2 := finish (for_ops (dN d) (fun i => [Take KSub (dyn i)])) p1).
  set (p3 := finish (for_ops (S (dN d)) (fun i => [Take KIntStruct 20])) p2).
  set (p4 := finish (for_ops (S (dN d)) (fun i => [Take KIntStruct (con i)])) p3).
  exists (mkBlock KSub8 p4 qp). split; [|split; [reflexivity|split; [reflexivity|]]].
  - rewrite !in_app_iff. right. right. right. right. rewrite blocks_take. left. reflexivity.
  - cbn [blk_start].
    assert (Hfin : forall n k f p, finish (for_ops n (fun i => [Take k (f i)])) p = p + zsum n f).
    { intros n kk f p. induction n as [|m IH]; cbn [for_ops zsum]; [unfold finish; cbn; lia|].
      rewrite finish_app, IH, finish_take. unfold finish; cbn [carve snd]. lia. }
    unfold p4, p3, p2, p1. rewrite (Hfin _ _ con), (Hfin _ _ (fun _ => 20)), (Hfin _ _ dyn).
    rewrite finish_take. unfold finish; cbn [carve snd].
    rewrite zsum_const.
    assert (H1 : dims_self_size E d mod 8 = 0) by (apply mim_mod; lia).
    assert (H2 : zsum (dN d) dyn mod 8 = 0) by (apply zsum_mod; [lia|auto]).
    assert (H3 : zsum (S (dN d)) con mod 8 = 0) by (apply zsum_mod; [lia|auto]).
    apply Z.mod_divide in H1, H2, H3, Hb; try lia.
    destruct H1 as [a1 ->], H2 as [a2 ->], H3 as [a3 ->], Hb as [a0 ->].
    rewrite Nat2Z.inj_succ, Hk.
    replace (a0 * 8 + a1 * 8 + a2 * 8 + Z.succ (2 * k) * 20 + a3 * 8)
      with (4 + (a0 + a1 + a2 + a3 + 5 * k + 2) * 8) by lia.
    rewrite Z.mod_add by lia. reflexivity.
Qed.
End P.
