(** Witnesses and concrete runs for the merit and DDP line searches. *)
From Coq Require Import ZArith List Bool Lia Reals Lra.
From Flocq Require Import Core IEEE754.BinarySingleNaN.
From Verif Require Import FP FPProofs FPRound FPStep Arith SqpModel RtiModel FunnelModel FunnelIeee FunnelWidth FunnelPenalty MeritModel MeritProofs MeritWeights.
Import ListNotations.

Definition feq (a b : double) : bool := fle a b && fle b a.
(** *** DDP: alpha_min = 0 and a trial cost that never decreases *)
Definition zero_min : mopts dbl := mkMopts f0 (dcst 7 (-1)) (dcst 1 (-4)) false false.
Definition flat (x : unit) (a : double) : unit * double := (x, f1).
Lemma nmin0 (x : double) : fle f1 (@nmin dbl x f0) = false.
Proof.
  unfold nmin. change (@nltb dbl) with flt. destruct (flt x f0) eqn:E; [|reflexivity].
  destruct (fle f1 x) eqn:F; [|reflexivity]. assert (G : flt f1 f0 = true) by (apply fle_flt_trans with x; assumption). discriminate G.
Qed.
Lemma ddp_flat_rejected o p a : ddp_ok (A := dbl) o f0 p f1 a = false.
Proof. unfold ddp_ok. change (@nsub dbl f1 f0) with (fsub f1 f0). replace (fsub f1 f0) with f1 by (apply B2SF_inj; vm_compute; reflexivity). apply nmin0. Qed.
Lemma nn_times_r (a : double) : fle f0 a = true -> fle f0 (fmul a (dcst 7 (-1))) = true /\ flt (fmul a (dcst 7 (-1))) f0 = false.
Proof.
  intros H. assert (G : fle f0 (fmul a (dcst 7 (-1))) = true).
  { destruct (fle_nn _ _ H) as [_ N]. destruct (is_finite a) eqn:F.
    - apply (fle_fin f0 a eq_refl F) in H. rewrite B2R_f0 in H.
      destruct (unit_fin (dcst 7 (-1)) ltac:(vm_compute; reflexivity) ltac:(vm_compute; reflexivity)) as [Fr [R0 _]].
      destruct (fmul_spec a (dcst 7 (-1)) F Fr) as (N1 & E1 & _). apply fle_spec; [reflexivity|exact N1|]. rewrite E1, er_fin by reflexivity.
      rewrite B2R_f0. apply crnd_ge0. apply Rmult_le_pos; lra.
    - destruct (not_fin_inv a F N) as [s ->]. destruct s; [discriminate H|]. vm_compute. reflexivity. }
  split; [exact G|]. destruct (flt (fmul a (dcst 7 (-1))) f0) eqn:E; [|reflexivity].
  assert (C : flt f0 f0 = true) by (apply fle_flt_trans with (fmul a (dcst 7 (-1))); assumption). discriminate C.
Qed.
Lemma ddp_loops_zero : exists (o : mopts dbl) (trial : unit -> double -> unit * double) s, forall fuel, ddp_find o fuel trial f0 s = None.
Proof.
  exists zero_min, flat, (mkD tt f0 f0 f0). intros fuel. unfold ddp_find.
  assert (G : forall n a, fle f0 a = true -> ddp_loop zero_min n flat (@nopp dbl f0) a (mkD tt f0 f0 f0) = None).
  { induction n as [|n IH]; intros a Ha; [reflexivity|]. cbn [ddp_loop ds_out ds_cost]. unfold flat at 1.
    change (@num dbl) with double. rewrite ddp_flat_rejected. change (@nltb dbl) with flt. change (@nmul dbl) with fmul. change (mo_alpha_reduction zero_min) with (dcst 7 (-1)).
    change (mo_alpha_min zero_min) with f0. destruct (nn_times_r a Ha) as [A1 A2]. rewrite A2. apply IH. exact A1. }
  apply G. reflexivity.
Qed.
(** *** merit search: reduction factor one *)
Definition one_red : mopts dbl := mkMopts (dcst 5 (-2)) f1 (dcst 1 (-4)) false false.
Lemma merit_loops_one : exists (o : mopts dbl) (mer : double -> double), forall fuel, merit_search o fuel mer f1 f0 = None.
Proof.
  exists one_red, (fun _ => f1). intros fuel. unfold merit_search.
  assert (G : forall n m1, merit_loop one_red n (fun _ => f1) f1 f0 f1 m1 = None).
  { induction n as [|n IH]; intros m1; [reflexivity|]. cbn [merit_loop]. change (mo_alpha_reduction one_red) with f1.
    change (@nmul dbl f1 f1) with (fmul f1 f1). assert (E : fmul f1 f1 = f1) by (apply B2SF_inj; vm_compute; reflexivity). rewrite E.
    assert (E1 : @nltb dbl (mo_alpha_min one_red) f1 = true) by (vm_compute; reflexivity). rewrite E1.
    assert (E2 : @nltb dbl f1 (@nadd dbl f1 (@nmul dbl (@nmul dbl (mo_eps one_red) f0) f1)) = false) by (vm_compute; reflexivity). rewrite E2. apply IH. }
  apply G.
Qed.
(** a reduction factor not above alpha_min: no point is evaluated and the full step is taken *)
Lemma merit_no_trial (A : arith) (o : mopts A) n mer m0 g :
  nltb (mo_alpha_min o) (nmul n1 (mo_alpha_reduction o)) = false -> nisnan (@n0 A) = false -> nisinf (@n0 A) = false ->
  merit_search o (S n) mer m0 g = Some (ACADOS_MINSTEP, n1).
Proof. intros H N I. unfold merit_search. cbn [merit_loop]. rewrite H. unfold finite. rewrite N, I. reflexivity. Qed.
Definition coarse : mopts dbl := mkMopts (dcst 1 (-1)) (dcst 1 (-1)) (dcst 1 (-4)) false false.
Lemma merit_full_step_unchecked : exists (o : mopts dbl), flt f0 (mo_alpha_min o) = true /\ flt (mo_alpha_reduction o) f1 = true /\
  forall n mer m0 g, merit_search o (S n) mer m0 g = Some (ACADOS_MINSTEP, f1).
Proof.
  exists coarse. split; [vm_compute; reflexivity|]. split; [vm_compute; reflexivity|]. intros n mer m0 g.
  apply (merit_no_trial dbl); vm_compute; reflexivity.
Qed.
(** the default options accept a step that decreases the merit function *)
Definition good_merit (a : double) : double := fsub f1 a.
Lemma merit_accepts : match merit_search mopts_d 20 good_merit (good_merit f0) (dcst (-1) 0) with Some (st, a) => Z.eqb st ACADOS_SUCCESS && feq a f1 | None => false end = true.
Proof. vm_compute. reflexivity. Qed.
Definition ddp_trial (x a : double) : double * double := (fsub x a, fmul (fsub x a) (fsub x a)).
Lemma ddp_accepts : match ddp_find mopts_d 20 ddp_trial (dcst (-4) 0) (mkD f1 f1 f0 f0) with Some (s, st) => Z.eqb st ACADOS_SUCCESS && feq (ds_out s) f0 && feq (ds_cost s) f0 | None => false end = true.
Proof. vm_compute. reflexivity. Qed.
Lemma merit_defaults : flt f0 (mo_alpha_min mopts_d) = true /\ flt f0 (mo_alpha_reduction mopts_d) = true /\ flt (mo_alpha_reduction mopts_d) f1 = true /\
  flt dbl_min (mo_alpha_min mopts_d) = true.
Proof. vm_compute. auto. Qed.

(** every way the SQP line search can continue with a step *)
Lemma merit_find_cases (A : arith) (o : mopts A) iterate qpsol n (P : prob A iterate qpsol) it q s s' q' :
  merit_find o n P it q s = Some (s', q', ACADOS_SUCCESS) ->
  let m := p_merit P q' (ms_w s') (ms_out s) in
  let a := ms_step s' in
  (finite (m a) = true /\ exists dm, nltb (m a) (nadd (m n0) (nmul (nmul (mo_eps o) dm) a)) = true /\
     dm = (if mo_suff o then (if nltb n0 (p_grad P q' (ms_w s') (ms_out s)) then n0 else p_grad P q' (ms_w s') (ms_out s)) else n0)) \/
  (mo_soc o = true /\ a = n1 /\ finite (m n1) = true /\ nltb (m n1) (m n0) = true /\
     nltb (p_viol P q' (ms_out s) n1) (p_viol P q' (ms_out s) n0) = true) \/
  nltb (mo_alpha_min o) (nmul a (mo_alpha_reduction o)) = false.
Proof.
  unfold merit_find. intros H.
  assert (S : forall w q1, match merit_search o n (p_merit P q1 w (ms_out s)) (p_merit P q1 w (ms_out s) n0) (p_grad P q1 w (ms_out s)) with
     | None => None
     | Some (st, a) =>
        if (st =? ACADOS_NAN_DETECTED)%Z then Some (mkM (ms_out s) w a ACADOS_NAN_DETECTED (ms_step s), q1, ACADOS_NAN_DETECTED)
        else Some (mkM (p_step P q1 (ms_out s) a) w a (ms_status s) a, q1, ACADOS_SUCCESS) end = Some (s', q', ACADOS_SUCCESS) ->
     let m := p_merit P q' (ms_w s') (ms_out s) in let a := ms_step s' in
     (finite (m a) = true /\ exists dm, nltb (m a) (nadd (m n0) (nmul (nmul (mo_eps o) dm) a)) = true /\
       dm = (if mo_suff o then (if nltb n0 (p_grad P q' (ms_w s') (ms_out s)) then n0 else p_grad P q' (ms_w s') (ms_out s)) else n0)) \/
     nltb (mo_alpha_min o) (nmul a (mo_alpha_reduction o)) = false).
  { intros w q1. destruct (merit_search o n _ _ _) as [[st a]|] eqn:E; [|discriminate].
    unfold merit_search in E. destruct (merit_loop_spec _ _ _ _ _ _ _ _ _ _ E) as [(-> & L & F)|[(-> & L)|(-> & L)]].
    - cbn [Z.eqb ACADOS_SUCCESS ACADOS_NAN_DETECTED]. intros K. injection K as <- <-. cbn. left. split; [exact F|]. eexists. split; [exact L|reflexivity].
    - intros K. injection K as <- <-. cbn. right. exact L.
    - intros K. discriminate K. }
  cbv zeta in S |- *. destruct (mo_soc o) eqn:C.
  - unfold full_step in H. cbv zeta in H. destruct (negb (finite _)) eqn:F.
    + cbv beta iota zeta in H. change (ACADOS_NAN_DETECTED =? ACADOS_NAN_DETECTED)%Z with true in H. cbv iota in H.
      apply S in H. tauto.
    + destruct (nltb _ _ && nltb _ _) eqn:G.
      * cbv beta iota zeta in H. change (ACADOS_SUCCESS =? ACADOS_NAN_DETECTED)%Z with false in H. change (ACADOS_SUCCESS =? ACADOS_SUCCESS)%Z with true in H. cbv iota in H.
        injection H as <- <-. cbn [ms_w ms_step]. apply andb_prop in G. destruct G as [G1 G2]. apply negb_false_iff in F. right. left. auto.
      * cbv beta iota zeta in H. change (ACADOS_MINSTEP =? ACADOS_NAN_DETECTED)%Z with false in H. change (ACADOS_MINSTEP =? ACADOS_SUCCESS)%Z with false in H. cbv iota in H.
        destruct (p_soc P q (ms_out s)) as [q1 bad]. cbv beta iota zeta in H. destruct bad; [discriminate H|]. apply S in H. tauto.
  - cbv beta iota zeta in H. apply S in H. tauto.
Qed.
