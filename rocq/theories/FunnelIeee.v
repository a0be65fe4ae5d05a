(** The funnel line search on IEEE doubles: termination, width, penalty parameter. *)
From Coq Require Import ZArith List Bool Lia Reals Lra Psatz.
From Flocq Require Import Core IEEE754.BinarySingleNaN.
From Verif Require Import FP FPProofs FPRound FPStep Arith SqpModel RtiModel FunnelModel FunnelProofs.
Import ListNotations.
Open Scope R_scope.

Lemma fle_fin x y : is_finite x = true -> is_finite y = true -> (fle x y = true <-> B2R x <= B2R y).
Proof.
  intros Fx Fy. rewrite <- (er_fin x Fx), <- (er_fin y Fy). apply fle_spec; [destruct x|destruct y]; reflexivity || discriminate.
Qed.
Lemma flt_fin x y : is_finite x = true -> is_finite y = true -> (flt x y = true <-> B2R x < B2R y).
Proof.
  intros Fx Fy. rewrite <- (er_fin x Fx), <- (er_fin y Fy). apply flt_spec; [destruct x|destruct y]; reflexivity || discriminate.
Qed.
Lemma B2R_f0 : B2R f0 = 0. Proof. reflexivity. Qed.
Lemma fin_f1 : is_finite f1 = true. Proof. reflexivity. Qed.
Lemma B2R_f1 : B2R f1 = 1.
Proof.
  assert (C := binary_normalize_correct 53 1024 prec_gt_0_53 prec_lt_emax_53 mode_NE 1 0 false). cbv zeta in C.
  assert (E : round radix2 (SpecFloat.fexp 53 1024) (round_mode mode_NE) (F2R (Float radix2 1 0)) = 1).
  { replace (F2R (Float radix2 1 0)) with (bpow radix2 0) by (unfold F2R; simpl; lra).
    rewrite round_generic; [reflexivity|apply valid_rnd_N|]. apply generic_format_bpow. unfold SpecFloat.fexp, SpecFloat.emin. simpl. lia. }
  rewrite E in C. rewrite Rlt_bool_true in C; [apply C|]. rewrite Rabs_pos_eq by lra. change 1 with (bpow radix2 0). apply bpow_lt. lia.
Qed.
(** finiteness from comparisons with a positive lower and finite upper bound *)
Lemma unit_fin r : flt f0 r = true -> flt r f1 = true -> is_finite r = true /\ 0 < B2R r < 1.
Proof.
  intros H1 H2. assert (F : is_finite r = true).
  { apply (fin_between r f0 f1); [reflexivity|reflexivity|apply flt_fle; exact H1|apply flt_fle; exact H2]. }
  split; [exact F|]. apply flt_fin in H1; [|reflexivity|exact F]. apply flt_fin in H2; [|exact F|reflexivity].
  rewrite B2R_f1 in H2. rewrite B2R_f0 in H1. lra.
Qed.
Definition dbl_min : double := fz2 1 (-1022).
Lemma B2R_dbl_min : B2R dbl_min = dmin /\ is_finite dbl_min = true.
Proof.
  assert (C := binary_normalize_correct 53 1024 prec_gt_0_53 prec_lt_emax_53 mode_NE 1 (-1022) false). cbv zeta in C.
  assert (E : round radix2 (SpecFloat.fexp 53 1024) (round_mode mode_NE) (F2R (Float radix2 1 (-1022))) = dmin).
  { replace (F2R (Float radix2 1 (-1022))) with dmin by (unfold F2R; simpl Fnum; simpl Fexp; rewrite Rmult_1_l; reflexivity).
    rewrite round_generic; [reflexivity|apply valid_rnd_N|]. apply generic_format_bpow. unfold SpecFloat.fexp, SpecFloat.emin. simpl. lia. }
  rewrite E in C. rewrite Rlt_bool_true in C; [split; apply C|]. rewrite Rabs_pos_eq by (pose proof dmin_pos; lra). apply bpow_lt. lia.
Qed.

(** number of smallest positive doubles contained in a nonnegative finite double *)
Lemma level_of (a : double) : exists k : Z, B2R a = IZR k * eta.
Proof. apply fmt_eta, fmt. Qed.

Section TERM.
Variables (amin r : double).
Hypothesis Hr0 : flt f0 r = true.
Hypothesis Hr1 : flt r f1 = true.
Hypothesis Ha : flt dbl_min amin = true.

(** an alpha that is not below amin strictly decreases *)
Lemma backtrack_level a ka : is_finite a = true -> 0 <= B2R a -> B2R a = IZR ka * eta -> flt a amin = false ->
  is_finite (fmul a r) = true /\ 0 <= B2R (fmul a r) /\
  exists k, B2R (fmul a r) = IZR k * eta /\ (0 <= k < ka)%Z.
Proof.
  intros Fa Ha0 Ea Hl. destruct (unit_fin r Hr0 Hr1) as (Fr & R0 & R1).
  destruct (shrink a r Fa Fr Ha0 (Rlt_le _ _ R0) R1) as (F & [S1 S2] & S3).
  split; [exact F|]. split; [exact S1|]. destruct (level_of (fmul a r)) as [k Ek]. exists k. split; [exact Ek|].
  pose proof eta_pos.
  assert (D : dmin < B2R a).
  { destruct B2R_dbl_min as [<- Fm]. rewrite <- (er_fin dbl_min Fm), <- (er_fin a Fa).
    destruct (flt_nn _ _ Ha) as [_ Na]. apply flt_er in Ha. apply flt_false in Hl; [lra|destruct a; reflexivity || discriminate|exact Na]. }
  specialize (S3 D). rewrite Ek in S1, S3. rewrite Ea in S3. split.
  - apply le_IZR. apply Rmult_le_reg_r with eta; [assumption|]. lra.
  - apply lt_IZR. apply Rmult_lt_reg_r with eta; [assumption|]. lra.
Qed.
End TERM.

Section C21.
Variable o : fopts dbl.
Variable iterate : Type.
Hypothesis Hr0 : flt f0 (fo_alpha_reduction o) = true.
Hypothesis Hr1 : flt (fo_alpha_reduction o) f1 = true.
Hypothesis Ha : flt dbl_min (fo_alpha_min o) = true.

Lemma loop_terminates n : forall (d : direction dbl iterate) ci cc cm a s k, is_finite a = true -> 0 <= B2R a -> B2R a = IZR k * eta ->
  (k <= Z.of_nat n)%Z -> funnel_loop o (S n) d ci cc cm a s <> None.
Proof.
  induction n as [|n IH]; intros d ci cc cm a s k Fa Ha0 Ea Hk; (cbn [funnel_loop];
    destruct (d_trial d (g_out s) a) as [[x c] v]; destruct (acceptable o (g_mem s) _ _ _ _ _ _ _ _ _) as [m acc];
    destruct acc; [discriminate|]; destruct (nltb a (fo_alpha_min o)) eqn:El; [discriminate|]).
  - exfalso. destruct (backtrack_level _ _ Hr0 Hr1 Ha a k Fa Ha0 Ea El) as (_ & _ & k' & _ & H). lia.
  - destruct (backtrack_level _ _ Hr0 Hr1 Ha a k Fa Ha0 Ea El) as (F & H0 & k' & E' & H).
    apply (IH d ci cc cm _ _ k'); auto. lia.
Qed.

Lemma funnel_terminates : exists n, forall (d : direction dbl iterate) s, funnel_step o n d s <> None.
Proof.
  destruct (level_of f1) as [k Ek]. exists (S (Z.to_nat k)). intros d s. unfold funnel_step.
  apply (loop_terminates _ _ _ _ _ _ _ k); [exact fin_f1|change (B2R (@n1 dbl)) with (B2R f1); rewrite B2R_f1; lra|exact Ek|].
  rewrite Z2Nat.id; [lia|]. rewrite B2R_f1 in Ek. apply le_IZR. pose proof eta_pos.
  apply Rmult_le_reg_r with eta; [assumption|]. lra.
Qed.
End C21.

(** nontermination when the step bound is zero, the reduction is one, or the bound is the smallest
    positive double; the trial points have NaN infeasibility *)
Definition nan_dir : direction dbl unit := mkDir (fun x a => (x, f0, fnan)) f0 f0.
Definition with_ls (amin r : double) : fopts dbl :=
  let o := funnel_default dbl in
  mkFopts (fo_increase o) (fo_upper o) (fo_decrease o) (fo_kappa o) (fo_fraction o) (fo_eta o) (fo_contraction o) false amin r (fo_eps o).
Lemma nan_loop amin r n ci cc cm (P : double -> Prop) :
  (forall a, P a -> flt a amin = false /\ P (fmul a r)) ->
  forall a s, P a -> funnel_loop (with_ls amin r) n nan_dir ci cc cm a s = None.
Proof.
  intros H. induction n as [|n IH]; intros a s Pa; [reflexivity|]. cbn [funnel_loop nan_dir d_trial]. destruct (H a Pa) as [H1 H2].
  match goal with |- context[acceptable ?o ?m ?a1 ?a2 ?a3 ?a4 ?a5 ?a6 ?a7 ?a8 ?a9] =>
    assert (E : snd (acceptable o m a1 a2 a3 a4 a5 a6 a7 a8 a9) = false); [|destruct (acceptable o m a1 a2 a3 a4 a5 a6 a7 a8 a9) as [m' acc]] end.
  { unfold acceptable. cbn [fo_merit_only with_ls orb]. unfold inside.
    change (nleb fnan (fwidth (g_mem s))) with (fle fnan (fwidth (g_mem s))). rewrite fle_nan_l by reflexivity. reflexivity. }
  cbn [snd] in E. subst acc. change (nltb a (fo_alpha_min (with_ls amin r))) with (flt a amin). rewrite H1.
  apply IH. exact H2.
Qed.

Lemma funnel_loops_zero : exists (o : fopts dbl) (d : direction dbl unit) s,
  fo_alpha_min o = f0 /\ fo_alpha_reduction o = fo_alpha_reduction (funnel_default dbl) /\ forall n, funnel_step o n d s = None.
Proof.
  exists (with_ls f0 (dcst 7 (-1))), nan_dir, (mkG (mkFmem f1 I_none false f0 f1 f1) f0 f1 f1 tt).
  split; [reflexivity|]. split; [reflexivity|]. intros n. unfold funnel_step.
  apply (nan_loop _ _ _ _ _ _ (fun a => is_finite a = true /\ 0 <= B2R a)).
  - intros a [Fa Pa]. assert (R : is_finite (dcst 7 (-1)) = true /\ 0 < B2R (dcst 7 (-1)) < 1) by (apply unit_fin; vm_compute; reflexivity).
    destruct R as (Fr & R0 & R1). destruct (shrink a _ Fa Fr Pa (Rlt_le _ _ R0) R1) as (F & [S1 S2] & _).
    split; [|auto]. destruct (flt a f0) eqn:E; [|reflexivity]. apply flt_fin in E; [|exact Fa|reflexivity]. rewrite B2R_f0 in E. lra.
  - split; [reflexivity|]. change (B2R (@n1 dbl)) with (B2R f1). rewrite B2R_f1. lra.
Qed.
Lemma funnel_loops_one : exists (o : fopts dbl) (d : direction dbl unit) s,
  fo_alpha_min o = fo_alpha_min (funnel_default dbl) /\ fo_alpha_reduction o = f1 /\ forall n, funnel_step o n d s = None.
Proof.
  exists (with_ls (dcst 5 (-2)) f1), nan_dir, (mkG (mkFmem f1 I_none false f0 f1 f1) f0 f1 f1 tt).
  split; [reflexivity|]. split; [reflexivity|]. intros n. unfold funnel_step.
  apply (nan_loop _ _ _ _ _ _ (fun a => is_finite a = true /\ B2R a = 1)).
  - intros a [Fa Pa]. destruct (fmul_spec a f1 Fa fin_f1) as (_ & _ & H). rewrite Pa, B2R_f1, Rmult_1_l in H.
    assert (R1 : rnd 1 = 1) by (rewrite <- B2R_f1 at 1; rewrite rnd_id; apply B2R_f1). rewrite R1 in H.
    split; [|apply H; rewrite <- B2R_f1; apply B2R_bound].
    destruct (flt a (dcst 5 (-2))) eqn:E; [|reflexivity]. exfalso.
    assert (L : fle (dcst 5 (-2)) f1 = true) by (vm_compute; reflexivity).
    apply (flt_fle_trans _ _ _ E) in L. apply flt_fin in L; [|exact Fa|exact fin_f1]. rewrite B2R_f1 in L. lra.
  - split; [exact fin_f1|exact B2R_f1].
Qed.
Definition dbl_tiny : double := fz2 1 (-1074).
Lemma B2R_tiny : is_finite dbl_tiny = true /\ flt f0 dbl_tiny = true. Proof. split; vm_compute; reflexivity. Qed.
Lemma funnel_loops_tiny : exists (o : fopts dbl) (d : direction dbl unit) s,
  flt f0 (fo_alpha_min o) = true /\ fo_alpha_reduction o = fo_alpha_reduction (funnel_default dbl) /\ forall n, funnel_step o n d s = None.
Proof.
  exists (with_ls dbl_tiny (dcst 7 (-1))), nan_dir, (mkG (mkFmem f1 I_none false f0 f1 f1) f0 f1 f1 tt).
  split; [vm_compute; reflexivity|]. split; [reflexivity|]. intros n. unfold funnel_step.
  assert (R : is_finite (dcst 7 (-1)) = true /\ 0 < B2R (dcst 7 (-1)) < 1) by (apply unit_fin; vm_compute; reflexivity).
  destruct R as (Fr & R0 & R1).
  assert (Tr : fle dbl_tiny (fmul dbl_tiny (dcst 7 (-1))) = true) by (vm_compute; reflexivity).
  destruct B2R_tiny as [Ft Pt]. apply flt_fin in Pt; [|reflexivity|exact Ft]. rewrite B2R_f0 in Pt.
  apply (nan_loop _ _ _ _ _ _ (fun a => is_finite a = true /\ B2R dbl_tiny <= B2R a)).
  - intros a [Fa Pa]. assert (Pa0 : 0 <= B2R a) by lra.
    destruct (shrink a _ Fa Fr Pa0 (Rlt_le _ _ R0) R1) as (F & _ & _).
    split.
    + destruct (flt a dbl_tiny) eqn:E; [|reflexivity]. apply flt_fin in E; [lra|exact Fa|exact Ft].
    + split; [exact F|].
      destruct (fmul_spec a (dcst 7 (-1)) Fa Fr) as (_ & E1 & _). rewrite er_fin in E1 by exact F. rewrite E1.
      destruct (fmul_spec dbl_tiny (dcst 7 (-1)) Ft Fr) as (_ & E2 & _). apply fle_er in Tr. rewrite (er_fin _ Ft), E2 in Tr.
      apply Rle_trans with (1 := Tr). apply crnd_le. apply Rmult_le_compat_r; lra.
  - split; [reflexivity|]. apply (fle_fin dbl_tiny f1); [exact Ft|reflexivity|vm_compute; reflexivity].
Qed.
