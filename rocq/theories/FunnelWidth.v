(** Funnel width and penalty parameter on IEEE doubles. *)
From Coq Require Import ZArith List Bool Lia Reals Lra Psatz.
From Flocq Require Import Core IEEE754.BinarySingleNaN Relative.
From Verif Require Import FP FPProofs FPRound FPStep Arith SqpModel RtiModel FunnelModel FunnelProofs FunnelIeee.
Import ListNotations.
Open Scope R_scope.

#[local] Instance vexp : Valid_exp fx := FLT_exp_valid (-1074) 53.
Definition uu : R := bpow radix2 (-53).

Lemma rnd_err x : 0 <= x -> x - x * uu - eta <= rnd x <= x + x * uu + eta.
Proof.
  intros Hx. destruct (error_N_FLT radix2 (-1074) 53 ltac:(lia) (fun z => negb (Z.even z)) x) as (e & h & He & Hh & _ & E).
  change (round radix2 (FLT_exp (-1074) 53) (Znearest (fun z => negb (Z.even z))) x) with (rnd x) in E. rewrite E.
  apply Rabs_le_inv in He, Hh.
  replace (/ 2 * bpow radix2 (- (53) + 1)) with uu in He.
  2:{ change (- (53) + 1)%Z with (-53 + 1)%Z. rewrite bpow_plus. fold uu. change (bpow radix2 1) with 2. field. }
  fold eta in Hh. pose proof eta_pos.
  assert (x * - uu <= x * e <= x * uu) by (split; apply Rmult_le_compat_l; lra). lra.
Qed.

Definition tiny900 : double := fz2 1 (-900).
Definition d20 : double := fz2 1 (-20).
Definition one20 : double := fz2 1048575 (-20).    (* 1 - 2^-20 *)

(** value of an exactly representable literal *)
Lemma B2R_fz2 m e : (Z.abs m < 2 ^ 53)%Z -> (-1074 <= e)%Z -> (e <= 0)%Z ->
  is_finite (fz2 m e) = true /\ B2R (fz2 m e) = IZR m * bpow radix2 e.
Proof.
  intros Hm He He2. assert (C := binary_normalize_correct 53 1024 prec_gt_0_53 prec_lt_emax_53 mode_NE m e false). cbv zeta in C.
  assert (E : round radix2 (SpecFloat.fexp 53 1024) (round_mode mode_NE) (F2R (Float radix2 m e)) = F2R (Float radix2 m e)).
  { apply round_generic; [apply valid_rnd_N|]. apply (generic_format_FLT radix2 (-1074) 53).
    exists (Float radix2 m e); [reflexivity|exact Hm|exact He]. }
  rewrite E in C. rewrite Rlt_bool_true in C; [split; apply C|].
  unfold F2R. cbn [Fnum Fexp]. rewrite Rabs_mult, <- abs_IZR, (Rabs_pos_eq (bpow radix2 e)) by apply bpow_ge_0.
  apply Rlt_le_trans with (IZR (2 ^ 53) * 1).
  - apply Rle_lt_trans with (IZR (Z.abs m) * 1).
    + apply Rmult_le_compat_l; [apply IZR_le; lia|]. change 1 with (bpow radix2 0). apply bpow_le. exact He2.
    + apply Rmult_lt_compat_r; [lra|]. apply IZR_lt. exact Hm.
  - rewrite Rmult_1_r. change (IZR (2 ^ 53)) with (bpow radix2 53). apply bpow_le. lia.
Qed.

Lemma uu_val : uu = / 9007199254740992. Proof. reflexivity. Qed.
Lemma d20_val : B2R d20 = / 1048576 /\ is_finite d20 = true.
Proof. destruct (B2R_fz2 1 (-20)) as [F E]; [reflexivity|lia|lia|]. split; [|exact F]. unfold d20. rewrite E. simpl. lra. Qed.
Lemma one20_val : B2R one20 = 1 - / 1048576 /\ is_finite one20 = true.
Proof. destruct (B2R_fz2 1048575 (-20)) as [F E]; [reflexivity|lia|lia|]. split; [|exact F]. unfold one20. rewrite E. simpl. lra. Qed.
Lemma tiny900_val : B2R tiny900 = bpow radix2 (-900) /\ is_finite tiny900 = true.
Proof. destruct (B2R_fz2 1 (-900)) as [F E]; [reflexivity|lia|lia|]. split; [|exact F]. unfold tiny900. rewrite E. apply Rmult_1_l. Qed.

Section W.
Variables (w k f t : R).
Let d := / 1048576.
Hypothesis Hw : bpow radix2 (-900) <= w.
Hypothesis Hk : d <= k <= 1 - d.
Hypothesis Hf : 0 <= f <= 1 - d.
Hypothesis Ht : 0 <= t.
Hypothesis Htf : t <= rnd (f * w).

Lemma width_R : 0 <= rnd (rnd (1 - k) * t) /\ 0 < rnd (k * w) /\ 0 <= rnd (1 - k) <= 1 /\
  rnd (rnd (1 - k) * t) + rnd (k * w) <= w.
Proof.
  assert (w0 : 0 < w) by (pose proof (bpow_gt_0 radix2 (-900)); lra).
  assert (He : eta <= w * (uu * uu)).
  { unfold eta, uu. replace (-1074)%Z with (-900 + -174)%Z by lia. rewrite bpow_plus.
    apply Rmult_le_compat; try apply bpow_ge_0; [exact Hw|]. rewrite <- bpow_plus. apply bpow_le. lia. }
  pose proof eta_pos as Hep. unfold d in *.
  assert (Hu : 0 < uu) by (apply bpow_gt_0).
  assert (He1 : eta <= uu * uu). { unfold eta, uu. rewrite <- bpow_plus. apply bpow_le. lia. }
  assert (Hfw : 0 <= f * w <= (1 - / 1048576) * w) by (split; [apply Rmult_le_pos|apply Rmult_le_compat_r]; lra).
  pose proof (rnd_err (f * w) ltac:(lra)) as [_ E1].
  pose proof (rnd_err (1 - k) ltac:(lra)) as [_ E2].
  assert (C0 : 0 <= rnd (1 - k)). { rewrite <- rnd_0. apply rnd_le. lra. }
  assert (C1 : rnd (1 - k) <= 1). { apply Rle_trans with (rnd (B2R f1)); [apply rnd_le; rewrite B2R_f1; lra|rewrite rnd_id, B2R_f1; lra]. }
  assert (T1 : t <= w * (1 - / 2097152)).
  { rewrite uu_val in *. set (fw := f * w) in *. clearbody fw. nra. }
  assert (C2 : rnd (1 - k) <= (1 - k) * (1 + / 16777216)).
  { rewrite uu_val in *. nra. }
  assert (P : 0 <= rnd (1 - k) * t) by (apply Rmult_le_pos; lra).
  assert (P1 : rnd (1 - k) * t <= ((1 - k) * (1 + / 16777216)) * (w * (1 - / 2097152))).
  { apply Rmult_le_compat; lra. }
  pose proof (rnd_err _ P) as [_ E3].
  assert (Hkw : / 1048576 * w <= k * w <= w) by (split; nra).
  pose proof (rnd_err (k * w) ltac:(nra)) as [E4l E4].
  split; [rewrite <- rnd_0; apply rnd_le; exact P|].
  split. { rewrite uu_val in *. set (kw := k * w) in *. clearbody kw. nra. }
  split; [lra|].
  (* (1-k) w (1 + 2^-24)(1 - 2^-21) + k w + small <= w *)
  set (p := (1 - k) * w). assert (Hp : / 1048576 * w <= p) by (apply Rmult_le_compat_r; lra).
  assert (Q : rnd (1 - k) * t <= p * (1 - / 4194304)).
  { apply Rle_trans with (1 := P1). unfold p. 
    replace ((1 - k) * (1 + / 16777216) * (w * (1 - / 2097152))) with (((1 - k) * w) * ((1 + / 16777216) * (1 - / 2097152))) by ring.
    apply Rmult_le_compat_l; [apply Rmult_le_pos; lra|lra]. }
  assert (Eq : w = p + k * w) by (unfold p; ring).
  set (kw := k * w) in *. set (ct := rnd (1 - k) * t) in *. clearbody kw ct p.
  rewrite uu_val in *.
  assert (ct * / 9007199254740992 <= w * / 9007199254740992) by (apply Rmult_le_compat_r; nra).
  assert (kw * / 9007199254740992 <= w * / 9007199254740992) by (apply Rmult_le_compat_r; nra).
  assert (eta <= w * / 9007199254740992) by nra.
  nra.
Qed.
End W.

Section WD.
Variable o : fopts dbl.
Hypothesis Hk : fle d20 (fo_kappa o) = true /\ fle (fo_kappa o) one20 = true.
Hypothesis Hf : flt f0 (fo_decrease o) = true /\ fle (fo_decrease o) one20 = true.

Lemma decreased_dbl w t : is_finite w = true -> fle tiny900 w = true -> fle f0 t = true ->
  suff_decrease o w t = true ->
  is_finite (decreased o w t) = true /\ flt f0 (decreased o w t) = true /\ fle (decreased o w t) w = true.
Proof.
  intros Fw Hw Ht Hs. destruct Hk as [K1 K2], Hf as [F1 F2].
  destruct d20_val as [Ed Fd], one20_val as [Eo Fo], tiny900_val as [Et Ft].
  assert (Fk : is_finite (fo_kappa o) = true) by (apply (fin_between _ d20 one20); auto).
  assert (Ff : is_finite (fo_decrease o) = true) by (apply (fin_between _ f0 one20); auto using flt_fle).
  apply (fle_fin _ _ Fd Fk) in K1. apply (fle_fin _ _ Fk Fo) in K2. apply (flt_fin f0 _ eq_refl Ff) in F1.
  apply (fle_fin _ _ Ff Fo) in F2. apply (fle_fin _ _ Ft Fw) in Hw. rewrite Ed in K1. rewrite Eo in K2, F2. rewrite Et in Hw.
  rewrite B2R_f0 in F1.
  assert (w0 : 0 < B2R w) by (pose proof (bpow_gt_0 radix2 (-900)); lra).
  unfold suff_decrease in Hs. change (fle t (fmul (fo_decrease o) w) = true) in Hs.
  destruct (fmul_spec _ _ Ff Fw) as (_ & _ & S1).
  set (d := / 1048576) in *.
  assert (Hfw0 : 0 <= B2R (fo_decrease o) * B2R w) by (apply Rmult_le_pos; lra).
  assert (Hfw1 : B2R (fo_decrease o) * B2R w <= B2R w) by (unfold d in *; nra).
  assert (R0 : 0 <= rnd (B2R (fo_decrease o) * B2R w) <= B2R w).
  { split; [rewrite <- rnd_0; apply rnd_le; exact Hfw0|rewrite <- (rnd_id w) at 2; apply rnd_le; exact Hfw1]. }
  pose proof (B2R_bound w) as Bw. pose proof BIG_pos.
  destruct S1 as [F3 E3]; [lra|].
  assert (Ftt : is_finite t = true) by (apply (fin_between _ f0 (fmul (fo_decrease o) w)); auto).
  apply (fle_fin f0 _ eq_refl Ftt) in Ht. apply (fle_fin _ _ Ftt F3) in Hs. rewrite E3 in Hs. rewrite B2R_f0 in Ht.
  destruct (width_R (B2R w) (B2R (fo_kappa o)) (B2R (fo_decrease o)) (B2R t) Hw) as (A1 & A2 & [A3 A3'] & A4); [unfold d in *; lra|unfold d in *; lra|lra|exact Hs|].
  unfold decreased. change (@nadd dbl) with fadd. change (@nmul dbl) with fmul. change (@nsub dbl) with fsub. change (@n1 dbl) with f1.
  destruct (fsub_spec f1 _ fin_f1 Fk) as (_ & _ & S2). rewrite B2R_f1 in S2.
  assert (B1 : 1 < BIG). { rewrite <- B2R_f1. apply B2R_bound. }
  destruct S2 as [F4 E4]; [lra|].
  destruct (fmul_spec _ _ F4 Ftt) as (_ & _ & S3). rewrite E4 in S3.
  destruct S3 as [F5 E5]; [lra|].
  destruct (fmul_spec _ _ Fk Fw) as (_ & _ & S4). destruct S4 as [F6 E6]; [lra|].
  destruct (fadd_spec _ _ F5 F6) as (_ & _ & S5). rewrite E5, E6 in S5.
  assert (L : rnd (rnd (rnd (1 - B2R (fo_kappa o)) * B2R t) + rnd (B2R (fo_kappa o) * B2R w)) <= B2R w).
  { rewrite <- (rnd_id w) at 2. apply rnd_le. exact A4. }
  assert (L0 : rnd (B2R (fo_kappa o) * B2R w) <= rnd (rnd (rnd (1 - B2R (fo_kappa o)) * B2R t) + rnd (B2R (fo_kappa o) * B2R w))).
  { rewrite <- E6 at 1. rewrite <- (rnd_id (fmul (fo_kappa o) w)). rewrite E6. apply rnd_le. lra. }
  destruct S5 as [F7 E7]; [lra|]. split; [exact F7|]. split.
  - apply flt_fin; [reflexivity|exact F7|]. rewrite E7, B2R_f0. lra.
  - apply fle_fin; [exact F7|exact Fw|]. rewrite E7. exact L.
Qed.

Definition not_negative (v : double) : Prop := isnan v = true \/ fle f0 v = true.
Variable iterate : Type.
Notation gstate := (gstate dbl iterate).
(** C20 on doubles: one line search *)
Lemma step_width_dbl n (d : direction dbl iterate) (s s' : gstate) st :
  (forall x a, not_negative (snd (d_trial d x a))) ->
  is_finite (fwidth (g_mem s)) = true -> fle tiny900 (fwidth (g_mem s)) = true ->
  funnel_step o n d s = Some (s', st) ->
  is_finite (fwidth (g_mem s')) = true /\ flt f0 (fwidth (g_mem s')) = true /\ fle (fwidth (g_mem s')) (fwidth (g_mem s)) = true.
Proof.
  intros Hn Fw Hw H. apply step_spec in H.
  assert (Same : is_finite (fwidth (g_mem s)) = true /\ flt f0 (fwidth (g_mem s)) = true /\ fle (fwidth (g_mem s)) (fwidth (g_mem s)) = true).
  { split; [exact Fw|]. split; [|apply fle_refl; destruct (fwidth (g_mem s)); reflexivity || discriminate].
    apply flt_fle_trans with (2 := Hw). vm_compute. reflexivity. }
  destruct H as [_ [(_ & _ & _ & _ & -> & _)|(_ & x & c & v & Et & _ & _ & _ & _ & _ & E)]]; [exact Same|].
  destruct E as [-> | [Es ->]]; [exact Same|]. apply decreased_dbl; auto.
  specialize (Hn (g_out s) (g_step s')). rewrite Et in Hn. cbn [snd] in Hn. destruct Hn as [Hn|Hn]; [exfalso|exact Hn].
  unfold suff_decrease in Es. change (fle v (fmul (fo_decrease o) (fwidth (g_mem s))) = true) in Es.
  rewrite fle_nan_l in Es by exact Hn. discriminate Es.
Qed.

(** C20 on doubles: a whole solve, as long as the width has not shrunk below 2^-900 *)
Lemma run_width_dbl fuel (pick : gstate -> direction dbl iterate) :
  (forall s x a, not_negative (snd (d_trial (pick s) x a))) -> forall steps (s s' : gstate) st,
  is_finite (fwidth (g_mem s)) = true ->
  (forall k s1, (k < steps)%nat -> funnel_run o fuel k pick s = Some (s1, ACADOS_SUCCESS) -> fle tiny900 (fwidth (g_mem s1)) = true) ->
  funnel_run o fuel steps pick s = Some (s', st) -> (steps > 0)%nat ->
  is_finite (fwidth (g_mem s')) = true /\ flt f0 (fwidth (g_mem s')) = true /\ fle (fwidth (g_mem s')) (fwidth (g_mem s)) = true.
Proof.
  intros Hp. induction steps as [|k IH]; intros s s' st Fw Hk' H Hpos; [lia|]. cbn [funnel_run] in H.
  destruct (funnel_step o fuel (pick s) s) as [[s1 st1]|] eqn:E; [|discriminate H].
  assert (T0 : fle tiny900 (fwidth (g_mem s)) = true) by (apply (Hk' 0%nat); [lia|reflexivity]).
  pose proof (step_width_dbl _ _ _ _ _ (Hp s) Fw T0 E) as (W1 & W2 & W3).
  destruct (Z.eqb st1 ACADOS_SUCCESS) eqn:Est; [|injection H as <- <-; auto].
  destruct k as [|k]; [cbn [funnel_run] in H; injection H as <- <-; auto|].
  destruct (IH s1 s' st W1) as (V1 & V2 & V3); [|exact H|lia|].
  - intros j s2 Hj H2. apply (Hk' (S j)); [lia|]. cbn [funnel_run]. rewrite E, Est. exact H2.
  - split; [exact V1|]. split; [exact V2|]. apply fle_trans with (1 := V3). exact W3.
Qed.
End WD.
