(** Backtracking on doubles: multiplying a normal double by a factor below one makes it strictly
    smaller, so that only finitely many reductions are possible. *)
From Coq Require Import ZArith Bool Lia Reals Lra Psatz.
From Flocq Require Import Core IEEE754.BinarySingleNaN.
From Verif Require Import FP FPProofs FPRound.
Open Scope R_scope.

Notation fx := (FLT_exp (-1074) 53).
#[local] Instance vexp : Valid_exp fx := FLT_exp_valid (-1074) 53.

Definition eta : R := bpow radix2 (-1074).
Definition dmin : R := bpow radix2 (-1022).      (* DBL_MIN *)
Lemma eta_pos : 0 < eta. Proof. apply bpow_gt_0. Qed.
Lemma dmin_pos : 0 < dmin. Proof. apply bpow_gt_0. Qed.

Lemma fmt_eta x : generic_format radix2 fx x -> exists k : Z, x = IZR k * eta.
Proof.
  intros H. apply generic_format_FIX_FLT in H. apply FIX_format_generic in H. destruct H as [f H1 H2].
  exists (Fnum f). rewrite H1. unfold F2R. rewrite H2. reflexivity.
Qed.
Lemma below_one r : generic_format radix2 fx r -> r < 1 -> r <= 1 - bpow radix2 (-53).
Proof.
  intros F H. replace 1 with (bpow radix2 0) at 1 by reflexivity.
  replace (bpow radix2 0 - bpow radix2 (-53)) with (pred radix2 fx (bpow radix2 0)).
  - apply pred_ge_gt; [exact vexp|exact F|apply generic_format_bpow; unfold FLT_exp; lia|exact H].
  - rewrite pred_bpow. reflexivity.
Qed.

Lemma shrink_R x r : generic_format radix2 fx x -> dmin < x -> generic_format radix2 fx r -> 0 <= r -> r < 1 ->
  rnd (x * r) < x.
Proof.
  intros Fx Hx Fr Hr0 Hr. assert (x0 : 0 < x) by (pose proof dmin_pos; lra).
  pose proof (below_one r Fr Hr) as Hb.
  assert (Fp : generic_format radix2 fx (pred radix2 fx x)) by (apply generic_format_pred; [exact vexp|exact Fx]).
  assert (Lp : pred radix2 fx x < x) by (apply pred_lt_id; lra).
  assert (Hp : dmin <= pred radix2 fx x).
  { apply pred_ge_gt; [exact vexp|apply generic_format_bpow; unfold FLT_exp; lia|exact Fx|exact Hx]. }
  assert (Sp : succ radix2 fx (pred radix2 fx x) = x) by (apply succ_pred; [exact vexp|exact Fx]).
  assert (U : pred radix2 fx x + ulp radix2 fx (pred radix2 fx x) = x) by (apply pred_plus_ulp; [exact vexp|exact x0|exact Fx]).
  assert (Ul : ulp radix2 fx (pred radix2 fx x) <= pred radix2 fx x * bpow radix2 (1 - 53)).
  { rewrite <- (Rabs_pos_eq (pred radix2 fx x)) at 2 by (pose proof dmin_pos; lra).
    apply ulp_FLT_le. rewrite Rabs_pos_eq by (pose proof dmin_pos; lra). exact Hp. }
  apply Rle_lt_trans with (2 := Lp). apply round_N_le_midp; [exact vexp|exact Fp|]. rewrite Sp.
  replace (bpow radix2 (1 - 53)) with (2 * bpow radix2 (-53)) in Ul.
  2:{ change (1 - 53)%Z with (1 + -53)%Z. rewrite bpow_plus. reflexivity. }
  pose proof (bpow_gt_0 radix2 (-53)) as Hu.
  assert (x * r <= x * (1 - bpow radix2 (-53))) by (apply Rmult_le_compat_l; lra).
  assert (pred radix2 fx x * bpow radix2 (-53) < x * bpow radix2 (-53)) by (apply Rmult_lt_compat_r; lra).
  lra.
Qed.

(** multiplication by a factor in [0,1) *)
Lemma shrink (a r : double) : is_finite a = true -> is_finite r = true -> 0 <= B2R a -> 0 <= B2R r -> B2R r < 1 ->
  is_finite (fmul a r) = true /\ 0 <= B2R (fmul a r) <= B2R a /\ (dmin < B2R a -> B2R (fmul a r) < B2R a).
Proof.
  intros Fa Fr Ha Hr0 Hr. destruct (fmul_spec a r Fa Fr) as (_ & _ & H).
  assert (L1 : 0 <= rnd (B2R a * B2R r)). { rewrite <- rnd_0. apply rnd_le. apply Rmult_le_pos; assumption. }
  assert (L2 : rnd (B2R a * B2R r) <= B2R a). { rewrite <- (rnd_id a) at 2. apply rnd_le. nra. }
  pose proof (B2R_bound a). pose proof BIG_pos. destruct H as [F E]; [lra|]. rewrite E. split; [exact F|]. split; [lra|].
  intros Hd. apply shrink_R; auto using fmt.
Qed.
