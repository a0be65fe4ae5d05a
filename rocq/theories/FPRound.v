(** Arithmetic of doubles as rounded real arithmetic. *)
From Coq Require Import ZArith Bool Lia Reals Lra Psatz.
From Flocq Require Import Core IEEE754.BinarySingleNaN.
From Verif Require Import FP FPProofs.
Open Scope R_scope.

Definition rnd (r : R) : R := round radix2 (FLT_exp (-1074) 53) ZnearestE r.
(** rounding with saturation at +-2^1024 (the image of the infinities under [er]) *)
Definition crnd (r : R) : R := Rmax (- BIG) (Rmin BIG (rnd r)).

#[local] Instance vexp : Valid_exp (FLT_exp (-1074) 53) := FLT_exp_valid (-1074) 53.

Lemma rnd_le x y : x <= y -> rnd x <= rnd y.
Proof. intros H. apply round_le; [exact vexp|apply valid_rnd_N|exact H]. Qed.
Lemma rnd_0 : rnd 0 = 0. Proof. apply round_0, valid_rnd_N. Qed.
Lemma rnd_opp x : rnd (- x) = - rnd x. Proof. apply round_NE_opp. Qed.
Lemma fmt (x : double) : generic_format radix2 (FLT_exp (-1074) 53) (B2R x).
Proof. exact (generic_format_B2R 53 1024 x). Qed.
Lemma rnd_id (x : double) : rnd (B2R x) = B2R x.
Proof. apply round_generic; [apply valid_rnd_N|apply fmt]. Qed.

Lemma crnd_le x y : x <= y -> crnd x <= crnd y.
Proof.
  intros H. apply rnd_le in H. unfold crnd. apply Rle_max_compat_l. apply Rle_min_compat_l. exact H.
Qed.
Lemma crnd_in x : - BIG < rnd x < BIG -> crnd x = rnd x.
Proof. intros H. unfold crnd. rewrite Rmin_right, Rmax_right by lra. reflexivity. Qed.
Lemma crnd_hi x : BIG <= rnd x -> crnd x = BIG.
Proof. intros H. pose proof BIG_pos. unfold crnd. rewrite Rmin_left, Rmax_right by lra. reflexivity. Qed.
Lemma crnd_lo x : rnd x <= - BIG -> crnd x = - BIG.
Proof. intros H. pose proof BIG_pos. unfold crnd. rewrite Rmin_right, Rmax_left by lra. reflexivity. Qed.
Lemma crnd_id (x : double) : crnd (B2R x) = B2R x.
Proof. rewrite crnd_in; rewrite rnd_id; [reflexivity|apply B2R_bound]. Qed.
Lemma crnd_0 : crnd 0 = 0.
Proof. rewrite crnd_in; rewrite rnd_0; [reflexivity|pose proof BIG_pos; lra]. Qed.
Lemma crnd_ge0 x : 0 <= x -> 0 <= crnd x.
Proof. intros H. rewrite <- crnd_0. apply crnd_le, H. Qed.
Lemma crnd_le0 x : x <= 0 -> crnd x <= 0.
Proof. intros H. rewrite <- crnd_0. apply crnd_le, H. Qed.
(** rounding never crosses a double *)
Lemma crnd_le_f x (y : double) : x <= B2R y -> crnd x <= B2R y.
Proof. intros H. rewrite <- (crnd_id y). apply crnd_le, H. Qed.
Lemma crnd_ge_f x (y : double) : B2R y <= x -> B2R y <= crnd x.
Proof. intros H. rewrite <- (crnd_id y). apply crnd_le, H. Qed.

Lemma er_overflow r s : BIG <= Rabs r -> (0 <= r -> s = false) -> (r < 0 -> s = true) ->
  er (B754_infinity s : double) = Rmax (- BIG) (Rmin BIG r).
Proof.
  intros H H1 H2. pose proof BIG_pos. destruct (Rle_lt_dec 0 r) as [L|L].
  - rewrite (H1 L). rewrite Rabs_pos_eq in H by exact L. rewrite Rmin_left, Rmax_right by lra. reflexivity.
  - rewrite (H2 L). rewrite Rabs_left in H by exact L. rewrite Rmin_right, Rmax_left by lra. reflexivity.
Qed.

Lemma sign_pos (x : double) : 0 < B2R x -> Bsign x = false.
Proof.
  destruct x as [s|s| |s m e Hm]; simpl; try lra. destruct s; [|reflexivity].
  intros H. exfalso. apply (Rlt_irrefl 0). apply Rlt_trans with (1 := H). apply F2R_lt_0. reflexivity.
Qed.
Lemma sign_neg (x : double) : B2R x < 0 -> Bsign x = true.
Proof.
  destruct x as [s|s| |s m e Hm]; simpl; try lra. destruct s; [reflexivity|].
  intros H. exfalso. apply (Rlt_irrefl 0). refine (Rlt_trans _ _ _ _ H). apply F2R_gt_0. reflexivity.
Qed.
Lemma inf_inv (z : double) s : B2SF z = SpecFloat.S754_infinity s -> z = B754_infinity s.
Proof. destruct z; simpl; try discriminate. intros H; injection H as ->; reflexivity. Qed.

Lemma rnd_sign r : (0 < rnd r -> 0 < r) /\ (rnd r < 0 -> r < 0).
Proof.
  split; intros H.
  - destruct (Rle_lt_dec r 0) as [L|L]; [|exact L]. apply rnd_le in L. rewrite rnd_0 in L. lra.
  - destruct (Rle_lt_dec 0 r) as [L|L]; [|exact L]. apply rnd_le in L. rewrite rnd_0 in L. lra.
Qed.

(** common shape of the correctness statements *)
Definition op_spec (z : double) (r : R) : Prop :=
  isnan z = false /\ er z = crnd r /\ (- BIG < rnd r < BIG -> is_finite z = true /\ B2R z = rnd r).

Lemma op_spec_fin z r : is_finite z = true -> B2R z = rnd r -> op_spec z r.
Proof.
  intros F E. split; [destruct z; try discriminate F; reflexivity|].
  assert (H : - BIG < rnd r < BIG) by (rewrite <- E; apply B2R_bound).
  split; [|auto]. rewrite crnd_in by exact H. rewrite er_fin by exact F. exact E.
Qed.
Lemma op_spec_inf z r s : z = B754_infinity s -> BIG <= Rabs (rnd r) ->
  (0 < rnd r -> s = false) -> (rnd r < 0 -> s = true) -> op_spec z r.
Proof.
  intros -> H H1 H2. split; [reflexivity|]. pose proof BIG_pos. split.
  - apply er_overflow; [exact H| |exact H2]. intros L. apply H1.
    destruct L as [L|L]; [exact L|]. rewrite <- L, Rabs_R0 in H. lra.
  - intros L. exfalso. apply Rabs_lt in L. lra.
Qed.

Lemma BIG_bpow : BIG = bpow radix2 1024. Proof. Transparent BIG. reflexivity. Opaque BIG. Qed.

Lemma fmul_spec x y : is_finite x = true -> is_finite y = true -> op_spec (fmul x y) (B2R x * B2R y).
Proof.
  intros Fx Fy. pose proof (Bmult_correct 53 1024 prec_gt_0_53 prec_lt_emax_53 mode_NE x y) as C.
  change (round radix2 (SpecFloat.fexp 53 1024) (round_mode mode_NE) (B2R x * B2R y)) with (rnd (B2R x * B2R y)) in C.
  rewrite <- BIG_bpow in C. fold (fmul x y) in C.
  destruct (Rlt_bool_spec (Rabs (rnd (B2R x * B2R y))) BIG) as [L|L].
  - destruct C as (C1 & C2 & _). apply op_spec_fin; [rewrite C2, Fx, Fy; reflexivity|exact C1].
  - apply (op_spec_inf _ _ (xorb (Bsign x) (Bsign y))); [apply inf_inv; exact C|exact L| |].
    + intros H. apply rnd_sign in H. destruct (Rtotal_order (B2R x) 0) as [Hx|[Hx|Hx]].
      * rewrite (sign_neg x Hx). rewrite (sign_neg y); [reflexivity|]. nra.
      * rewrite Hx in H. lra.
      * rewrite (sign_pos x Hx). rewrite (sign_pos y); [reflexivity|]. nra.
    + intros H. apply rnd_sign in H. destruct (Rtotal_order (B2R x) 0) as [Hx|[Hx|Hx]].
      * rewrite (sign_neg x Hx). rewrite (sign_pos y); [reflexivity|]. nra.
      * rewrite Hx in H. lra.
      * rewrite (sign_pos x Hx). rewrite (sign_neg y); [reflexivity|]. nra.
Qed.

Lemma sum_big_sign (x y : double) : Bsign x = Bsign y -> (0 < B2R x + B2R y -> Bsign x = false) /\ (B2R x + B2R y < 0 -> Bsign x = true).
Proof.
  intros E. split; intros H.
  - destruct (Rlt_le_dec 0 (B2R x)) as [L|L]; [apply sign_pos, L|]. rewrite E. apply sign_pos. lra.
  - destruct (Rlt_le_dec (B2R x) 0) as [L|L]; [apply sign_neg, L|]. rewrite E. apply sign_neg. lra.
Qed.

Lemma fadd_spec x y : is_finite x = true -> is_finite y = true -> op_spec (fadd x y) (B2R x + B2R y).
Proof.
  intros Fx Fy. pose proof (Bplus_correct 53 1024 prec_gt_0_53 prec_lt_emax_53 mode_NE x y Fx Fy) as C.
  change (round radix2 (SpecFloat.fexp 53 1024) (round_mode mode_NE) (B2R x + B2R y)) with (rnd (B2R x + B2R y)) in C.
  rewrite <- BIG_bpow in C. fold (fadd x y) in C.
  destruct (Rlt_bool_spec (Rabs (rnd (B2R x + B2R y))) BIG) as [L|L].
  - destruct C as (C1 & C2 & _). apply op_spec_fin; assumption.
  - destruct C as (C1 & C2). apply (op_spec_inf _ _ (Bsign x)); [apply inf_inv; exact C1|exact L| |];
      intros H; apply rnd_sign in H; apply (sum_big_sign x y C2); exact H.
Qed.
Lemma fsub_spec x y : is_finite x = true -> is_finite y = true -> op_spec (fsub x y) (B2R x - B2R y).
Proof.
  intros Fx Fy. pose proof (Bminus_correct 53 1024 prec_gt_0_53 prec_lt_emax_53 mode_NE x y Fx Fy) as C.
  change (round radix2 (SpecFloat.fexp 53 1024) (round_mode mode_NE) (B2R x - B2R y)) with (rnd (B2R x - B2R y)) in C.
  rewrite <- BIG_bpow in C. fold (fsub x y) in C.
  destruct (Rlt_bool_spec (Rabs (rnd (B2R x - B2R y))) BIG) as [L|L].
  - destruct C as (C1 & C2 & _). apply op_spec_fin; assumption.
  - destruct C as (C1 & C2).
    assert (E : Bsign x = Bsign (Bopp y)).
    { rewrite C2. destruct y; simpl; try reflexivity; discriminate Fy. }
    apply (op_spec_inf _ _ (Bsign x)); [apply inf_inv; exact C1|exact L| |];
      intros H; apply rnd_sign in H; apply (sum_big_sign x (Bopp y) E); rewrite B2R_Bopp; lra.
Qed.
Lemma fdiv_spec x y : is_finite x = true -> B2R y <> 0 -> op_spec (fdiv x y) (B2R x / B2R y).
Proof.
  intros Fx Hy. pose proof (Bdiv_correct 53 1024 prec_gt_0_53 prec_lt_emax_53 mode_NE x y Hy) as C.
  change (round radix2 (SpecFloat.fexp 53 1024) (round_mode mode_NE) (B2R x / B2R y)) with (rnd (B2R x / B2R y)) in C.
  rewrite <- BIG_bpow in C. fold (fdiv x y) in C.
  destruct (Rlt_bool_spec (Rabs (rnd (B2R x / B2R y))) BIG) as [L|L].
  - destruct C as (C1 & C2 & _). apply op_spec_fin; [rewrite C2; exact Fx|exact C1].
  - assert (Hyi : (B2R y < 0 /\ / B2R y < 0) \/ (0 < B2R y /\ 0 < / B2R y)).
    { destruct (Rtotal_order (B2R y) 0) as [L1|[L1|L1]]; [left|contradiction|right]; (split; [exact L1|]).
      - apply Rinv_lt_0_compat, L1. - apply Rinv_0_lt_compat, L1. }
    apply (op_spec_inf _ _ (xorb (Bsign x) (Bsign y))); [apply inf_inv; exact C|exact L| |].
    + intros H. apply rnd_sign in H. unfold Rdiv in H.
      destruct Hyi as [[Y1 Y2]|[Y1 Y2]].
      * rewrite (sign_neg y Y1). rewrite (sign_neg x); [reflexivity|]. nra.
      * rewrite (sign_pos y Y1). rewrite (sign_pos x); [reflexivity|]. nra.
    + intros H. apply rnd_sign in H. unfold Rdiv in H.
      destruct Hyi as [[Y1 Y2]|[Y1 Y2]].
      * rewrite (sign_neg y Y1). rewrite (sign_pos x); [reflexivity|]. nra.
      * rewrite (sign_pos y Y1). rewrite (sign_neg x); [reflexivity|]. nra.
Qed.

(** an ordered value between finite doubles is finite *)
Lemma fin_between (x a b : double) : is_finite a = true -> is_finite b = true -> fle a x = true -> fle x b = true -> is_finite x = true.
Proof.
  intros Fa Fb H1 H2. destruct (fle_nn _ _ H2) as [Hn _]. apply fle_er in H1, H2. rewrite (er_fin a Fa) in H1. rewrite (er_fin b Fb) in H2.
  pose proof (B2R_bound a). pose proof (B2R_bound b).
  destruct x as [s|[|]| |s m e Hm]; try reflexivity; try discriminate Hn; unfold er in *; lra.
Qed.
