(** The l1 infeasibility measure (ocp_nlp_common.c:2703-2738). *)
From Coq Require Import ZArith List Bool Lia Reals Lra.
From Flocq Require Import Core IEEE754.BinarySingleNaN.
From Verif Require Import FP FPProofs FPRound FPStep Arith SqpModel RtiModel FunnelModel FunnelIeee FunnelWidth.
Import ListNotations.
Open Scope R_scope.

Definition Rsum (l : list R) : R := fold_right Rplus 0 l.
Lemma Rsum_app a b : Rsum (a ++ b) = Rsum a + Rsum b.
Proof. induction a; simpl; [lra|]. unfold Rsum in *. simpl. rewrite IHa. lra. Qed.

Lemma l1_abs v : forall a, fold_left (fun a x => @nadd real a (@nabs real x)) v a = a + Rsum (map Rabs v).
Proof. induction v as [|x v IH]; intros a; cbn [fold_left map Rsum fold_right]; [lra|]. rewrite IH. cbn. unfold Rsum. lra. Qed.
Lemma l1_pos v : forall a, fold_left (fun a x => if @nltb real n0 x then @nadd real a x else a) v a = a + Rsum (map (Rmax 0) v).
Proof.
  induction v as [|x v IH]; intros a; cbn [fold_left map Rsum fold_right]; [lra|]. rewrite IH. cbn.
  destruct (Rltb_spec 0 x); [rewrite Rmax_right by lra|rewrite Rmax_left by lra]; unfold Rsum; lra.
Qed.
Lemma l1_nest (f : R -> list R -> R) (g : list R -> R) (H : forall v a, f a v = a + g v) l :
  forall a, fold_left f l a = a + Rsum (map g l).
Proof. induction l as [|v l IH]; intros a; cbn [fold_left map Rsum fold_right]; [lra|]. rewrite IH, H. unfold Rsum. lra. Qed.
Lemma Rsum_concat (g : R -> R) l : Rsum (map (fun v => Rsum (map g v)) l) = Rsum (map g (concat l)).
Proof. induction l as [|v l IH]; [reflexivity|]. cbn [map concat]. rewrite map_app, Rsum_app, <- IH. reflexivity. Qed.

Lemma l1_real (dyn con : list (list R)) :
  l1_infeasibility real dyn con = Rsum (map Rabs (concat dyn)) + Rsum (map (Rmax 0) (concat con)).
Proof.
  unfold l1_infeasibility. change (@nadd real) with Rplus at 1. f_equal.
  - rewrite (l1_nest _ (fun v => Rsum (map Rabs v))) by (intros; apply l1_abs). rewrite Rsum_concat. cbn. lra.
  - rewrite (l1_nest _ (fun v => Rsum (map (Rmax 0) v))) by (intros; apply l1_pos). rewrite Rsum_concat. cbn. lra.
Qed.
Lemma Rsum_nonneg (g : R -> R) (Hg : forall x, 0 <= g x) l : 0 <= Rsum (map g l) /\ (Rsum (map g l) = 0 <-> Forall (fun x => g x = 0) l).
Proof.
  induction l as [|x l [IH1 IH2]]; cbn [map Rsum fold_right].
  - split; [lra|]. split; auto.
  - fold (Rsum (map g l)). specialize (Hg x). split; [lra|]. split.
    + intros H. constructor; [lra|]. apply IH2. lra.
    + intros H. inversion H as [|? ? H1 H2]; subst. apply IH2 in H2. lra.
Qed.
Lemma l1_zero_iff (dyn con : list (list R)) :
  0 <= l1_infeasibility real dyn con /\
  (l1_infeasibility real dyn con = 0 <-> Forall (Forall (fun x => x = 0)) dyn /\ Forall (Forall (fun x => x <= 0)) con).
Proof.
  rewrite l1_real. destruct (Rsum_nonneg Rabs Rabs_pos (concat dyn)) as [A1 A2].
  destruct (Rsum_nonneg (Rmax 0) (fun x => Rmax_l 0 x) (concat con)) as [B1 B2]. split; [lra|].
  assert (E1 : Forall (fun x => Rabs x = 0) (concat dyn) <-> Forall (Forall (fun x => x = 0)) dyn).
  { rewrite <- Forall_concat. split; apply Forall_impl; intros x H; [|subst; apply Rabs_R0].
    destruct (Req_dec x 0) as [E|E]; [exact E|]. apply Rabs_no_R0 in E. contradiction. }
  assert (E2 : Forall (fun x => Rmax 0 x = 0) (concat con) <-> Forall (Forall (fun x => x <= 0)) con).
  { rewrite <- Forall_concat. split; apply Forall_impl; intros x H; [|apply Rmax_left; exact H].
    rewrite <- H. apply Rmax_r. }
  split.
  - intros H. split; [apply E1, A2|apply E2, B2]; lra.
  - intros [H1 H2]. apply E1, A2 in H1. apply E2, B2 in H2. lra.
Qed.

(** doubles: never a negative number *)
Lemma nn_add a x : not_negative a -> not_negative x -> not_negative (fadd a x).
Proof.
  intros [Ha|Ha]; [left; destruct a; try discriminate Ha; destruct x; reflexivity|].
  intros [Hx|Hx]; [left; destruct x; try discriminate Hx; destruct a; reflexivity|].
  destruct (is_finite a) eqn:Fa, (is_finite x) eqn:Fx.
  - right. destruct (fadd_spec a x Fa Fx) as (N & E & _). apply fle_spec; [reflexivity|exact N|].
    rewrite E. change (er f0) with (B2R f0). rewrite B2R_f0. apply crnd_ge0.
    apply (fle_fin f0 _ eq_refl Fa) in Ha. apply (fle_fin f0 _ eq_refl Fx) in Hx. rewrite B2R_f0 in *. lra.
  - right. destruct x as [s|[|]| |s m e H]; try discriminate Fx; try discriminate Hx. destruct a as [s|[|]| |s m e H]; try discriminate Fa; reflexivity.
  - right. destruct a as [s|[|]| |s m e H]; try discriminate Fa; try discriminate Ha. destruct x as [s|[|]| |s m e H]; try discriminate Fx; reflexivity.
  - right. destruct a as [s|[|]| |s m e H]; try discriminate Fa; try discriminate Ha.
    destruct x as [s|[|]| |s m e H]; try discriminate Fx; try discriminate Hx. reflexivity.
Qed.
Lemma nn_abs x : not_negative (fabs x).
Proof.
  destruct (isnan x) eqn:N; [left; destruct x; try discriminate N; reflexivity|right].
  destruct (is_finite x) eqn:F.
  - assert (F2 : is_finite (fabs x) = true) by (destruct x; try discriminate F; reflexivity).
    apply fle_fin; [reflexivity|exact F2|]. rewrite B2R_f0. unfold fabs. rewrite B2R_Babs. apply Rabs_pos.
  - destruct x as [s|s| |s m e H]; try discriminate F; try discriminate N. reflexivity.
Qed.
Lemma nn_fold {X} (f : double -> X -> double) (H : forall a x, not_negative a -> not_negative (f a x)) l :
  forall a, not_negative a -> not_negative (fold_left f l a).
Proof. induction l as [|x l IH]; intros a Ha; cbn [fold_left]; auto. Qed.
Lemma nn_0 : not_negative f0. Proof. right. reflexivity. Qed.
Lemma l1_not_negative (dyn con : list (list double)) : not_negative (l1_infeasibility dbl dyn con).
Proof.
  unfold l1_infeasibility. change (@nadd dbl) with fadd. change (@nabs dbl) with fabs. change (@nltb dbl) with flt. change (@n0 dbl) with f0.
  apply nn_add; (apply nn_fold; [|exact nn_0]); intros a v Ha; (apply nn_fold; [|exact Ha]); intros b x Hb.
  - apply nn_add; [exact Hb|apply nn_abs].
  - destruct (flt f0 x) eqn:E; [|exact Hb]. apply nn_add; [exact Hb|]. right. apply flt_fle. exact E.
Qed.
(** a NaN constraint value counts as feasible *)
Lemma l1_nan_ignored : exists con : list (list double),
  Exists (Exists (fun x => isnan x = true)) con /\ fle (l1_infeasibility dbl [] con) f0 = true.
Proof. exists [[fnan]]. split; [repeat constructor|vm_compute; reflexivity]. Qed.
(** ... whereas a NaN dynamics residual is never hidden *)
Lemma l1_nan_dyn (dyn con : list (list double)) :
  Exists (Exists (fun x => isnan x = true)) dyn -> isnan (l1_infeasibility dbl dyn con) = true.
Proof.
  intros H. unfold l1_infeasibility. change (@nadd dbl) with fadd. change (@nabs dbl) with fabs. change (@n0 dbl) with f0.
  assert (Nl : forall a b, isnan a = true -> isnan (fadd a b) = true) by (intros [] []; reflexivity || discriminate).
  assert (Nr : forall a b, isnan b = true -> isnan (fadd a (fabs b)) = true) by (intros [] []; reflexivity || discriminate).
  apply Nl. generalize f0 as a.
  assert (K : forall v a, isnan a = true \/ Exists (fun x => isnan x = true) v -> isnan (fold_left (fun a x => fadd a (fabs x)) v a) = true).
  { induction v as [|x v IH]; intros a [E|E]; cbn [fold_left]; [exact E|inversion E|apply IH; auto|].
    inversion E; subst; apply IH; [left; apply Nr; assumption|right; assumption]. }
  intros a. revert a.
  assert (K2 : forall dyn a, isnan a = true \/ Exists (Exists (fun x => isnan x = true)) dyn ->
     isnan (fold_left (fun a v => fold_left (fun a x => fadd a (fabs x)) v a) dyn a) = true).
  { induction dyn0 as [|v l IH]; intros a [E|E]; cbn [fold_left]; [exact E|inversion E|apply IH; left; apply K; auto|].
    inversion E; subst; apply IH; [left; apply K; auto|right; assumption]. }
  intros a. apply K2. right. exact H.
Qed.
