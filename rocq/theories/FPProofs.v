(** Order and rounding facts about doubles. *)
From Coq Require Import ZArith Bool Lia Reals Lra.
From Flocq Require Import Core IEEE754.BinarySingleNaN.
From Verif Require Import FP.
Open Scope R_scope.

(** Embedding of the non-NaN doubles into the reals, infinities at +-2^1024. *)
Definition BIG : R := bpow radix2 1024.
Lemma BIG_pos : 0 < BIG. Proof. apply bpow_gt_0. Qed.
Lemma B2R_bound (x : double) : - BIG < B2R x < BIG.
Proof. pose proof (abs_B2R_lt_emax 53 1024 x) as H. apply Rabs_lt_inv in H. exact H. Qed.
Opaque BIG.
Definition er (x : double) : R :=
  match x with
  | B754_infinity false => BIG
  | B754_infinity true => - BIG
  | _ => B2R x
  end.

Lemma er_fin x : is_finite x = true -> er x = B2R x.
Proof. destruct x; try discriminate; reflexivity. Qed.
Lemma er_bound x : - BIG <= er x <= BIG.
Proof. pose proof (B2R_bound x). pose proof BIG_pos.
  destruct x as [s|[|]| |s m e Hm]; unfold er; lra. Qed.

Lemma inf_cases (x : double) : isnan x = false -> is_finite x = false -> x = B754_infinity true \/ x = B754_infinity false.
Proof. destruct x as [s|[|]| |s m e Hm]; try discriminate; auto. Qed.
Lemma cmp_fin_pinf (x : double) : is_finite x = true -> Bcompare x (B754_infinity false) = Some Lt.
Proof. destruct x as [s|[|]| |s m e Hm]; try discriminate; reflexivity. Qed.
Lemma cmp_fin_ninf (x : double) : is_finite x = true -> Bcompare x (B754_infinity true) = Some Gt.
Proof. destruct x as [s|[|]| |s m e Hm]; try discriminate; reflexivity. Qed.

Lemma cmp_spec (x y : double) : isnan x = false -> isnan y = false -> Bcompare x y = Some (Rcompare (er x) (er y)).
Proof.
  intros Hx Hy. pose proof BIG_pos as Hp.
  destruct (is_finite x) eqn:Fx, (is_finite y) eqn:Fy.
  - rewrite Bcompare_correct by assumption. rewrite (er_fin x Fx), (er_fin y Fy). reflexivity.
  - pose proof (B2R_bound x). rewrite (er_fin x Fx).
    destruct (inf_cases y Hy Fy) as [-> | ->].
    + rewrite cmp_fin_ninf by exact Fx. rewrite Rcompare_Gt; [reflexivity|]. unfold er. lra.
    + rewrite cmp_fin_pinf by exact Fx. rewrite Rcompare_Lt; [reflexivity|]. unfold er. lra.
  - pose proof (B2R_bound y). rewrite (er_fin y Fy). rewrite Bcompare_swap.
    destruct (inf_cases x Hx Fx) as [-> | ->].
    + rewrite cmp_fin_ninf by exact Fy. rewrite Rcompare_Lt; [reflexivity|]. unfold er. lra.
    + rewrite cmp_fin_pinf by exact Fy. rewrite Rcompare_Gt; [reflexivity|]. unfold er. lra.
  - destruct (inf_cases x Hx Fx) as [-> | ->], (inf_cases y Hy Fy) as [-> | ->]; unfold er.
    + rewrite Rcompare_Eq by reflexivity. reflexivity.
    + rewrite Rcompare_Lt by lra. reflexivity.
    + rewrite Rcompare_Gt by lra. reflexivity.
    + rewrite Rcompare_Eq by reflexivity. reflexivity.
Qed.

Lemma flt_spec x y : isnan x = false -> isnan y = false -> flt x y = true <-> er x < er y.
Proof.
  intros Hx Hy. pose proof (cmp_spec x y Hx Hy) as H. unfold Bcompare in H.
  unfold flt, Bltb, SpecFloat.SFltb. rewrite H. case Rcompare_spec; intros; split; intros; try discriminate; try reflexivity; lra.
Qed.
Lemma fle_spec x y : isnan x = false -> isnan y = false -> fle x y = true <-> er x <= er y.
Proof.
  intros Hx Hy. pose proof (cmp_spec x y Hx Hy) as H. unfold Bcompare in H.
  unfold fle, Bleb, SpecFloat.SFleb. rewrite H. case Rcompare_spec; intros; split; intros; try discriminate; try reflexivity; lra.
Qed.

(** NaN never compares *)
Lemma flt_nan_l x y : isnan x = true -> flt x y = false.
Proof. destruct x; try discriminate. reflexivity. Qed.
Lemma flt_nan_r x y : isnan y = true -> flt x y = false.
Proof. destruct y; try discriminate. intros _. destruct x; try reflexivity; destruct s; reflexivity. Qed.
Lemma fle_nan_l x y : isnan x = true -> fle x y = false.
Proof. destruct x; try discriminate. reflexivity. Qed.
Lemma fle_nan_r x y : isnan y = true -> fle x y = false.
Proof. destruct y; try discriminate. intros _. destruct x; try reflexivity; destruct s; reflexivity. Qed.

Lemma flt_nn x y : flt x y = true -> isnan x = false /\ isnan y = false.
Proof. intros H. split; [destruct (isnan x) eqn:E; [rewrite flt_nan_l in H by exact E; discriminate|reflexivity]
  |destruct (isnan y) eqn:E; [rewrite flt_nan_r in H by exact E; discriminate|reflexivity]]. Qed.
Lemma fle_nn x y : fle x y = true -> isnan x = false /\ isnan y = false.
Proof. intros H. split; [destruct (isnan x) eqn:E; [rewrite fle_nan_l in H by exact E; discriminate|reflexivity]
  |destruct (isnan y) eqn:E; [rewrite fle_nan_r in H by exact E; discriminate|reflexivity]]. Qed.

Lemma flt_er x y : flt x y = true -> er x < er y.
Proof. intros H. destruct (flt_nn _ _ H). apply flt_spec; assumption. Qed.
Lemma fle_er x y : fle x y = true -> er x <= er y.
Proof. intros H. destruct (fle_nn _ _ H). apply fle_spec; assumption. Qed.
Lemma flt_false x y : isnan x = false -> isnan y = false -> flt x y = false -> er y <= er x.
Proof. intros Hx Hy H. destruct (Rle_lt_dec (er y) (er x)) as [L|L]; [exact L|].
  apply flt_spec in L; try assumption. congruence. Qed.
Lemma fle_false x y : isnan x = false -> isnan y = false -> fle x y = false -> er y < er x.
Proof. intros Hx Hy H. destruct (Rle_lt_dec (er x) (er y)) as [L|L]; [|exact L].
  apply fle_spec in L; try assumption. congruence. Qed.

Lemma flt_trans x y z : flt x y = true -> flt y z = true -> flt x z = true.
Proof. intros H1 H2. destruct (flt_nn _ _ H1), (flt_nn _ _ H2). apply flt_er in H1, H2. apply flt_spec; auto; lra. Qed.
Lemma fle_trans x y z : fle x y = true -> fle y z = true -> fle x z = true.
Proof. intros H1 H2. destruct (fle_nn _ _ H1), (fle_nn _ _ H2). apply fle_er in H1, H2. apply fle_spec; auto; lra. Qed.
Lemma fle_refl x : isnan x = false -> fle x x = true.
Proof. intros H. apply fle_spec; auto; lra. Qed.
Lemma flt_fle x y : flt x y = true -> fle x y = true.
Proof. intros H. destruct (flt_nn _ _ H). apply flt_er in H. apply fle_spec; auto; lra. Qed.
Lemma fle_flt_trans x y z : fle x y = true -> flt y z = true -> flt x z = true.
Proof. intros H1 H2. destruct (fle_nn _ _ H1), (flt_nn _ _ H2). apply fle_er in H1. apply flt_er in H2. apply flt_spec; auto; lra. Qed.
Lemma flt_fle_trans x y z : flt x y = true -> fle y z = true -> flt x z = true.
Proof. intros H1 H2. destruct (flt_nn _ _ H1), (fle_nn _ _ H2). apply flt_er in H1. apply fle_er in H2. apply flt_spec; auto; lra. Qed.
Lemma flt_irrefl x : flt x x = false.
Proof. destruct (flt x x) eqn:H; [|reflexivity]. apply flt_er in H. lra. Qed.
Lemma flt_asym x y : flt x y = true -> flt y x = false.
Proof. intros H. destruct (flt y x) eqn:H2; [|reflexivity]. apply flt_er in H, H2. lra. Qed.
Lemma nlt_le x y : isnan x = false -> isnan y = false -> flt x y = false -> fle y x = true.
Proof. intros. apply fle_spec; auto. apply flt_false; auto. Qed.
Lemma le_nlt x y : fle x y = true -> flt y x = false.
Proof. intros H. destruct (flt y x) eqn:H2; [|reflexivity]. apply flt_er in H2. apply fle_er in H. lra. Qed.
