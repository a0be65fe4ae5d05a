(** padeapprox and expm: what is returned. *)
From Coq Require Import ZArith List Bool Lia Reals Lra Psatz.
From Verif Require Import Arith Vec LinModel LinProofs LinSolve PadeModel RSum PadeProofs.
Import ListNotations.
Open Scope R_scope.

Definition singular (n : nat) (M : matR) : Prop := exists v : vecR, (exists k, (k < n)%nat /\ v k <> 0) /\ forall i, (i < n)%nat -> mv n M v i = 0.
(** [returns n D N Y]: Y solves D Y = N, or D is singular and Y is just N *)
Definition returns (n : nat) (D N Y : matR) : Prop := (~ singular n D -> meq n (mm n D Y) N) /\ (singular n D -> meq n Y N).

Lemma dgesv_returns n (M B : matR) piv : returns n M B (fst (dgesv (A := real) n n M B piv)).
Proof.
  destruct (dgesv n n M B piv) as [Y i] eqn:E. cbn [fst]. split.
  - intros NS. destruct (Z.eq_dec i 0) as [->|N].
    + intros r c Hr Hc. unfold mm. rewrite <- (dgesv_solves n n M B piv Y E r c Hr Hc), <- vsum_sum. reflexivity.
    + exfalso. apply NS. destruct (dgesv_singular n n M B piv Y i E N) as (_ & _ & v & V & K). exists v. split; [exact V|].
      intros r Hr. unfold mv. rewrite <- vsum_sum. apply K, Hr.
  - intros (v & V & K). assert (N : snd (dgesv (A := real) n n M B piv) <> 0%Z).
    { apply (dgesv_flags n n M B piv v V). intros r Hr. rewrite vsum_sum. apply K, Hr. }
    rewrite E in N. destruct (dgesv_singular n n M B piv Y i E N) as (_ & H & _). intros r c _ _. apply H.
Qed.
Lemma singular_ext n M M' : meq n M M' -> singular n M -> singular n M'.
Proof. intros H (v & V & K). exists v. split; [exact V|]. intros i Hi. rewrite <- (K i Hi). unfold mv. apply sum_ext. intros k Hk. rewrite H by assumption. reflexivity. Qed.
Lemma meq_sym n X Y : meq n X Y -> meq n Y X.
Proof. intros H i j Hi Hj. symmetry. apply H; assumption. Qed.
Lemma returns_ext n D D' N N' Y : meq n D D' -> meq n N N' -> returns n D N Y -> returns n D' N' Y.
Proof.
  intros HD HN [R1 R2]. split.
  - intros NS. apply meq_trans with (mm n D Y); [|apply meq_trans with N; [apply R1|exact HN]].
    + apply mm_ext; [apply meq_sym, HD|intros ? ? _ _; reflexivity].
    + intros S. apply NS, (singular_ext n D D' HD S).
  - intros S. apply meq_trans with N; [apply R2, (singular_ext n D' D (meq_sym _ _ _ HD) S)|exact HN].
Qed.
Lemma pade_of_uv n (U V D N : matR) : meq n (fun i j => V i j + U i j) N -> meq n (fun i j => V i j - U i j) D ->
  returns n D N (fst (dgesv (A := real) n n (daxpy (A := real) (- (1)) U V) (daxpy (A := real) 1 U V) (fun _ => 0%nat))).
Proof.
  intros HN HD. eapply returns_ext; [| |apply dgesv_returns].
  - intros i j Hi Hj. rewrite <- (HD i j Hi Hj). unfold daxpy. cbn. lra.
  - intros i j Hi Hj. rewrite <- (HN i j Hi Hj). unfold daxpy. cbn. lra.
Qed.
Lemma pade_correct m n garb X : In m [3; 5; 7; 9]%nat ->
  exists Y, padeapprox (A := real) m n garb X = Some Y /\ returns n (pade_den m n X) (pade_num m n X) Y.
Proof.
  intros H. cbn in H.
  destruct H as [<-|[<-|[<-|[<-|[]]]]]; (eexists; split; [reflexivity|]); cbn [fst snd]; apply pade_of_uv.
  1,2: apply good3. 1,2: apply good5. 1,2: apply good7. 1,2: apply good9.
Qed.
(** degree 13 as coded: the coefficient of A^8 is 1 instead of 1323241920 *)
Definition coef13 (k : nat) : R := if (k =? 8)%nat then 1 else coef 13 k.
Definition num13 (n : nat) (X : matR) : matR := fun i j => sum 14 (fun k => coef13 k * mpow n X k i j).
Definition den13 (n : nat) (X : matR) : matR := fun i j => sum 14 (fun k => (-1) ^ k * coef13 k * mpow n X k i j).
Ltac ch n X := repeat first [apply comb_axpy | apply comb_zero | apply comb_scal | apply comb_mul | apply (p2 n X) | apply (p4 n X) | apply (p6 n X) | apply id_pow | apply x_pow | apply comb_pow].
Ltac coefs13 := cbn [sum fold_right fst snd shift map Nat.add];
  unfold coef13; cbn [Nat.eqb];
  repeat match goal with |- context[coef ?m ?k] => rewrite (coef_eq m k (nth k (pade_table m) 0%Z)) by (vm_compute; reflexivity) end;
  unfold pc; cbn [ncst real nth pade_table]; unfold rcst; cbn [Z.leb Z.compare Z.pow Z.pow_pos];
  rewrite ?Z.mul_1_r; cbn [pow].
Lemma uv13_lists n X : exists lu lv, meq n (fst (uv13 (A := real) n X)) (comb n X lu) /\ meq n (snd (uv13 (A := real) n X)) (comb n X lv) /\
  (forall f : nat -> R, fold_right (fun p a => fst p * f (snd p) + a) 0 lv + fold_right (fun p a => fst p * f (snd p) + a) 0 lu = sum 14 (fun k => coef13 k * f k)) /\
  (forall f : nat -> R, fold_right (fun p a => fst p * f (snd p) + a) 0 lv - fold_right (fun p a => fst p * f (snd p) + a) 0 lu = sum 14 (fun k => (-1) ^ k * coef13 k * f k)).
Proof.
  eexists. eexists. split; [|split; [|split]].
  - cbn [fst snd uv13]. ch n X.
  - cbn [fst snd uv13]. ch n X.
  - intros f. coefs13. ring.
  - intros f. coefs13. ring.
Qed.
Lemma pade13_actual n garb X : exists Y, padeapprox (A := real) 13 n garb X = Some Y /\ returns n (den13 n X) (num13 n X) Y.
Proof.
  destruct (uv13_lists n X) as (lu & lv & HU & HV & E1 & E2).
  eexists. split; [reflexivity|]. cbn [fst snd]. apply pade_of_uv; intros i j Hi Hj.
  - etransitivity; [|exact (E1 (fun k => mpow n X k i j))]. specialize (HU i j Hi Hj). specialize (HV i j Hi Hj). exact (f_equal2 Rplus HV HU).
  - etransitivity; [|exact (E2 (fun k => mpow n X k i j))]. specialize (HU i j Hi Hj). specialize (HV i j Hi Hj). exact (f_equal2 Rminus HV HU).
Qed.
(** 1 x 1 *)
Lemma mpow_one X k : mpow 1 X k 0%nat 0%nat = X 0%nat 0%nat ^ k.
Proof. induction k as [|k IH]; [reflexivity|]. cbn. unfold mm. cbn. rewrite IH. lra. Qed.
Lemma pade13_refuted : exists n X, ~ singular n (pade_den 13 n X) /\
  exists Y, padeapprox (A := real) 13 n (fun _ _ => 0) X = Some Y /\ ~ returns n (pade_den 13 n X) (pade_num 13 n X) Y.
Proof.
  exists 1%nat, (fun _ _ => 1). set (X := fun _ _ : nat => 1).
  assert (P : forall k, mpow 1 X k 0%nat 0%nat = 1) by (intros k; rewrite mpow_one; apply pow1).
  assert (Dn : pade_den 13 1 X 0%nat 0%nat <> 0 /\ den13 1 X 0%nat 0%nat <> 0 /\
    num13 1 X 0%nat 0%nat * pade_den 13 1 X 0%nat 0%nat <> pade_num 13 1 X 0%nat 0%nat * den13 1 X 0%nat 0%nat).
  { assert (G : pade_den 13 1 X 0%nat 0%nat = 39085931702241241 /\ den13 1 X 0%nat 0%nat = 39085930378999322 /\
      num13 1 X 0%nat 0%nat = 106246576571351764 /\ pade_num 13 1 X 0%nat 0%nat = 106246577894593683).
    { unfold pade_den, pade_num, num13, den13. cbn [sum]. rewrite !P. coefs13. repeat split; lra. }
    destruct G as (-> & -> & -> & ->). repeat split; lra. }
  destruct Dn as (N1 & N2 & N3).
  assert (S1 : forall M : matR, M 0%nat 0%nat <> 0 -> ~ singular 1 M).
  { intros M N (v & (k & Hk & Vk) & K). specialize (K 0%nat ltac:(lia)). unfold mv in K. cbn in K. replace k with 0%nat in Vk by lia.
    rewrite Rplus_0_l in K. apply Rmult_integral in K. tauto. }
  split; [apply S1, N1|]. destruct (pade13_actual 1 (fun _ _ => 0) X) as (Y & E & R1 & _). exists Y. split; [exact E|].
  intros (Q & _). specialize (R1 (S1 _ N2) 0%nat 0%nat ltac:(lia) ltac:(lia)). specialize (Q (S1 _ N1) 0%nat 0%nat ltac:(lia) ltac:(lia)).
  unfold mm in R1, Q. cbn [sum] in R1, Q. apply N3. rewrite <- R1, <- Q. lra.
Qed.

(** *** expm *)
Definition col_sum (n : nat) (X : matR) (j : nat) : R := sum n (fun i => Rabs (X i j)).
Lemma col_norm_sum n j (X : matR) : (0 < n)%nat -> col_norm (A := real) n j X = col_sum n X j.
Proof.
  intros Hn. unfold col_norm, col_sum. destruct n as [|n]; [lia|]. replace (S n - 1)%nat with n by lia.
  etransitivity; [exact (fold_seq_vsum (fun i => Rabs (X i j)) n 1 (Rabs (X 0%nat j)))|]. rewrite vsum_sum.
  change (S n) with (1 + n)%nat. rewrite sum_split. cbn [sum]. rewrite Rplus_0_l. reflexivity.
Qed.
Lemma onenorm_max n (X : matR) : (0 < n)%nat ->
  (forall j, (j < n)%nat -> col_sum n X j <= onenorm (A := real) n n X) /\ exists j, (j < n)%nat /\ onenorm (A := real) n n X = col_sum n X j.
Proof.
  intros Hn. unfold onenorm.
  assert (G : forall m, (0 < m)%nat -> let N := loop m (fun j (m : R) => let t := col_norm (A := real) n j X in if (j =? 0)%nat then t else if Rltb m t then t else m) 0 in
    (forall j, (j < m)%nat -> col_sum n X j <= N) /\ exists j, (j < m)%nat /\ N = col_sum n X j).
  { induction m as [|m IH]; intros Hm; [lia|]. cbn [loop]. cbv zeta in *. rewrite col_norm_sum by exact Hn.
    destruct (Nat.eqb_spec m 0) as [->|N].
    - split; [|exists 0%nat; split; [lia|reflexivity]]. intros j Hj. replace j with 0%nat by lia. apply Rle_refl.
    - destruct (IH ltac:(lia)) as (I1 & j & Hj & I2). revert I1 I2. match goal with |- context[loop m ?f 0] => generalize (loop m f 0) end.
      intros b I1 I2. destruct (Rltb_spec b (col_sum n X m)) as [L|L].
      + split; [|exists m; split; [lia|reflexivity]]. intros k Hk. destruct (Nat.eq_dec k m) as [->|]; [lra|]. specialize (I1 k ltac:(lia)). lra.
      + split; [|exists j; split; [lia|exact I2]]. intros k Hk. destruct (Nat.eq_dec k m) as [->|]; [lra|]. apply I1. lia. }
  exact (G n Hn).
Qed.
Lemma onenorm_scale n (X : matR) c : (0 < n)%nat -> 0 <= c -> onenorm (A := real) n n (dscal (A := real) c X) = onenorm (A := real) n n X * c.
Proof.
  intros Hn Hc. assert (E : forall j, col_sum n (dscal (A := real) c X) j = col_sum n X j * c).
  { intros j. unfold col_sum. rewrite <- sum_scal_r. apply sum_ext. intros k _. unfold dscal. cbn. rewrite Rabs_mult, (Rabs_right c) by lra. reflexivity. }
  destruct (onenorm_max n X Hn) as (A1 & j & Hj & A2). destruct (onenorm_max n (dscal (A := real) c X) Hn) as (B1 & k & Hk & B2).
  apply Rle_antisym.
  - rewrite B2, E. apply Rmult_le_compat_r; [exact Hc|]. apply A1, Hk.
  - rewrite A2, <- E. apply B1, Hj.
Qed.
Lemma square_pow n (P : matR) s : meq n (loop s (fun _ P => dgemm (A := real) n P P) P) (mpow n P (2 ^ s)).
Proof.
  induction s as [|s IH]; [apply x_pow|]. cbn [loop]. replace (2 ^ S s)%nat with (2 ^ s + 2 ^ s)%nat by (cbn; lia). apply dgemm_pow; exact IH.
Qed.
Lemma theta4_pos : 0 < theta4 (A := real).
Proof. unfold theta4. cbn. unfold rcst. cbn -[IZR]. apply Rdiv_lt_0_compat; apply IZR_lt; reflexivity. Qed.
Lemma half_real : half (A := real) = 1 / 2.
Proof. unfold half. cbn. unfold rcst. cbn. lra. Qed.
Lemma pade_total m n garb X : In m [3; 5; 7; 9; 13]%nat -> exists P, padeapprox (A := real) m n garb X = Some P.
Proof. intros H. cbn in H. destruct H as [<-|[<-|[<-|[<-|[<-|[]]]]]]; eexists; reflexivity. Qed.
Lemma scale_arith (nrm th t p : R) : 0 < th -> 0 < p -> nrm / th = t * p -> 1 / 2 < t <= 1 -> th / 2 < nrm * / p <= th.
Proof.
  intros T P E H. replace nrm with (th * (nrm / th)) by (field; lra). rewrite E. replace (th * (t * p) * / p) with (th * t) by (field; lra). split; nra.
Qed.
(** the scaling chosen by expm *)
Lemma expm_scaled frexp pow2 n garb X :
  (forall x t s, 0 < x -> frexp x = (t, s) -> x = t * powerRZ 2 s /\ 1 / 2 <= t < 1) -> (forall s, pow2 s = powerRZ 2 s) ->
  (0 < n)%nat -> theta4 (A := real) < onenorm (A := real) n n X ->
  exists s P R, (1 <= s)%nat /\ expm (A := real) frexp pow2 n garb X = Some R /\
    theta4 (A := real) / 2 < onenorm (A := real) n n (fun i j => X i j * / 2 ^ s) <= theta4 (A := real) /\
    padeapprox (A := real) 13 n garb (fun i j => X i j * / 2 ^ s) = Some P /\ meq n R (mpow n P (2 ^ s)).
Proof.
  intros F Pw Hn Hgt. pose proof theta4_pos as T4. set (x := (onenorm n n X : R) / (theta4 (A := real) : R)).
  assert (X1 : 1 < x). { unfold x. apply Rmult_lt_reg_r with (1 := T4). unfold Rdiv. rewrite Rmult_assoc, Rinv_l by (apply Rgt_not_eq, T4). rewrite Rmult_1_l, Rmult_1_r. exact Hgt. }
  destruct (frexp x) as [t s0] eqn:Ef. destruct (F x t s0 ltac:(lra) Ef) as (Ex & T1 & T2).
  set (s1 := expm_scaling (A := real) frexp (onenorm n n X)).
  assert (Es : s1 = (if Req_EM_T t (1 / 2) then s0 - 1 else s0)%Z).
  { unfold s1, expm_scaling. change (onenorm n n X / theta4)%num with x. rewrite Ef, half_real. cbn [nleb real].
    destruct (Rleb_spec t (1 / 2)), (Rleb_spec (1 / 2) t), (Req_EM_T t (1 / 2)); cbn; reflexivity || lra. }
  (* t' in (1/2, 1] with x = t' * 2^s1 *)
  assert (Ex' : exists t', 1 / 2 < t' <= 1 /\ x = t' * powerRZ 2 s1).
  { destruct (Req_EM_T t (1 / 2)) as [E|E].
    - exists 1. split; [lra|]. rewrite Ex, Es, E. replace s0 with (s0 - 1 + 1)%Z at 1 by lia. rewrite powerRZ_add by lra. change (powerRZ 2 1) with (2 * 1). generalize (powerRZ 2 (s0 - 1)). intros y. change (1 / 2 * (y * (2 * 1)) = 1 * y :> R). lra.
    - exists t. split; [lra|]. rewrite Es. exact Ex. }
  destruct Ex' as (t' & T' & Ex').
  assert (S1 : (1 <= s1)%Z).
  { destruct (Z_le_gt_dec 1 s1); [assumption|]. exfalso. assert (powerRZ 2 s1 <= 1).
    { destruct s1 as [|p|p]; [cbn; lra|lia|]. cbn. rewrite <- Rinv_1. apply Rinv_le_contravar; [lra|]. apply pow_R1_Rle. lra. }
    assert (0 < powerRZ 2 s1) by (apply powerRZ_lt; lra). nra. }
  exists (Z.to_nat s1). assert (Z1 : powerRZ 2 s1 = 2 ^ Z.to_nat s1).
  { rewrite <- (Z2Nat.id s1) at 1 by lia. rewrite <- pow_powerRZ. reflexivity. }
  assert (Q : forall i j, dscal (A := real) (pow2 (- s1)%Z) X i j = X i j * / 2 ^ Z.to_nat s1).
  { intros i j. unfold dscal. cbn. rewrite Pw, powerRZ_neg', Z1. reflexivity. }
  assert (Qf : dscal (A := real) (pow2 (- s1)%Z) X = fun i j => X i j * / 2 ^ Z.to_nat s1).
  { apply FunctionalExtensionality.functional_extensionality. intros i. apply FunctionalExtensionality.functional_extensionality. intros j. apply Q. }
  destruct (pade_total 13 n garb (dscal (A := real) (pow2 (- s1)%Z) X)) as [P HP]; [cbn; tauto|].
  exists P, (loop (Z.to_nat s1) (fun _ P => dgemm (A := real) n P P) P). split; [lia|]. split; [|split; [|split]].
  - unfold expm. change (@nleb real) with Rleb. destruct (Rleb_spec (onenorm n n X) (theta4 (A := real))) as [Hle|_]; [exfalso; exact (Rlt_not_le _ _ Hgt Hle)|]. fold s1. change (num real) with R in *. rewrite HP. reflexivity.
  - rewrite <- Qf, onenorm_scale; [|exact Hn|rewrite Pw; left; apply powerRZ_lt; lra].
    rewrite Pw, powerRZ_neg'. apply (scale_arith _ _ t' _ T4); [apply powerRZ_lt; lra|exact Ex'|exact T'].
  - rewrite <- Qf. exact HP.
  - apply square_pow.
Qed.
Lemma expm_small frexp pow2 n garb X : onenorm (A := real) n n X <= theta4 (A := real) ->
  exists m th, In (m, th) (thetas (A := real)) /\ onenorm (A := real) n n X <= th /\
    (forall m' th', In (m', th') (thetas (A := real)) -> onenorm (A := real) n n X <= th' -> (m <= m')%nat) /\
    expm (A := real) frexp pow2 n garb X = padeapprox (A := real) m n garb X.
Proof.
  intros H. unfold expm. change (@nleb real) with Rleb. destruct (Rleb_spec (onenorm n n X) (theta4 (A := real))) as [_|N]; [|contradiction].
  unfold thetas. cbn [find snd]. change (@nleb real) with Rleb.
  repeat match goal with |- context[Rleb ?a ?b] => destruct (Rleb_spec a b) end.
  6:{ exfalso. match goal with HH : ~ (_ <= ncst 5371920351148152 (-15)) |- _ => apply HH; exact H end. }
  all: eexists; eexists; (split; [|split; [eassumption|split; [|reflexivity]]]); [cbn [In]; tauto|].
  all: intros m' th' I L; cbn [In] in I; repeat match goal with HH : _ \/ _ |- _ => destruct HH as [HH|HH] end; try contradiction;
    injection I as <- <-; try lia; contradiction.
Qed.
