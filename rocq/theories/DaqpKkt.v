(** KKT points of the LDP give KKT points of the dense QP. *)
From Coq Require Import ZArith List Bool Lia Reals Lra Arith.
From Verif Require Import Arith Vec LinModel RSum DenseModel QpoModel DaqpModel DenseSpec DaqpSpec DenseProofs StackProofs QpoProofs QpoTop QpoKkt DaqpProofs DaqpFill DaqpUpd.
Import ListNotations.
Open Scope R_scope.

Section K.
Variables (inf tol : R) (potrf : matR -> matR) (trsm : matR -> matR -> matR) (trsv_n trsv_t : matR -> vecR -> vecR).
Variables (d : ddims) (q : rdqp) (m0 m : rdmem) (u : vecR) (ws : list (nat * R)) (out : rdsol).
Hypothesis Hb : forall i, (i < dnb d)%nat -> (dq_idxb q i < dnv d)%nat.
Hypothesis Hs : one_row_each d q.
Hypothesis Ha : soft_able d q.
Hypothesis Htol : 0 < tol.
Notation Lm := (L potrf q).
Notation Fm := (F potrf trsm d q m0).
Notation sg_ := (s_ potrf trsm d q m0).
Hypothesis Hbig : forall j, (j < mrows d)%nat -> tol <= sum (dnv d) (fun r => Fm r j * Fm r j).
Hypothesis Htri : tri_ok (dnv d) (mrows d) (dsym q) Lm trsm trsv_n trsv_t.
Hypothesis Hf : facts inf potrf trsm trsv_n d q m0 m.
Hypothesis Hws : ws_ok (mrows d) ws.
Hypothesis Heq : forall j, (drows d <= j < mrows d)%nat -> In j (map fst ws).
Hypothesis HK : ldp_kkt (dnv d) (mrows d) m u (ws_lam ws).
Let x := ldp_to_qp (A := real) trsv_t m u.
Hypothesis Hinf : inf_free inf d q x.
Let s := daqp_out (A := real) trsv_t d q m u ws out.
Let mu k := sg_ k * ws_lam ws k.

Lemma sg_gt j : (j < mrows d)%nat -> 0 < sg_ j.
Proof. intros H. apply (sg_pos tol (dnv d) (mrows d) Fm Htol Hbig j H). Qed.
Lemma rows_m k : (k < drows d)%nat -> (k < mrows d)%nat. Proof. unfold mrows, drows. lia. Qed.
Lemma F_col r j : (r < dnv d)%nat -> (j < mrows d)%nat -> sum (dnv d) (fun k => Lm r k * Fm k j) = acoef d q j r.
Proof. intros Hr Hj. unfold F. rewrite (tr_m _ _ _ _ _ _ _ Htri) by assumption. apply cols_coef; assumption. Qed.
(** u - v = L' x *)
Lemma ux r : (r < dnv d)%nat -> u r = sum (dnv d) (fun k => Lm k r * x k) + w_v m r.
Proof. intros Hr. unfold x, ldp_to_qp. rewrite (fa_L _ _ _ _ _ _ _ _ Hf). rewrite (tr_t _ _ _ _ _ _ _ Htri) by exact Hr. cbn. lra. Qed.
(** rows of the LDP in terms of x *)
Lemma row_u j : (j < mrows d)%nat -> sum (dnv d) (fun r => w_M m r j * u r) = sg_ j * sum (dnv d) (fun r => acoef d q j r * x r) + sum (dnv d) (fun r => w_M m r j * w_v m r).
Proof.
  intros Hj. rewrite (sum_ext _ _ (fun r => sg_ j * (Fm r j * sum (dnv d) (fun k => Lm k r * x k)) + w_M m r j * w_v m r)).
  2:{ intros r Hr. rewrite (ux r Hr), (fa_M _ _ _ _ _ _ _ _ Hf) by assumption. lra. }
  rewrite sum_plus, sum_scal. f_equal. f_equal.
  rewrite (sum_ext _ _ (fun r => sum (dnv d) (fun k => x k * (Lm k r * Fm r j)))) by (intros r _; rewrite <- sum_scal; apply sum_ext; intros; lra).
  rewrite sum_swap. apply sum_ext. intros k Hk. rewrite sum_scal, F_col by assumption. lra.
Qed.
Lemma dlin_a k : (k < drows d)%nat -> sum (dnv d) (fun r => acoef d q k r * x r) = dlin d q x k.
Proof. intros H. unfold dlin. apply sum_ext. intros r _. unfold acoef. apply Nat.ltb_lt in H. rewrite H. reflexivity. Qed.
Lemma rm_scale a b c : 0 < a -> a * Rmax 0 (b - c / a) = Rmax 0 (a * b - c).
Proof. intros H. rewrite <- RmaxRmult by lra. f_equal; [lra|field; lra]. Qed.
Lemma mu_sign k : (k < mrows d)%nat -> (0 < mu k -> 0 < ws_lam ws k) /\ (mu k < 0 -> ws_lam ws k < 0).
Proof. intros H. pose proof (sg_gt k H). unfold mu. split; intros L1; nra. Qed.
Lemma hard_row k : (k < drows d)%nat -> soft q k = false -> lo0 inf q k <= dlin d q x k <= up0 inf d q k /\ (0 < mu k -> dlin d q x k = up0 inf d q k) /\ (mu k < 0 -> dlin d q x k = lo0 inf q k).
Proof.
  intros H E. pose proof (rows_m k H) as Hm. pose proof (sg_gt k Hm) as P. destruct (fa_hard _ _ _ _ _ _ _ _ Hf k H E) as (S1 & S2 & E1 & E2). destruct (lk_hard _ _ _ _ _ HK k Hm S1 S2) as ([A1 A2] & A3 & A4).
  rewrite (row_u k Hm), (dlin_a k H) in *. rewrite (fa_dup _ _ _ _ _ _ _ _ Hf) in * by exact Hm. rewrite (fa_dlo _ _ _ _ _ _ _ _ Hf) in * by exact Hm. rewrite E1, E2 in *. destruct (mu_sign k Hm) as [M1 M2].
  split; [split; apply (Rmult_le_reg_l (sg_ k) _ _ P); lra|]. split; intros Lm; [specialize (A3 (M1 Lm))|specialize (A4 (M2 Lm))]; apply (Rmult_eq_reg_l (sg_ k)); lra.
Qed.
Lemma soft_row k : (k < drows d)%nat -> soft q k = true ->
  let hi := up0 inf d q k + ds_u d q k + / dq_Z q (dns d + sl q k)%nat * Rmax 0 (mu k - Du d q k) in let lw := lo0 inf q k - ds_l d q k - / dq_Z q (sl q k) * Rmax 0 (- mu k - Dl d q k) in
  lw <= dlin d q x k <= hi /\ (0 < mu k -> dlin d q x k = hi) /\ (mu k < 0 -> dlin d q x k = lw).
Proof.
  intros H E hi lw. pose proof (rows_m k H) as Hm. pose proof (sg_gt k Hm) as P. destruct (fa_soft _ _ _ _ _ _ _ _ Hf k H E) as (S1 & S2 & E1 & E2 & E3 & E4 & E5 & E6). destruct (lk_soft _ _ _ _ _ HK k Hm S1 S2) as ([A1 A2] & A3 & A4).
  destruct (soft_rev d q Hs k H E) as [Ls _]. pose proof (Zpos d q Ha (sl q k) ltac:(lia)) as Pz. pose proof (Zpos d q Ha (dns d + sl q k)%nat ltac:(lia)) as Pz'.
  rewrite (row_u k Hm), (dlin_a k H) in *. rewrite (fa_dup _ _ _ _ _ _ _ _ Hf) in * by exact Hm. rewrite (fa_dlo _ _ _ _ _ _ _ _ Hf) in * by exact Hm. rewrite E1, E2, E3, E4, E5, E6 in *. destruct (mu_sign k Hm) as [M1 M2].
  set (Mv := sum (dnv d) (fun r => w_M m r k * w_v m r)) in *.
  assert (Ehi : (up0 inf d q k + ds_u d q k) * sg_ k + Mv + 1 / dq_Z q (dns d + sl q k)%nat * (sg_ k * sg_ k) * Rmax 0 (ws_lam ws k - Du d q k / sg_ k) = sg_ k * hi + Mv).
  { unfold hi, mu. rewrite <- (rm_scale (sg_ k) (ws_lam ws k) (Du d q k) P). field. lra. }
  assert (Elw : (lo0 inf q k - ds_l d q k) * sg_ k + Mv - 1 / dq_Z q (sl q k) * (sg_ k * sg_ k) * Rmax 0 (- ws_lam ws k - Dl d q k / sg_ k) = sg_ k * lw + Mv).
  { unfold lw, mu. replace (- (sg_ k * ws_lam ws k)) with (sg_ k * (- ws_lam ws k)) by lra. rewrite <- (rm_scale (sg_ k) (- ws_lam ws k) (Dl d q k) P). field. lra. }
  rewrite Ehi in A2, A3. rewrite Elw in A1, A4.
  split; [split; apply (Rmult_le_reg_l (sg_ k) _ _ P); lra|]. split; intros Lm; [specialize (A3 (M1 Lm))|specialize (A4 (M2 Lm))]; apply (Rmult_eq_reg_l (sg_ k)); lra.
Qed.
Lemma eq_row j : (j < dne d)%nat -> sum (dnv d) (fun r => dq_A q j r * x r) = dq_b q j.
Proof.
  intros H. set (k := (drows d + j)%nat). assert (Hm : (k < mrows d)%nat) by (unfold k, mrows, drows; lia). pose proof (sg_gt k Hm) as P. destruct (fa_eq _ _ _ _ _ _ _ _ Hf j H) as (S1 & S2 & E1). fold k in S1, S2, E1.
  pose proof (lk_eq _ _ _ _ _ HK k Hm S1 S2) as A1. rewrite (row_u k Hm), (fa_dup _ _ _ _ _ _ _ _ Hf), E1 in A1 by exact Hm.
  rewrite (sum_ext _ (fun r => dq_A q j r * x r) (fun r => acoef d q k r * x r)).
  2:{ intros r _. unfold acoef, k. destruct (Nat.ltb_spec (drows d + j) (drows d)); [lia|]. replace (drows d + j - drows d)%nat with j by lia. reflexivity. }
  apply (Rmult_eq_reg_l (sg_ k)); lra.
Qed.

(** the output *)
Let lamw := fst (wrun d (w_scal m) ws (wr (A := real) 0 (2 * dnb d + 2 * dng d + 2 * dns d) (fun _ => 0) (ds_lam out)) (ds_pi out)).
Let piw := snd (wrun d (w_scal m) ws (wr (A := real) 0 (2 * dnb d + 2 * dng d + 2 * dns d) (fun _ => 0) (ds_lam out)) (ds_pi out)).
Let v0 := wr (A := real) 0 (dnv d) x (ds_v out).
Let S0 := mkFs (A := real) (m_lo m) (m_up m) v0 lamw.
Let fin := loop (dns d) (slack_step (A := real) d q m) S0.
Lemma s_eq : s = mkDs (A := real) (fs_v fin) piw (fs_lam fin) (ds_t out).
Proof.
  unfold s, daqp_out. cbv zeta. fold x. fold v0. unfold fin, S0, lamw, piw, wrun. change (@n0 real) with 0.
  destruct (fold_left _ _ _) as [a b]. reflexivity.
Qed.
Lemma lam_rows k : (k < drows d)%nat -> lamw k = Rmax 0 (- mu k) /\ lamw (drows d + k)%nat = Rmax 0 (mu k).
Proof.
  intros H. destruct (ws_in d (w_scal m) ws (wr (A := real) 0 (2 * dnb d + 2 * dng d + 2 * dns d) (fun _ => 0) (ds_lam out)) (ds_pi out) (proj1 Hws)) as [W _].
  { intros j Hj. unfold drows in Hj. rewrite wr_in by lia. reflexivity. }
  destruct (W k H) as [W1 W2]. fold lamw in W1, W2. rewrite W1, W2. rewrite (fa_sc _ _ _ _ _ _ _ _ Hf) by (apply rows_m; exact H). unfold mu. split; f_equal; lra.
Qed.
Lemma pi_eq j : (j < dne d)%nat -> piw j = mu (drows d + j)%nat.
Proof.
  intros H. destruct (ws_in d (w_scal m) ws (wr (A := real) 0 (2 * dnb d + 2 * dng d + 2 * dns d) (fun _ => 0) (ds_lam out)) (ds_pi out) (proj1 Hws)) as [_ W].
  { intros i Hi. unfold drows in Hi. rewrite wr_in by lia. reflexivity. }
  assert (Hm : (drows d + j < mrows d)%nat) by (unfold mrows, drows; lia). specialize (W (drows d + j)%nat ltac:(lia) (Heq (drows d + j)%nat ltac:(lia))). replace (drows d + j - drows d)%nat with j in W by lia. fold piw in W. rewrite W, (fa_sc _ _ _ _ _ _ _ _ Hf) by exact Hm. unfold mu. lra.
Qed.
Lemma idx_ok : (forall i, (i < dns d)%nat -> (m_idxs m i < drows d)%nat) /\ (forall i j, (i < dns d)%nat -> (j < dns d)%nat -> m_idxs m i = m_idxs m j -> i = j).
Proof.
  split.
  - intros i Hi. destruct (owner d q Hs i Hi) as (k & Hk & E & <-). rewrite (fa_idx _ _ _ _ _ _ _ _ Hf) by assumption. exact Hk.
  - intros i j Hi Hj. destruct (owner d q Hs i Hi) as (k & Hk & E & <-). destruct (owner d q Hs j Hj) as (l & Hl & E' & <-). rewrite !(fa_idx _ _ _ _ _ _ _ _ Hf) by assumption. congruence.
Qed.
Lemma v_x r : (r < dnv d)%nat -> ds_v s r = x r.
Proof. intros H. rewrite s_eq. cbn [ds_v]. unfold fin. rewrite (ft_v d q m S0 (dns d) r (le_n _) H). unfold S0, v0. cbn [fs_v]. apply wr_lt. exact H. Qed.
Lemma dlin_v0 k : dlin d q v0 k = dlin d q x k.
Proof. apply sum_ext. intros r Hr. unfold v0. rewrite wr_lt by exact Hr. reflexivity. Qed.
Lemma dlin_s k : dlin d q (ds_v s) k = dlin d q x k.
Proof. apply sum_ext. intros r Hr. rewrite v_x by exact Hr. reflexivity. Qed.
Lemma lam_s k : (k < 2 * drows d)%nat -> ds_lam s k = lamw k.
Proof. intros H. rewrite s_eq. cbn [ds_lam]. unfold fin. rewrite (ft_lam d q m S0 (dns d) k (le_n _) H). reflexivity. Qed.
(** slacks of a softened row *)
Definition sl_val k := Rmax (ds_l d q k) (lo0 inf q k - dlin d q x k).
Definition su_val k := Rmax (ds_u d q k) (dlin d q x k - up0 inf d q k).
Lemma slacks k : (k < drows d)%nat -> soft q k = true ->
  ds_v s (dnv d + sl q k)%nat = sl_val k /\ ds_v s (dnv d + (dns d + sl q k))%nat = su_val k /\
  ds_lam s (2 * drows d + sl q k)%nat = dq_Z q (sl q k) * sl_val k + dq_g q (dnv d + sl q k)%nat - Rmax 0 (- mu k) /\
  ds_lam s (2 * drows d + (dns d + sl q k))%nat = dq_Z q (dns d + sl q k)%nat * su_val k + dq_g q (dnv d + (dns d + sl q k))%nat - Rmax 0 (mu k).
Proof.
  intros H E. destruct (soft_rev d q Hs k H E) as [Ls _]. destruct idx_ok as [X1 X2]. destruct (ft_in d q m S0 X1 X2 Hb (dns d) (sl q k) (le_n _) Ls) as (I1 & I2 & I3 & I4).
  pose proof (rows_m k H) as Hm. pose proof (sg_gt k Hm) as P. pose proof (Zpos d q Ha (sl q k) ltac:(lia)) as Pz. pose proof (Zpos d q Ha (dns d + sl q k)%nat ltac:(lia)) as Pz'.
  destruct (fa_Z _ _ _ _ _ _ _ _ Hf (sl q k) Ls) as (Z1 & Z2 & Z3 & Z4 & Z5 & Z6). destruct (fa_soft _ _ _ _ _ _ _ _ Hf k H E) as (_ & _ & E1 & E2 & E3 & E4 & _ & _).
  assert (Fl : f_sl d q m S0 (sl q k) = sl_val k).
  { unfold f_sl, f_lo, sl_val. rewrite (fa_idx _ _ _ _ _ _ _ _ Hf) by assumption. rewrite Z1, Z3, Z5, E3, (fa_sc _ _ _ _ _ _ _ _ Hf) by exact Hm. unfold S0. cbn [fs_lo fs_v]. rewrite dlin_v0, E1. unfold Dl. fold (ds_l d q k). f_equal. field. lra. }
  assert (Fu : f_su d q m S0 (sl q k) = su_val k).
  { unfold f_su, f_up, su_val. rewrite (fa_idx _ _ _ _ _ _ _ _ Hf) by assumption. rewrite Z2, Z4, Z6, E4, (fa_sc _ _ _ _ _ _ _ _ Hf) by exact Hm. unfold S0. cbn [fs_up fs_v]. rewrite dlin_v0, E2. unfold Du. fold (ds_u d q k). f_equal. field. lra. }
  rewrite Fl, Z1, Z3 in I3. rewrite Fu, Z2, Z4 in I4. rewrite Fl in I1. rewrite Fu in I2. rewrite (fa_idx _ _ _ _ _ _ _ _ Hf) in I3, I4 by assumption. unfold S0 in I3, I4. cbn [fs_lam] in I3, I4. fold S0 in I3, I4. destruct (lam_rows k H) as [W1 W2]. rewrite W1 in I3. rewrite W2 in I4.
  rewrite s_eq. cbn [ds_v ds_lam]. unfold fin. auto.
Qed.
(** case analysis of a softened row *)
Lemma soft_facts k : (k < drows d)%nat -> soft q k = true ->
  (ds_l d q k <= sl_val k /\ 0 <= dlin d q x k + sl_val k - lo0 inf q k /\ 0 <= dq_Z q (sl q k) * sl_val k + dq_g q (dnv d + sl q k)%nat - Rmax 0 (- mu k) /\
   (mu k < 0 -> dlin d q x k + sl_val k = lo0 inf q k) /\ (0 < dq_Z q (sl q k) * sl_val k + dq_g q (dnv d + sl q k)%nat - Rmax 0 (- mu k) -> sl_val k = ds_l d q k)) /\
  (ds_u d q k <= su_val k /\ 0 <= - dlin d q x k + su_val k + up0 inf d q k /\ 0 <= dq_Z q (dns d + sl q k)%nat * su_val k + dq_g q (dnv d + (dns d + sl q k))%nat - Rmax 0 (mu k) /\
   (0 < mu k -> - dlin d q x k + su_val k + up0 inf d q k = 0) /\ (0 < dq_Z q (dns d + sl q k)%nat * su_val k + dq_g q (dnv d + (dns d + sl q k))%nat - Rmax 0 (mu k) -> su_val k = ds_u d q k)).
Proof.
  intros H E. destruct (soft_rev d q Hs k H E) as [Ls _]. destruct (soft_row k H E) as ([A1 A2] & A3 & A4).
  pose proof (Zpos d q Ha (sl q k) ltac:(lia)) as Pz. pose proof (Zpos d q Ha (dns d + sl q k)%nat ltac:(lia)) as Pz'.
  assert (P1 : 0 <= Dl d q k) by (apply (sa_z d q Ha); lia). assert (P2 : 0 <= Du d q k) by (apply (sa_z d q Ha); lia).
  set (c := dlin d q x k) in *. set (Zl := dq_Z q (sl q k)) in *. set (Zu := dq_Z q (dns d + sl q k)%nat) in *. unfold Dl in *. unfold Du in *. fold Zl Zu in A1, A2, A3, A4, P1, P2. set (zl := dq_g q (dnv d + sl q k)%nat) in *. set (zu := dq_g q (dnv d + (dns d + sl q k))%nat) in *.
  set (el := ds_l d q k) in *. set (eu := ds_u d q k) in *. set (l0 := lo0 inf q k) in *. set (u0 := up0 inf d q k) in *. unfold sl_val, su_val. fold c el eu l0 u0.
  assert (Mx : forall a b, a <= Rmax a b /\ b <= Rmax a b /\ (Rmax a b = a \/ Rmax a b = b)).
  { intros a b. split; [apply Rmax_l|]. split; [apply Rmax_r|]. unfold Rmax. destruct (Rle_dec a b); auto. }
  assert (Div : forall z Z e, 0 < Z -> / Z * (z - Z * e) = / Z * z - e) by (intros; field; lra).
  split.
  - assert (Q : Rmax 0 (- mu k - (zl + Zl * el)) = 0 \/ Rmax 0 (- mu k - (zl + Zl * el)) = - mu k - (zl + Zl * el)) by (unfold Rmax; destruct (Rle_dec _ _); auto).
    destruct (Rlt_dec (mu k) 0) as [N|N].
    + specialize (A4 N). rewrite (Rmax_right 0 (- mu k)) by lra. destruct (Rle_dec (- mu k) (zl + Zl * el)) as [G|G].
      * rewrite (Rmax_left 0) in A4 by lra. rewrite Rmult_0_r in A4. rewrite Rmax_left by lra. repeat split; try lra; intros; lra.
      * rewrite (Rmax_right 0) in A4 by lra. replace (- mu k - (zl + Zl * el)) with ((- mu k - zl) - Zl * el) in A4 by lra. rewrite Div in A4 by exact Pz. assert (Y : el < / Zl * (- mu k - zl)). { apply (Rmult_lt_reg_l Zl); [exact Pz|]. rewrite <- Rmult_assoc, Rinv_r by lra. lra. }
        rewrite Rmax_right by lra. assert (W : Zl * (l0 - c) = - mu k - zl). { replace (l0 - c) with (/ Zl * (- mu k - zl)) by lra. field. lra. }
        repeat split; try lra; intros; lra.
    + rewrite (Rmax_left 0 (- mu k)) by lra. rewrite (Rmax_left 0) in A1 by lra. rewrite Rmult_0_r in A1. rewrite Rmax_left by lra. repeat split; try lra; intros; lra.
  - destruct (Rlt_dec 0 (mu k)) as [N|N].
    + specialize (A3 N). rewrite (Rmax_right 0 (mu k)) by lra. destruct (Rle_dec (mu k) (zu + Zu * eu)) as [G|G].
      * rewrite (Rmax_left 0) in A3 by lra. rewrite Rmult_0_r in A3. rewrite Rmax_left by lra. repeat split; try lra; intros; lra.
      * rewrite (Rmax_right 0) in A3 by lra. replace (mu k - (zu + Zu * eu)) with ((mu k - zu) - Zu * eu) in A3 by lra. rewrite Div in A3 by exact Pz'. assert (Y : eu < / Zu * (mu k - zu)). { apply (Rmult_lt_reg_l Zu); [exact Pz'|]. rewrite <- Rmult_assoc, Rinv_r by lra. lra. }
        rewrite Rmax_right by lra. assert (W : Zu * (c - u0) = mu k - zu). { replace (c - u0) with (/ Zu * (mu k - zu)) by lra. field. lra. }
        repeat split; try lra; intros; lra.
    + rewrite (Rmax_left 0 (mu k)) by lra. rewrite (Rmax_left 0) in A2 by lra. rewrite Rmult_0_r in A2. rewrite Rmax_left by lra. repeat split; try lra; intros; lra.
Qed.
Lemma masked_zero k : (k < drows d)%nat -> (dq_mask q k = 0 -> ~ mu k < 0) /\ (dq_mask q (drows d + k)%nat = 0 -> ~ 0 < mu k).
Proof.
  intros H. destruct (Hinf k H) as [I1 I2]. destruct (soft q k) eqn:E.
  - destruct (soft_rev d q Hs k H E) as [Ls Er]. destruct (soft_row k H E) as (_ & A3 & A4). pose proof (Zpos d q Ha (sl q k) ltac:(lia)) as Pz. pose proof (Zpos d q Ha (dns d + sl q k)%nat ltac:(lia)) as Pz'.
    assert (Q : (0 <=? dq_rev q k)%Z = true) by (apply Z.leb_le; lia). rewrite Q in I1, I2. fold (sl q k) in I1, I2. fold (ds_l d q k) in I1. fold (ds_u d q k) in I2.
    assert (forall Z b, 0 < Z -> 0 <= / Z * Rmax 0 b) as NN. { intros Z b HZ. apply Rmult_le_pos; [apply Rlt_le, Rinv_0_lt_compat; exact HZ|apply Rmax_l]. }
    split; intros M C.
    + specialize (A4 C). specialize (I1 M). unfold lo0 in A4. destruct (is0_spec (dq_mask q k)); [|contradiction]. pose proof (NN _ (- mu k - Dl d q k) Pz). lra.
    + specialize (A3 C). specialize (I2 M). unfold up0 in A3. destruct (is0_spec (dq_mask q (drows d + k)%nat)); [|contradiction]. pose proof (NN _ (mu k - Du d q k) Pz'). lra.
  - destruct (hard_row k H E) as (_ & A3 & A4). assert (Q : (0 <=? dq_rev q k)%Z = false). { apply Z.leb_gt. unfold soft, hard in E. destruct (Z.eqb_spec (dq_rev q k) (-1)); [lia|discriminate]. } rewrite Q in I1, I2.
    split; intros M C.
    + specialize (A4 C). specialize (I1 M). unfold lo0 in A4. destruct (is0_spec (dq_mask q k)); [|contradiction]. lra.
    + specialize (A3 C). specialize (I2 M). unfold up0 in A3. destruct (is0_spec (dq_mask q (drows d + k)%nat)); [|contradiction]. lra.
Qed.
Lemma slack_s k up : (k < drows d)%nat -> dslack d q (ds_v s) k up = if soft q k then (if up then su_val k else sl_val k) else 0.
Proof.
  intros H. destruct (soft q k) eqn:E.
  - destruct (dslack_soft d q Hs (ds_v s) k H E) as [E1 E2]. destruct (slacks k H E) as (V1 & V2 & _). destruct up; [rewrite E2; exact V2|rewrite E1; exact V1].
  - assert (Eh : hard q k = true) by (unfold soft in E; destruct (hard q k); [reflexivity|discriminate]). destruct (dslack_hard d q (ds_v s) k Eh) as [E1 E2]. destruct up; assumption.
Qed.
Theorem daqp_kkt : dkkt d q 1 s.
Proof.
  constructor.
  - intros r Hr. unfold dstat. rewrite (sum_ext (dnv d) _ (fun c => sum (dnv d) (fun k => Lm r k * (Lm c k * x c)))).
    2:{ intros c Hc. rewrite v_x by exact Hc. rewrite <- (tr_chol _ _ _ _ _ _ _ Htri r c Hr Hc). rewrite <- sum_scal_r. apply sum_ext. intros; lra. }
    rewrite sum_swap. rewrite (sum_ext (dnv d) _ (fun k => Lm r k * (- sum (mrows d) (fun j => w_M m k j * ws_lam ws j)) - Lm r k * w_v m k)).
    2:{ intros k Hk. rewrite sum_scal. rewrite <- (lk_u _ _ _ _ _ HK k Hk). rewrite (ux k Hk). lra. }
    rewrite sum_minus. rewrite (fa_v _ _ _ _ _ _ _ _ Hf), (tr_n _ _ _ _ _ _ _ Htri) by exact Hr.
    rewrite (sum_ext (dnv d) _ (fun k => sum (mrows d) (fun j => - (mu j * (Lm r k * Fm k j))))).
    2:{ intros k Hk. rewrite <- sum_opp, <- sum_scal. apply sum_ext. intros j Hj. rewrite (fa_M _ _ _ _ _ _ _ _ Hf) by assumption. unfold mu. lra. }
    rewrite sum_swap. rewrite (sum_ext (mrows d) _ (fun j => - (mu j * acoef d q j r))).
    2:{ intros j Hj. rewrite sum_opp, sum_scal, F_col by assumption. reflexivity. }
    unfold mrows. fold (drows d). rewrite sum_split.
    rewrite (sum_ext (drows d) (fun k => - (mu k * acoef d q k r)) (fun k => dcoef d q k r * (ds_lam s k - ds_lam s (drows d + k)%nat))).
    2:{ intros k Hk. rewrite !lam_s by lia. destruct (lam_rows k Hk) as [-> ->]. unfold acoef. destruct (Nat.ltb_spec k (drows d)); [|lia]. pose proof (Rmax_split (mu k)). nra. }
    rewrite (sum_ext (dne d) (fun j => dq_A q j r * ds_pi s j) (fun j => - - (mu (drows d + j)%nat * acoef d q (drows d + j)%nat r))).
    2:{ intros j Hj. rewrite s_eq. cbn [ds_pi]. rewrite pi_eq by exact Hj. unfold acoef. destruct (Nat.ltb_spec (drows d + j) (drows d)); [lia|]. replace (drows d + j - drows d)%nat with j by lia. lra. }
    rewrite !(sum_opp (dne d)). lra.
  - intros e up He. destruct (owner d q Hs e He) as (k & Hk & Sk & <-). destruct (slacks k Hk Sk) as (V1 & V2 & L1 & L2). destruct (soft_rev d q Hs k Hk Sk) as [Ls Er]. unfold dstat_slack. rewrite (sum_one _ k).
    + rewrite Er, Z.eqb_refl. destruct up.
      * rewrite V2, L2. rewrite lam_s by lia. destruct (lam_rows k Hk) as [_ ->]. lra.
      * cbn [Nat.add]. rewrite V1, L1. rewrite lam_s by lia. destruct (lam_rows k Hk) as [-> _]. lra.
    + exact Hk.
    + intros l Hl N. destruct (Z.eqb_spec (dq_rev q l) (Z.of_nat (sl q k))) as [C|C]; [|reflexivity]. exfalso. apply N. apply (proj1 (proj2 Hs) l k Hl Hk); [lia|congruence].
  - intros j Hj. rewrite <- (eq_row j Hj). apply sum_ext. intros r Hr. rewrite v_x by exact Hr. reflexivity.
  - intros j H Hmask. unfold dineq. unfold dall in H. destruct (Nat.ltb_spec j (drows d)) as [L1|L1]; [|destruct (Nat.ltb_spec j (2 * drows d)) as [L2|L2]].
    + rewrite lam_s by lia. destruct (lam_rows j L1) as [-> _]. rewrite dlin_s, slack_s by exact L1. assert (El : lo0 inf q j = dq_d q j) by (unfold lo0; destruct (is0_spec (dq_mask q j)); [contradiction|reflexivity]).
      destruct (soft q j) eqn:Sj.
      * destruct (soft_facts j L1 Sj) as [(_ & B2 & _ & B4 & _) _]. rewrite El in B2, B4. split; [exact B2|]. split; [apply Rmax_l|]. destruct (rmax_cases (mu j)) as [(C & _ & ->)|[(C & _ & ->)|(C & _ & ->)]]; [lra| |lra]. specialize (B4 C). replace (dlin d q x j + sl_val j - dq_d q j) with 0 by lra. lra.
      * destruct (hard_row j L1 Sj) as ([B1 _] & _ & B4). rewrite El in B1, B4. split; [lra|]. split; [apply Rmax_l|]. destruct (rmax_cases (mu j)) as [(C & _ & ->)|[(C & _ & ->)|(C & _ & ->)]]; [lra| |lra]. specialize (B4 C). rewrite B4. lra.
    + set (k := (j - drows d)%nat). assert (Hk : (k < drows d)%nat) by (unfold k; lia). replace j with (drows d + k)%nat in * by (unfold k; lia). rewrite lam_s by lia. destruct (lam_rows k Hk) as [_ ->]. rewrite dlin_s, slack_s by exact Hk.
      assert (El : up0 inf d q k = - dq_d q (drows d + k)%nat) by (unfold up0; destruct (is0_spec (dq_mask q (drows d + k)%nat)); [contradiction|reflexivity]).
      destruct (soft q k) eqn:Sj.
      * destruct (soft_facts k Hk Sj) as [_ (_ & B2 & _ & B4 & _)]. rewrite El in B2, B4. split; [lra|]. split; [apply Rmax_l|]. destruct (rmax_cases (mu k)) as [(C & -> & _)|[(C & -> & _)|(C & -> & _)]]; [|lra|lra]. specialize (B4 C). replace (- dlin d q x k + su_val k - dq_d q (drows d + k)%nat) with 0 by lra. lra.
      * destruct (hard_row k Hk Sj) as ([_ B1] & B3 & _). rewrite El in B1, B3. split; [lra|]. split; [apply Rmax_l|]. destruct (rmax_cases (mu k)) as [(C & -> & _)|[(C & -> & _)|(C & -> & _)]]; [|lra|lra]. specialize (B3 C). rewrite B3. lra.
    + set (e := (j - 2 * drows d)%nat). assert (He : (e < 2 * dns d)%nat) by (unfold e, drows in *; lia). replace j with (2 * drows d + e)%nat in * by (unfold e; lia). replace (2 * drows d + e - 2 * drows d)%nat with e by lia.
      destruct (Nat.ltb_spec e (dns d)) as [Le|Le].
      * destruct (owner d q Hs e Le) as (k & Hk & Sk & Ek). destruct (slacks k Hk Sk) as (V1 & _ & W1 & _). destruct (soft_facts k Hk Sk) as [(B1 & _ & B3 & _ & B5) _]. unfold ds_l in *. rewrite Ek in *. rewrite V1, W1. split; [lra|]. split; [exact B3|].
        destruct (Rle_lt_or_eq_dec 0 _ B3) as [P|P]; [rewrite (B5 P); lra|rewrite <- P; lra].
      * destruct (owner d q Hs (e - dns d)%nat ltac:(lia)) as (k & Hk & Sk & Ek). destruct (slacks k Hk Sk) as (_ & V1 & _ & W1). destruct (soft_facts k Hk Sk) as [_ (B1 & _ & B3 & _ & B5)]. unfold ds_u in *. rewrite Ek in *. replace (dns d + (e - dns d))%nat with e in * by lia. rewrite V1, W1. split; [lra|]. split; [exact B3|].
        destruct (Rle_lt_or_eq_dec 0 _ B3) as [P|P]; [rewrite (B5 P); lra|rewrite <- P; lra].
  - intros j H Hmask. unfold dall in H. destruct (Nat.ltb_spec j (drows d)) as [L1|L1]; [|destruct (Nat.ltb_spec j (2 * drows d)) as [L2|L2]].
    + rewrite lam_s by lia. destruct (lam_rows j L1) as [-> _]. destruct (masked_zero j L1) as [M _]. specialize (M Hmask). apply Rmax_left. lra.
    + set (k := (j - drows d)%nat). assert (Hk : (k < drows d)%nat) by (unfold k; lia). replace j with (drows d + k)%nat in * by (unfold k; lia). rewrite lam_s by lia. destruct (lam_rows k Hk) as [_ ->]. destruct (masked_zero k Hk) as [_ M]. specialize (M Hmask). apply Rmax_left. lra.
    + exfalso. apply (sa_mask d q Ha (j - 2 * drows d)%nat); [unfold drows in *; lia|]. replace (2 * drows d + (j - 2 * drows d))%nat with j by lia. exact Hmask.
Qed.
End K.
