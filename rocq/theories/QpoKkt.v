(** KKT points of the QP handed to qpOASES give KKT points of the dense QP. *)
From Coq Require Import ZArith List Bool Lia Reals Lra Arith Classical.
From Verif Require Import Arith Vec LinModel RSum DenseModel QpoModel DenseSpec DenseProofs StackProofs QpoProofs QpoTop.
Open Scope R_scope.

Section M.
Variables (inf : R) (d : ddims) (q o : rdqp) (x y : vecR).
Hypothesis Hb : own_bounds d q.
Hypothesis Hs : one_row_each d q.
Hypothesis Hk : stackable d q.
Hypothesis Hne : dne d = 0%nat.
Hypothesis Hm : forall m, (m < dall d)%nat -> dq_mask q m = 1.
Hypothesis HK : box_kkt (qpo_in inf d q o) x y.
Hypothesis Hin : forall r, (r < dnv d)%nat -> - inf < x r < inf.
Hypothesis Hcap : forall e, (e < 2 * dns d)%nat -> x (dnv d + e)%nat < 1000000.
Let B := qpo_in inf d q o.
Let RP : rep inf d q B x y := rep_in inf d q o x y Hb Hs Hk.

Lemma in_nv2 e : (e < 2 * dns d)%nat -> (dnv d + e < bx_nv B)%nat.
Proof. intros H. rewrite (rp_nv _ _ _ _ _ _ RP). unfold stk_nv. lia. Qed.
Lemma y_slack e : (e < 2 * dns d)%nat -> 0 <= y (dnv d + e)%nat /\ 0 <= x (dnv d + e)%nat /\ (0 < y (dnv d + e)%nat -> x (dnv d + e)%nat = 0).
Proof.
  intros H. destruct (bk_box B x y HK (dnv d + e)%nat (in_nv2 e H)) as ([A1 A2] & A3 & A4). destruct (rp_slack _ _ _ _ _ _ RP e H) as [E1 E2]. rewrite (sk_zero d q Hk e H) in E1. rewrite E1 in A1, A3. rewrite E2 in A4.
  pose proof (Hcap e H). split; [|split; [exact A1|exact A3]]. destruct (Rlt_dec (y (dnv d + e)%nat) 0) as [L|L]; [|lra]. rewrite (A4 L) in H0. lra.
Qed.
Lemma y_free r : (r < dnv d)%nat -> (forall k, (k < dnb d)%nat -> hard q k = true -> dq_idxb q k <> r) -> y r = 0.
Proof.
  intros Hr F. destruct (rp_free _ _ _ _ _ _ RP r Hr F) as [E1 E2]. destruct (bk_box B x y HK r) as (_ & A3 & A4); [rewrite (rp_nv _ _ _ _ _ _ RP); unfold stk_nv; lia|]. pose proof (Hin r Hr) as I.
  destruct (Rtotal_order (y r) 0) as [L|[L|L]]; [|exact L|].
  - specialize (A4 L). rewrite E2 in A4. lra.
  - specialize (A3 L). rewrite E1 in A3. lra.
Qed.
Lemma y_softened k : (k < dnb d)%nat -> soft q k = true -> y (dq_idxb q k) = 0.
Proof.
  intros L E. apply y_free; [apply (Hb k L)|]. intros k' L' E' C. apply (proj2 (Hb k' L') k L) in C. subst k'. unfold soft in E. rewrite E' in E. discriminate.
Qed.
Variables (i0 : nat -> nat) (ct : bool) (out : rdsol).
Let s := qpo_out d q i0 ct x y out.
Lemma s_v r : (r < stk_nv d)%nat -> ds_v s r = x r.
Proof. intros H. unfold s, qpo_out. cbn [ds_v]. rewrite wr_in by lia. f_equal. lia. Qed.
Lemma s_lam m : (m < dall d)%nat -> ds_lam s m = qpo_lam d q (get_idxs d q i0) y (ds_lam out) m.
Proof. intros H. unfold s, qpo_out. cbn [ds_lam]. rewrite wr_in by (unfold dall in H; lia). cbn [num nmul real]. replace (m - 0)%nat with m by lia. rewrite Hm by exact H. lra. Qed.
Let LA := lam_all d q Hs (sk_order d q Hk) y (ds_lam out) i0 y_softened (fun e H => proj1 (y_slack e H)).
Lemma lam_rows k : (k < drows d)%nat -> ds_lam s k = Rmax 0 (yrow d q y k) /\ ds_lam s (drows d + k)%nat = Rmax 0 (- yrow d q y k).
Proof. intros H. unfold dall, drows in *. rewrite !s_lam by (unfold dall; lia). apply LA. exact H. Qed.
Lemma lam_slacks k : (k < drows d)%nat -> soft q k = true ->
  ds_lam s (2 * drows d + sl q k)%nat = y (dnv d + sl q k)%nat - Rmax 0 (- yrow d q y k) /\ ds_lam s (2 * drows d + (dns d + sl q k))%nat = y (dnv d + (dns d + sl q k))%nat - Rmax 0 (yrow d q y k).
Proof. intros H E. destruct (soft_rev d q Hs k H E) as [L _]. unfold dall, drows in *. rewrite !s_lam by (unfold dall; lia). apply LA; assumption. Qed.
(** stationarity in the slacks *)
Lemma st_slack k : (k < drows d)%nat -> soft q k = true ->
  dq_Z q (sl q k) * x (dnv d + sl q k)%nat + dq_g q (dnv d + sl q k)%nat = y (dnv d + sl q k)%nat + yrow d q y k /\
  dq_Z q (dns d + sl q k)%nat * x (dnv d + (dns d + sl q k))%nat + dq_g q (dnv d + (dns d + sl q k))%nat = y (dnv d + (dns d + sl q k))%nat - yrow d q y k.
Proof.
  intros H E. destruct (soft_rev d q Hs k H E) as [L _]. destruct (rp_Cs _ _ _ _ _ _ RP k H E) as [C1 C2].
  pose proof (bk_stat B x y HK (dnv d + sl q k)%nat (in_nv2 (sl q k) ltac:(lia))) as S1. pose proof (bk_stat B x y HK (dnv d + (dns d + sl q k))%nat (in_nv2 (dns d + sl q k)%nat ltac:(lia))) as S2.
  rewrite C1 in S1. rewrite C2 in S2. rewrite (rp_Hs _ _ _ _ _ _ RP) in S1, S2 by lia. rewrite (rp_g _ _ _ _ _ _ RP) in S1, S2 by (unfold stk_nv; lia). split; lra.
Qed.
(** a row that is active from one side leaves the slack of the other side at zero *)
Lemma st_zero k : (k < drows d)%nat -> soft q k = true -> (yrow d q y k < 0 -> x (dnv d + sl q k)%nat = 0) /\ (0 < yrow d q y k -> x (dnv d + (dns d + sl q k))%nat = 0).
Proof.
  intros H E. destruct (soft_rev d q Hs k H E) as [L _]. destruct (st_slack k H E) as [S1 S2].
  destruct (sk_pen d q Hk (sl q k) ltac:(lia)) as [P1 P2]. destruct (sk_pen d q Hk (dns d + sl q k)%nat ltac:(lia)) as [P3 P4].
  destruct (y_slack (sl q k) ltac:(lia)) as (_ & X1 & Y1). destruct (y_slack (dns d + sl q k)%nat ltac:(lia)) as (_ & X2 & Y2).
  assert (0 <= dq_Z q (sl q k) * x (dnv d + sl q k)%nat) by (apply Rmult_le_pos; assumption).
  assert (0 <= dq_Z q (dns d + sl q k)%nat * x (dnv d + (dns d + sl q k))%nat) by (apply Rmult_le_pos; assumption).
  split; intros Ly; [apply Y1|apply Y2]; lra.
Qed.
Lemma rmax_cases a : (0 < a /\ Rmax 0 a = a /\ Rmax 0 (- a) = 0) \/ (a < 0 /\ Rmax 0 a = 0 /\ Rmax 0 (- a) = - a) \/ (a = 0 /\ Rmax 0 a = 0 /\ Rmax 0 (- a) = 0).
Proof.
  unfold Rmax. destruct (Rle_dec 0 a), (Rle_dec 0 (- a)).
  - right. right. lra.
  - left. lra.
  - right. left. lra.
  - lra.
Qed.
Lemma dlin_x k : (k < drows d)%nat -> dlin d q (ds_v s) k = dlin d q x k.
Proof. intros _. apply sum_ext. intros r Hr. rewrite s_v by (unfold stk_nv; lia). reflexivity. Qed.
Lemma dslack_x k up : (k < drows d)%nat -> dslack d q (ds_v s) k up = dslack d q x k up.
Proof.
  intros H. unfold dslack. destruct (Z.leb_spec 0 (dq_rev q k)); [|reflexivity]. apply s_v. unfold stk_nv. destruct (proj1 Hs k H) as [E|E]; [lia|]. destruct up; lia.
Qed.
(** feasibility and complementarity of the rows *)
Lemma row_in k : (k < drows d)%nat ->
  (0 <= dlin d q x k + dslack d q x k false - dq_d q k /\ Rmax 0 (yrow d q y k) * (dlin d q x k + dslack d q x k false - dq_d q k) = 0) /\
  (0 <= - dlin d q x k + dslack d q x k true - dq_d q (drows d + k)%nat /\ Rmax 0 (- yrow d q y k) * (- dlin d q x k + dslack d q x k true - dq_d q (drows d + k)%nat) = 0).
Proof.
  intros H. destruct ((k <? dnb d)%nat && hard q k) eqn:E.
  - apply andb_true_iff in E. destruct E as [L Eh]. apply Nat.ltb_lt in L. destruct (dslack_hard d q x k Eh) as [-> ->]. rewrite (dlin_bound d q Hb) by exact L.
    assert (Y : yrow d q y k = y (dq_idxb q k)) by (unfold yrow; apply Nat.ltb_lt in L; rewrite L, Eh; reflexivity). rewrite Y.
    destruct (rp_hard _ _ _ _ _ _ RP k L Eh) as [E1 E2]. destruct (bk_box B x y HK (dq_idxb q k)) as ([A1 A2] & A3 & A4); [rewrite (rp_nv _ _ _ _ _ _ RP); unfold stk_nv; pose proof (proj1 (Hb k L)); lia|].
    rewrite E1 in A1, A3. rewrite E2 in A2, A4. destruct (rmax_cases (y (dq_idxb q k))) as [(C & -> & ->)|[(C & -> & ->)|(C & -> & ->)]].
    + rewrite (A3 C) in *. split; split; try lra.
    + rewrite (A4 C) in *. split; split; try lra.
    + split; split; lra.
  - assert (Ck : (dnb d <= k)%nat \/ soft q k = true). { apply andb_false_iff in E. destruct E as [E|E]; [apply Nat.ltb_ge in E; left; exact E|right; unfold soft; rewrite E; reflexivity]. }
    destruct (rp_row _ _ _ _ _ _ RP k H Ck) as (j & J1 & J2 & J3 & J4 & J5). destruct (bk_row B x y HK j J1) as ([A1 A2] & A3 & A4). rewrite J5, J3 in A1. rewrite J5, J4 in A2. rewrite J2, J5, J3 in A3. rewrite J2, J5, J4 in A4.
    destruct (hard q k) eqn:Eh.
    + destruct (dslack_hard d q x k Eh) as [F1 F2]. rewrite F1, F2 in *. destruct (rmax_cases (yrow d q y k)) as [(C & -> & ->)|[(C & -> & ->)|(C & -> & ->)]].
      * specialize (A3 C). replace (dlin d q x k) with (dq_d q k) in * by lra. split; split; lra.
      * specialize (A4 C). replace (dlin d q x k) with (- dq_d q (drows d + k)%nat) in * by lra. split; split; lra.
      * split; split; lra.
    + assert (Sk : soft q k = true) by (unfold soft; rewrite Eh; reflexivity). destruct (soft_rev d q Hs k H Sk) as [Ls _]. destruct (dslack_soft d q Hs x k H Sk) as [F1 F2]. rewrite F1, F2 in *. destruct (st_zero k H Sk) as [Z1 Z2].
      destruct (y_slack (sl q k) ltac:(lia)) as (_ & X1 & _). destruct (y_slack (dns d + sl q k)%nat ltac:(lia)) as (_ & X2 & _).
      destruct (rmax_cases (yrow d q y k)) as [(C & -> & ->)|[(C & -> & ->)|(C & -> & ->)]].
      * specialize (A3 C). specialize (Z2 C). rewrite Z2 in *. split; (split; [lra|]); [|lra]. replace (dlin d q x k + x (dnv d + sl q k)%nat - dq_d q k) with 0 by lra. lra.
      * specialize (A4 C). specialize (Z1 C). rewrite Z1 in *. split; (split; [lra|]); [lra|]. replace (- dlin d q x k + x (dnv d + (dns d + sl q k))%nat - dq_d q (drows d + k)%nat) with 0 by lra. lra.
      * split; split; lra.
Qed.
Theorem qpo_kkt sg : dkkt d q sg s.
Proof.
  constructor.
  - intros r Hr. unfold dstat. rewrite Hne. cbn [sum]. rewrite (sum_ext (dnv d) _ (fun c => dsym q r c * x c)) by (intros c Hc; rewrite s_v by (unfold stk_nv; lia); reflexivity).
    rewrite (sum_ext (drows d) _ (fun k => (if (k <? dnb d)%nat && hard q k then dcoef d q k r * yrow d q y k else 0) + (if (k <? dnb d)%nat && hard q k then 0 else dcoef d q k r * yrow d q y k))).
    2:{ intros k H. destruct (lam_rows k H) as [-> ->]. rewrite Rmax_split. destruct (_ && _); lra. }
    rewrite sum_plus. pose proof (bk_stat B x y HK r ltac:(rewrite (rp_nv _ _ _ _ _ _ RP); unfold stk_nv; lia)) as S. rewrite (rp_H _ _ _ _ _ _ RP r Hr), (rp_g _ _ _ _ _ _ RP r ltac:(unfold stk_nv; lia)), (rp_C _ _ _ _ _ _ RP r Hr) in S.
    cut (sum (drows d) (fun k => if (k <? dnb d)%nat && hard q k then dcoef d q k r * yrow d q y k else 0) = y r); [intros ->; lra|].
    destruct (classic (exists k, (k < dnb d)%nat /\ hard q k = true /\ dq_idxb q k = r)) as [(k & L & Eh & Ek)|N].
    + rewrite (sum_one _ k).
      * unfold dcoef, yrow. apply Nat.ltb_lt in L. rewrite L, Eh. cbn [andb]. rewrite Ek, Nat.eqb_refl. lra.
      * unfold drows. lia.
      * intros k' _ N. destruct (Nat.ltb_spec k' (dnb d)) as [L'|L']; [|reflexivity]. cbn [andb]. destruct (hard q k') eqn:E'; [|reflexivity]. unfold dcoef. destruct (Nat.ltb_spec k' (dnb d)); [|lia].
        destruct (Nat.eqb_spec (dq_idxb q k') r) as [C|C]; [|lra]. exfalso. apply N. apply (proj2 (Hb k' L') k L). congruence.
    + rewrite sum_zero.
      * symmetry. apply y_free; [exact Hr|]. intros k L E C. apply N. exists k. auto.
      * intros k _. destruct (Nat.ltb_spec k (dnb d)) as [L'|L']; [|reflexivity]. cbn [andb]. destruct (hard q k) eqn:E'; [|reflexivity]. unfold dcoef. destruct (Nat.ltb_spec k (dnb d)); [|lia].
        destruct (Nat.eqb_spec (dq_idxb q k) r) as [C|C]; [|lra]. exfalso. apply N. exists k. auto.
  - intros e up He. destruct (proj2 (proj2 Hs) e He) as (k & H & Ek). assert (Sk : soft q k = true) by (unfold soft, hard; destruct (Z.eqb_spec (dq_rev q k) (-1)); [lia|reflexivity]).
    assert (El : sl q k = e) by (unfold sl; lia). destruct (st_slack k H Sk) as [S1 S2]. destruct (lam_slacks k H Sk) as [L1 L2]. destruct (lam_rows k H) as [R1 R2]. rewrite El in *.
    unfold dstat_slack. rewrite (sum_one _ k).
    + rewrite Ek, Z.eqb_refl. pose proof (Rmax_split (yrow d q y k)). destruct up.
      * rewrite s_v by (unfold stk_nv; lia). rewrite L2, R2. lra.
      * cbn [Nat.add]. rewrite s_v by (unfold stk_nv; lia). rewrite L1, R1. lra.
    + exact H.
    + intros l Hl N. destruct (Z.eqb_spec (dq_rev q l) (Z.of_nat e)) as [C|C]; [|reflexivity]. exfalso. apply N. apply (proj1 (proj2 Hs) l k Hl H); [lia|congruence].
  - rewrite Hne. lia.
  - intros m H _. unfold dineq. unfold dall in H. destruct (Nat.ltb_spec m (drows d)) as [L|L]; [|destruct (Nat.ltb_spec m (2 * drows d)) as [L2|L2]].
    + destruct (row_in m L) as [[A1 A2] _]. destruct (lam_rows m L) as [-> _]. rewrite dlin_x, dslack_x by exact L. split; [exact A1|split; [apply Rmax_l|exact A2]].
    + destruct (row_in (m - drows d) ltac:(lia)) as [_ [A1 A2]]. destruct (lam_rows (m - drows d) ltac:(lia)) as [_ E]. replace (drows d + (m - drows d))%nat with m in * by lia. rewrite E, dlin_x, dslack_x by lia. split; [exact A1|split; [apply Rmax_l|exact A2]].
    + set (e := (m - 2 * drows d)%nat). assert (He : (e < 2 * dns d)%nat) by (unfold e, drows in *; lia). replace m with (2 * drows d + e)%nat by (unfold e; lia). rewrite (sk_zero d q Hk e He). rewrite s_v by (unfold stk_nv; lia).
      destruct (y_slack e He) as (Y1 & X1 & C1). split; [lra|]. destruct (Nat.ltb_spec e (dns d)) as [Le|Le].
      * destruct (proj2 (proj2 Hs) e Le) as (k & Hr & Ek). assert (Sk : soft q k = true) by (unfold soft, hard; destruct (Z.eqb_spec (dq_rev q k) (-1)); [lia|reflexivity]).
        assert (El : sl q k = e) by (unfold sl; lia). destruct (st_slack k Hr Sk) as [S1 _]. destruct (lam_slacks k Hr Sk) as [L1 _]. destruct (st_zero k Hr Sk) as [Z1 _]. rewrite El in *. rewrite L1.
        destruct (sk_pen d q Hk e He) as [P1 P2]. assert (0 <= dq_Z q e * x (dnv d + e)%nat) by (apply Rmult_le_pos; assumption).
        destruct (rmax_cases (yrow d q y k)) as [(C & _ & ->)|[(C & _ & ->)|(C & _ & ->)]].
        -- split; [lra|]. destruct (Rle_lt_or_eq_dec 0 _ Y1) as [P|P]; [rewrite (C1 P); lra|rewrite <- P; lra].
        -- split; [lra|]. rewrite (Z1 C). lra.
        -- split; [lra|]. destruct (Rle_lt_or_eq_dec 0 _ Y1) as [P|P]; [rewrite (C1 P); lra|rewrite <- P; lra].
      * destruct (proj2 (proj2 Hs) (e - dns d)%nat ltac:(lia)) as (k & Hr & Ek). assert (Sk : soft q k = true) by (unfold soft, hard; destruct (Z.eqb_spec (dq_rev q k) (-1)); [lia|reflexivity]).
        assert (El : sl q k = (e - dns d)%nat) by (unfold sl; lia). destruct (st_slack k Hr Sk) as [_ S1]. destruct (lam_slacks k Hr Sk) as [_ L1]. destruct (st_zero k Hr Sk) as [_ Z1]. rewrite El in *. replace (dns d + (e - dns d))%nat with e in * by lia. rewrite L1.
        destruct (sk_pen d q Hk e He) as [P1 P2]. assert (0 <= dq_Z q e * x (dnv d + e)%nat) by (apply Rmult_le_pos; assumption).
        destruct (rmax_cases (yrow d q y k)) as [(C & -> & _)|[(C & -> & _)|(C & -> & _)]].
        -- split; [lra|]. rewrite (Z1 C). lra.
        -- split; [lra|]. destruct (Rle_lt_or_eq_dec 0 _ Y1) as [P|P]; [rewrite (C1 P); lra|rewrite <- P; lra].
        -- split; [lra|]. destruct (Rle_lt_or_eq_dec 0 _ Y1) as [P|P]; [rewrite (C1 P); lra|rewrite <- P; lra].
  - intros m H C. rewrite Hm in C by exact H. lra.
Qed.
End M.
