(** The LDP that the DAQP interface assembles. *)
From Coq Require Import ZArith List Bool Lia Reals Lra Arith.
From Verif Require Import Arith Vec LinModel RSum DenseModel QpoModel DaqpModel DenseSpec DaqpSpec DenseProofs StackProofs QpoProofs QpoKkt DaqpProofs DaqpFill.
Import ListNotations.
Open Scope R_scope.

Section U.
Variables (inf tol : R) (potrf : matR -> matR) (trsm : matR -> matR -> matR) (trsv_n trsv_t : matR -> vecR -> vecR).
Variables (check activate warm : Z) (d : ddims) (q : rdqp) (m0 : rdmem).
Definition L := potrf (dq_H q).
Definition F := trsm L (d_cols (A := real) d q (m_F m0)).
Definition upd (warm : Z) (m : rdmem) := negb (warm =? 2)%Z || negb (m_init m).
Hypothesis Hb : forall i, (i < dnb d)%nat -> (dq_idxb q i < dnv d)%nat.
Hypothesis Hs : one_row_each d q.
Hypothesis Ha : soft_able d q.
Hypothesis Htol : 0 < tol.
Hypothesis Hbig : forall j, (j < mrows d)%nat -> tol <= sum (dnv d) (fun r => F r j * F r j).
Hypothesis Hupd : upd warm m0 = true.
Hypothesis Hc : (0 <= check)%Z.
Hypothesis Hact : (0 <= activate)%Z.
Definition s_ (j : nat) : R := 1 / sqrt (sum (dnv d) (fun r => F r j * F r j)).
Definition lo0 k := if is0 (A := real) (dq_mask q k) then - inf else dq_d q k.
Definition up0 k := if is0 (A := real) (dq_mask q (drows d + k)%nat) then inf else - dq_d q (drows d + k)%nat.
Definition ds_l k := dq_d q (2 * drows d + sl q k)%nat.
Definition ds_u k := dq_d q (2 * drows d + (dns d + sl q k))%nat.
Definition Dl k := dq_g q (dnv d + sl q k)%nat + dq_Z q (sl q k) * ds_l k.
Definition Du k := dq_g q (dnv d + (dns d + sl q k))%nat + dq_Z q (dns d + sl q k)%nat * ds_u k.

Record facts (m : rdmem) : Prop := mkFacts {
  fa_L : m_L m = L;
  fa_init : m_init m = true;
  fa_F : forall r j, (r < dnv d)%nat -> (j < mrows d)%nat -> m_F m r j = s_ j * F r j;
  fa_v : w_v m = trsv_n L (dq_g q);
  fa_sc : forall j, (j < mrows d)%nat -> w_scal m j = s_ j;
  fa_M : forall r j, (r < dnv d)%nat -> (j < mrows d)%nat -> w_M m r j = s_ j * F r j;
  fa_dup : forall j, (j < mrows d)%nat -> w_dup m j = m_up m j * s_ j + sum (dnv d) (fun r => w_M m r j * w_v m r);
  fa_dlo : forall j, (j < mrows d)%nat -> w_dlo m j = m_lo m j * s_ j + sum (dnv d) (fun r => w_M m r j * w_v m r);
  fa_hard : forall k, (k < drows d)%nat -> soft q k = false -> sn_imm (w_sense m k) = false /\ sn_soft (w_sense m k) = false /\ m_lo m k = lo0 k /\ m_up m k = up0 k;
  fa_soft : forall k, (k < drows d)%nat -> soft q k = true -> sn_imm (w_sense m k) = false /\ sn_soft (w_sense m k) = true /\ m_lo m k = lo0 k - ds_l k /\ m_up m k = up0 k + ds_u k /\
    w_dls m k = Dl k / s_ k /\ w_dus m k = Du k / s_ k /\ w_rls m k = 1 / dq_Z q (sl q k) * (s_ k * s_ k) /\ w_rus m k = 1 / dq_Z q (dns d + sl q k)%nat * (s_ k * s_ k);
  fa_eq : forall j, (j < dne d)%nat -> sn_imm (w_sense m (drows d + j)%nat) = true /\ sn_act (w_sense m (drows d + j)%nat) = true /\ m_up m (drows d + j)%nat = dq_b q j;
  fa_idx : forall k, (k < drows d)%nat -> soft q k = true -> m_idxs m (sl q k) = k;
  fa_Z : forall i, (i < dns d)%nat -> m_Zl m i = dq_Z q i /\ m_Zu m i = dq_Z q (dns d + i)%nat /\ m_zl m i = dq_g q (dnv d + i)%nat /\ m_zu m i = dq_g q (dnv d + (dns d + i))%nat /\
    m_dls m i = dq_d q (2 * drows d + i)%nat /\ m_dus m i = dq_d q (2 * drows d + (dns d + i))%nat }.

Lemma owner i : (i < dns d)%nat -> exists k, (k < drows d)%nat /\ soft q k = true /\ sl q k = i.
Proof.
  intros H. destruct (proj2 (proj2 Hs) i H) as (k & Hk & E). exists k. split; [exact Hk|]. unfold soft, hard, sl. rewrite E. destruct (Z.eqb_spec (Z.of_nat i) (-1)); [lia|]. split; [reflexivity|lia].
Qed.
Lemma Zpos e : (e < 2 * dns d)%nat -> 0 < dq_Z q e.
Proof. intros H. pose proof (sa_Z d q Ha e H). lra. Qed.
Lemma wr_lt n (f x : vecR) k : (k < n)%nat -> wr (A := real) 0 n f x k = f k.
Proof. intros H. rewrite wr_in by lia. f_equal. lia. Qed.
Definition ixs := if (0 <? dns d)%nat then get_idxs d q (m_idxs m0) else m_idxs m0.
Lemma ixs_of k : (k < drows d)%nat -> soft q k = true -> ixs (sl q k) = k.
Proof. intros H E. unfold ixs. destruct (soft_rev d q Hs k H E) as [L1 _]. destruct (Nat.ltb_spec 0 (dns d)); [|lia]. apply (idxs_of d q Hs); assumption. Qed.
Lemma ixs_lt i : (i < dns d)%nat -> (ixs i < drows d)%nat.
Proof. intros H. destruct (owner i H) as (k & Hk & E & <-). rewrite ixs_of by assumption. exact Hk. Qed.
Lemma ixs_inj i j : (i < dns d)%nat -> (j < dns d)%nat -> ixs i = ixs j -> i = j.
Proof. intros Hi Hj E. destruct (owner i Hi) as (k & Hk & Ek & <-). destruct (owner j Hj) as (l & Hl & El & <-). rewrite !ixs_of in E by assumption. congruence. Qed.
Lemma ixs_hard k : (k < drows d)%nat -> soft q k = false -> forall i, (i < dns d)%nat -> ixs i <> k.
Proof. intros H E i Hi C. destruct (owner i Hi) as (l & Hl & El & <-). rewrite ixs_of in C by assumption. rewrite C, E in El. discriminate. Qed.

Lemma shl (a z Z e : R) : 0 < Z -> a + z / Z - (z + Z * e) / Z = a - e. Proof. intros. field. lra. Qed.
Lemma shu (a z Z e : R) : 0 < Z -> a - z / Z + (z + Z * e) / Z = a + e. Proof. intros. field. lra. Qed.

Theorem update_facts : exists m, daqp_update (A := real) inf tol sqrt potrf trsm trsv_n check activate warm d q m0 = inr m /\ facts m.
Proof.
  unfold daqp_update. fold (upd warm m0). rewrite Hupd. fold L. fold F. fold ixs. cbv zeta. cbn [orb andb].
  set (sn := fun j : nat => if (_ && _)%bool then mkSn true false true false false else _).
  set (S0 := mkSs _ _ _ _ _ _ _ _ sn). match goal with |- context [loop (dns d) (soft_step true ixs ?a ?b ?c ?e) S0] => set (zl := a); set (zu := b); set (dls := c); set (dus := e) end.
  assert (ZL : forall i, (i < dns d)%nat -> ss_Zl S0 i = dq_Z q i) by (intros i Hi; unfold S0; cbn [ss_Zl]; apply wr_lt; exact Hi).
  assert (ZU : forall i, (i < dns d)%nat -> ss_Zu S0 i = dq_Z q (dns d + i)%nat) by (intros i Hi; unfold S0; cbn [ss_Zu]; rewrite wr_lt by exact Hi; reflexivity).
  assert (HZl : forall i, (i < dns d)%nat -> / 100000000 <= ss_Zl S0 i) by (intros i Hi; rewrite ZL by exact Hi; apply (sa_Z d q Ha); lia).
  assert (HZu : forall i, (i < dns d)%nat -> / 100000000 <= ss_Zu S0 i) by (intros i Hi; rewrite ZU by exact Hi; apply (sa_Z d q Ha); lia).
  change (loop (dns d) (soft_step true ixs zl zu dls dus) S0) with (st true ixs zl zu dls dus S0 (dns d)). set (s := st true ixs zl zu dls dus S0 (dns d)).
  assert (Ezl : forall i, (i < dns d)%nat -> zl i = dq_g q (dnv d + i)%nat) by (intros i Hi; unfold zl; rewrite wr_lt by exact Hi; reflexivity).
  assert (Ezu : forall i, (i < dns d)%nat -> zu i = dq_g q (dnv d + (dns d + i))%nat) by (intros i Hi; unfold zu; rewrite wr_lt by exact Hi; f_equal; lia).
  assert (Edl : forall i, (i < dns d)%nat -> dls i = dq_d q (2 * drows d + i)%nat) by (intros i Hi; unfold dls; rewrite wr_lt by exact Hi; f_equal; unfold drows; lia).
  assert (Edu : forall i, (i < dns d)%nat -> dus i = dq_d q (2 * drows d + (dns d + i))%nat) by (intros i Hi; unfold dus; rewrite wr_lt by exact Hi; f_equal; unfold drows; lia).
  destruct (Z.ltb_spec check 0); [lia|].
  destruct (rows_loop tol (dnv d) (mrows d) (ss_lo s) (ss_up s) (w_scal m0) (ss_sense s) F Hbig (mrows d) (le_n _)) as (sc & F' & E & R1 & R2 & _). cbn [num real] in *. rewrite E. clear E.
  change (loop (dns d) (norm_step ixs sc) (ss_dls s, ss_dus s, ss_rls s, ss_rus s)) with (nt ixs sc (ss_dls s) (ss_dus s) (ss_rls s) (ss_rus s) (dns d)). rewrite nt_eta.
  destruct (Z.ltb_spec activate 0); [lia|]. eexists. split; [reflexivity|].
  assert (SC : forall j, (j < mrows d)%nat -> sc j = s_ j) by (intros j Hj; rewrite R1 by exact Hj; reflexivity).
  assert (snk : forall k, (k < drows d)%nat -> sn_imm (sn k) = false /\ sn_soft (sn k) = false).
  { intros k Hk. unfold sn. fold (drows d). destruct (Nat.leb_spec (drows d) k); [lia|]. cbn [andb]. destruct (Nat.ltb_spec k (mrows d)); [|unfold mrows, drows in *; lia]. destruct (warm =? 0)%Z; split; reflexivity. }
  constructor; cbn [m_L m_init m_F w_v w_scal w_M w_dup w_dlo m_up m_lo w_sense m_idxs m_Zl m_Zu m_zl m_zu m_dls m_dus w_dls w_dus w_rls w_rus].
  - reflexivity.
  - reflexivity.
  - intros r j Hr Hj. rewrite R2 by assumption. reflexivity.
  - reflexivity.
  - exact SC.
  - intros r j Hr Hj. rewrite R2 by assumption. reflexivity.
  - intros j Hj. rewrite wr_lt by exact Hj. rewrite mvt_sum, SC by exact Hj. reflexivity.
  - intros j Hj. rewrite wr_lt by exact Hj. rewrite mvt_sum, SC by exact Hj. reflexivity.
  - intros k Hk E. destruct (st_out true (dns d) ixs zl zu dls dus S0 (dns d) k (le_n _) (ixs_hard k Hk E)) as (O1 & O2 & _ & _ & _ & _ & O7). fold s in O1, O2, O7. rewrite O1, O2, O7. unfold S0. cbn [ss_lo ss_up ss_sense]. destruct (snk k Hk) as [-> ->]. rewrite lo_row, up_row by exact Hk. auto.
  - intros k Hk E. destruct (soft_rev d q Hs k Hk E) as [Ls _]. assert (Ei := ixs_of k Hk E).
    destruct (st_in true (dns d) ixs zl zu dls dus S0 ixs_inj HZl HZu (dns d) (sl q k) (le_n _) Ls) as (I1 & I2 & I3 & I4 & I5 & I6 & I7). fold s in I1, I2, I3, I4, I5, I6, I7. specialize (I7 eq_refl).
    destruct (nt_in (dns d) ixs sc (ss_dls s) (ss_dus s) (ss_rls s) (ss_rus s) ixs_inj (dns d) (sl q k) (le_n _) Ls) as (N1 & N2 & N3 & N4). rewrite Ei in *. rewrite N1, N2, N3, N4, I1, I2, I3, I4, I5, I6, I7.
    assert (Hkm : (k < mrows d)%nat) by (unfold mrows, drows in *; lia). rewrite SC by exact Hkm. unfold dl', du'. rewrite Ezl, Ezu, Edl, Edu, ZL, ZU by exact Ls. fold (ds_l k) (ds_u k). fold (Dl k) (Du k).
    assert (P1 : 0 <= Dl k) by (apply (sa_z d q Ha); lia). assert (P2 : 0 <= Du k) by (apply (sa_z d q Ha); lia). rewrite !Rmax_right by assumption.
    pose proof (Zpos (sl q k) ltac:(lia)). pose proof (Zpos (dns d + sl q k)%nat ltac:(lia)). unfold S0. cbn [ss_lo ss_up ss_sense sn_imm sn_soft]. rewrite lo_row, up_row by exact Hk. destruct (snk k Hk) as [-> _]. unfold lo0, up0.
    split; [reflexivity|]. split; [reflexivity|]. split; [apply shl; assumption|]. split; [apply shu; assumption|]. auto.
  - intros j Hj. destruct (st_out true (dns d) ixs zl zu dls dus S0 (dns d) (drows d + j)%nat (le_n _)) as (_ & O2 & _ & _ & _ & _ & O7); [intros i Hi C; pose proof (ixs_lt i Hi); lia|]. fold s in O2, O7. rewrite O2, O7. unfold S0. cbn [ss_up ss_sense].
    rewrite up_eq by exact Hj. unfold sn. fold (drows d). destruct (Nat.leb_spec (drows d) (drows d + j)); [|lia]. destruct (Nat.ltb_spec (drows d + j) (mrows d)); [|unfold mrows, drows in *; lia]. cbn. auto.
  - exact ixs_of.
  - intros i Hi. destruct (st_Z true (dns d) ixs zl zu dls dus S0 HZl HZu (dns d) (le_n _)) as [Z1 Z2]. fold s in Z1, Z2. rewrite Z1, Z2, ZL, ZU by exact Hi. rewrite Ezl, Ezu, Edl, Edu by exact Hi. repeat split.
Qed.
End U.
