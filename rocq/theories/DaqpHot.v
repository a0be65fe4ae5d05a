(** Hot starts with unchanged matrices. *)
From Coq Require Import ZArith List Bool Lia Reals Lra Arith.
From Verif Require Import Arith Vec LinModel RSum DenseModel QpoModel DaqpModel DenseSpec DaqpSpec DenseProofs StackProofs QpoProofs QpoTop QpoKkt DaqpProofs DaqpFill DaqpUpd.
Import ListNotations.
Open Scope R_scope.

Lemma sense_off ix zl zu dls dus S0 n : ss_sense (st false ix zl zu dls dus S0 n) = ss_sense S0.
Proof. unfold st. induction n as [|n IH]; [reflexivity|]. rewrite loop_S. cbn [soft_step ss_sense]. exact IH. Qed.
Section H.
Variables (inf tol : R) (potrf : matR -> matR) (trsm : matR -> matR -> matR) (trsv_n : matR -> vecR -> vecR).
Variables (check activate : Z) (d : ddims) (q1 q : rdqp) (m0 m : rdmem).
Hypothesis Hsame : dq_H q = dq_H q1 /\ dq_A q = dq_A q1 /\ dq_C q = dq_C q1 /\ dq_idxb q = dq_idxb q1 /\ forall k, (k < drows d)%nat -> soft q k = soft q1 k.
Hypothesis Hs : one_row_each d q.
Hypothesis Ha : soft_able d q.
Hypothesis Hc : (0 <= check)%Z.
Hypothesis Hact : (0 <= activate)%Z.
Hypothesis Hf : facts inf potrf trsm trsv_n d q1 m0 m.
Lemma same_L : L potrf q = L potrf q1. Proof. unfold L. destruct Hsame as (-> & _). reflexivity. Qed.
Lemma same_F : F potrf trsm d q m0 = F potrf trsm d q1 m0.
Proof. unfold F. rewrite same_L. unfold d_cols. destruct Hsame as (_ & -> & -> & -> & _). reflexivity. Qed.
Lemma same_s j : s_ potrf trsm d q m0 j = s_ potrf trsm d q1 m0 j.
Proof. unfold s_. rewrite same_F. reflexivity. Qed.
Theorem hot_facts : exists m', daqp_update (A := real) inf tol sqrt potrf trsm trsv_n check activate 2 d q m = inr m' /\ facts inf potrf trsm trsv_n d q m0 m'.
Proof.
  unfold daqp_update. rewrite (fa_init _ _ _ _ _ _ _ _ Hf). cbn [negb Z.eqb Pos.eqb orb]. cbv zeta. fold (ixs d q m).
  match goal with |- context [mkSs ?a ?b ?c ?e ?f ?g ?h ?i ?sn] => set (S0 := mkSs a b c e f g h i sn) end. match goal with |- context [loop (dns d) (soft_step false (ixs d q m) ?a ?b ?c ?e) S0] => set (zl := a); set (zu := b); set (dls := c); set (dus := e) end.
  assert (ZL : forall i, (i < dns d)%nat -> ss_Zl S0 i = dq_Z q i) by (intros i Hi; unfold S0; cbn [ss_Zl]; apply wr_lt; exact Hi).
  assert (ZU : forall i, (i < dns d)%nat -> ss_Zu S0 i = dq_Z q (dns d + i)%nat) by (intros i Hi; unfold S0; cbn [ss_Zu]; rewrite wr_lt by exact Hi; reflexivity).
  assert (HZl : forall i, (i < dns d)%nat -> / 100000000 <= ss_Zl S0 i) by (intros i Hi; rewrite ZL by exact Hi; apply (sa_Z d q Ha); lia).
  assert (HZu : forall i, (i < dns d)%nat -> / 100000000 <= ss_Zu S0 i) by (intros i Hi; rewrite ZU by exact Hi; apply (sa_Z d q Ha); lia).
  change (loop (dns d) (soft_step false (ixs d q m) zl zu dls dus) S0) with (st false (ixs d q m) zl zu dls dus S0 (dns d)). set (s := st false (ixs d q m) zl zu dls dus S0 (dns d)).
  assert (Ezl : forall i, (i < dns d)%nat -> zl i = dq_g q (dnv d + i)%nat) by (intros i Hi; unfold zl; rewrite wr_lt by exact Hi; reflexivity).
  assert (Ezu : forall i, (i < dns d)%nat -> zu i = dq_g q (dnv d + (dns d + i))%nat) by (intros i Hi; unfold zu; rewrite wr_lt by exact Hi; f_equal; lia).
  assert (Edl : forall i, (i < dns d)%nat -> dls i = dq_d q (2 * drows d + i)%nat) by (intros i Hi; unfold dls; rewrite wr_lt by exact Hi; f_equal; unfold drows; lia).
  assert (Edu : forall i, (i < dns d)%nat -> dus i = dq_d q (2 * drows d + (dns d + i))%nat) by (intros i Hi; unfold dus; rewrite wr_lt by exact Hi; f_equal; unfold drows; lia).
  destruct (Z.ltb_spec check 0); [lia|].
  change (loop (dns d) (norm_step (ixs d q m) (w_scal m)) (ss_dls s, ss_dus s, ss_rls s, ss_rus s)) with (nt (ixs d q m) (w_scal m) (ss_dls s) (ss_dus s) (ss_rls s) (ss_rus s) (dns d)). rewrite nt_eta.
  destruct (Z.ltb_spec activate 0); [lia|]. rewrite Bool.andb_false_r. eexists. split; [reflexivity|].
  assert (SC : forall j, (j < mrows d)%nat -> w_scal m j = s_ potrf trsm d q m0 j) by (intros j Hj; rewrite same_s; apply (fa_sc _ _ _ _ _ _ _ _ Hf), Hj).
  assert (MM : forall r j, (r < dnv d)%nat -> (j < mrows d)%nat -> m_F m r j = w_M m r j) by (intros r j Hr Hj; rewrite (fa_F _ _ _ _ _ _ _ _ Hf), (fa_M _ _ _ _ _ _ _ _ Hf) by assumption; reflexivity).
  assert (SE : ss_sense s = w_sense m).
  { unfold s. rewrite sense_off. reflexivity. }
  constructor; cbn [m_L m_init m_F w_v w_scal w_M w_dup w_dlo m_up m_lo w_sense m_idxs m_Zl m_Zu m_zl m_zu m_dls m_dus w_dls w_dus w_rls w_rus].
  - rewrite same_L. apply (fa_L _ _ _ _ _ _ _ _ Hf).
  - reflexivity.
  - intros r j Hr Hj. rewrite same_F, same_s. apply (fa_F _ _ _ _ _ _ _ _ Hf); assumption.
  - rewrite same_L, (fa_L _ _ _ _ _ _ _ _ Hf). reflexivity.
  - exact SC.
  - intros r j Hr Hj. rewrite same_F, same_s. apply (fa_M _ _ _ _ _ _ _ _ Hf); assumption.
  - intros j Hj. rewrite wr_lt by exact Hj. rewrite mvt_sum, SC by exact Hj. rewrite (sum_ext (dnv d) _ (fun r => w_M m r j * trsv_n (m_L m) (dq_g q) r)) by (intros r Hr; rewrite MM by assumption; reflexivity). reflexivity.
  - intros j Hj. rewrite wr_lt by exact Hj. rewrite mvt_sum, SC by exact Hj. rewrite (sum_ext (dnv d) _ (fun r => w_M m r j * trsv_n (m_L m) (dq_g q) r)) by (intros r Hr; rewrite MM by assumption; reflexivity). reflexivity.
  - intros k Hk E. destruct (st_out false (dns d) (ixs d q m) zl zu dls dus S0 (dns d) k (le_n _) (ixs_hard d q m Hs k Hk E)) as (O1 & O2 & _ & _ & _ & _ & _). fold s in O1, O2. rewrite O1, O2, SE. unfold S0. cbn [ss_lo ss_up ss_sense].
    rewrite (proj2 (proj2 (proj2 (proj2 Hsame))) k Hk) in E. destruct (fa_hard _ _ _ _ _ _ _ _ Hf k Hk E) as (E1 & E2 & _). rewrite lo_row, up_row by exact Hk. auto.
  - intros k Hk E. destruct (soft_rev d q Hs k Hk E) as [Ls _]. assert (Ei := ixs_of d q m Hs k Hk E).
    destruct (st_in false (dns d) (ixs d q m) zl zu dls dus S0 (ixs_inj d q m Hs) HZl HZu (dns d) (sl q k) (le_n _) Ls) as (I1 & I2 & I3 & I4 & I5 & I6 & _). fold s in I1, I2, I3, I4, I5, I6.
    destruct (nt_in (dns d) (ixs d q m) (w_scal m) (ss_dls s) (ss_dus s) (ss_rls s) (ss_rus s) (ixs_inj d q m Hs) (dns d) (sl q k) (le_n _) Ls) as (N1 & N2 & N3 & N4). rewrite Ei in *. rewrite N1, N2, N3, N4, I1, I2, I3, I4, I5, I6, SE.
    assert (Hkm : (k < mrows d)%nat) by (unfold mrows, drows in *; lia). rewrite SC by exact Hkm. unfold dl', du'. rewrite Ezl, Ezu, Edl, Edu, ZL, ZU by exact Ls. fold (ds_l d q k) (ds_u d q k). fold (Dl d q k) (Du d q k).
    assert (P1 : 0 <= Dl d q k) by (apply (sa_z d q Ha); lia). assert (P2 : 0 <= Du d q k) by (apply (sa_z d q Ha); lia). rewrite !Rmax_right by assumption.
    pose proof (Zpos d q Ha (sl q k) ltac:(lia)). pose proof (Zpos d q Ha (dns d + sl q k)%nat ltac:(lia)). unfold S0. cbn [ss_lo ss_up ss_sense sn_imm sn_soft]. rewrite lo_row, up_row by exact Hk. unfold lo0, up0.
    rewrite (proj2 (proj2 (proj2 (proj2 Hsame))) k Hk) in E. destruct (fa_soft _ _ _ _ _ _ _ _ Hf k Hk E) as (E1 & E2 & _).
    split; [exact E1|]. split; [exact E2|]. split; [apply shl; assumption|]. split; [apply shu; assumption|]. auto.
  - intros j Hj. destruct (st_out false (dns d) (ixs d q m) zl zu dls dus S0 (dns d) (drows d + j)%nat (le_n _)) as (_ & O2 & _ & _ & _ & _ & _); [intros i Hi C; pose proof (ixs_lt d q m Hs i Hi); lia|]. fold s in O2. rewrite O2, SE. unfold S0. cbn [ss_up].
    rewrite up_eq by exact Hj. destruct (fa_eq _ _ _ _ _ _ _ _ Hf j Hj) as (E1 & E2 & _). auto.
  - exact (ixs_of d q m Hs).
  - intros i Hi. destruct (st_Z false (dns d) (ixs d q m) zl zu dls dus S0 HZl HZu (dns d) (le_n _)) as [Z1 Z2]. fold s in Z1, Z2. rewrite Z1, Z2, ZL, ZU by exact Hi. rewrite Ezl, Ezu, Edl, Edu by exact Hi. repeat split.
Qed.
End H.
