(** The loops of the DAQP interface in closed form. *)
From Coq Require Import ZArith List Bool Lia Reals Lra Arith.
From Verif Require Import Arith Vec LinModel RSum DenseModel QpoModel DaqpModel DenseSpec DaqpSpec DenseProofs StackProofs QpoProofs.
Import ListNotations.
Open Scope R_scope.

Lemma is0_spec (a : R) : reflect (a = 0) (is0 (A := real) a).
Proof. unfold is0. cbn. destruct (Rleb_spec a 0), (Rleb_spec 0 a); cbn; constructor; lra. Qed.
Lemma vs_eq (v : vecR) i a : vset (A := real) v i a i = a. Proof. unfold vset. rewrite Nat.eqb_refl. reflexivity. Qed.
Lemma vs_ne (v : vecR) i j a : j <> i -> vset (A := real) v i a j = v j. Proof. unfold vset. intros H. destruct (Nat.eqb_spec j i); [contradiction|reflexivity]. Qed.
Lemma ss_eq v i a : sset v i a i = a. Proof. unfold sset. rewrite Nat.eqb_refl. reflexivity. Qed.
Lemma ss_ne v i j a : j <> i -> sset v i a j = v j. Proof. unfold sset. intros H. destruct (Nat.eqb_spec j i); [contradiction|reflexivity]. Qed.
Lemma ws_eq_wr off n (f x : vecR) k : wr (A := real) off n f x k = if (off <=? k)%nat && (k <? off + n)%nat then f (k - off)%nat else x k. Proof. reflexivity. Qed.

(** * Softened rows *)
Section SOFT.
Variables (act : bool) (ns : nat) (ix : nat -> nat) (zl zu dls dus : vecR) (s0 : soft_st real).
Hypothesis inj : forall i j, (i < ns)%nat -> (j < ns)%nat -> ix i = ix j -> i = j.
Hypothesis HZl : forall i, (i < ns)%nat -> / 100000000 <= ss_Zl s0 i.
Hypothesis HZu : forall i, (i < ns)%nat -> / 100000000 <= ss_Zu s0 i.
Definition st n := loop n (soft_step (A := real) act ix zl zu dls dus) s0.
Definition dl' i := Rmax 0 (zl i + ss_Zl s0 i * dls i).
Definition du' i := Rmax 0 (zu i + ss_Zu s0 i * dus i).
Lemma cst8 : @ncst real 1 (-8) = / 100000000. Proof. cbn. unfold rcst. cbn. lra. Qed.
Lemma clip a : / 100000000 <= a -> nmax (A := real) (ncst 1 (-8)) a = a. Proof. intros H. rewrite nmax_real, cst8. apply Rmax_right. exact H. Qed.
Lemma st_Z n : (n <= ns)%nat -> (forall i, ss_Zl (st n) i = ss_Zl s0 i) /\ (forall i, ss_Zu (st n) i = ss_Zu s0 i).
Proof.
  induction n as [|n IH]; intros H; [split; reflexivity|]. destruct (IH ltac:(lia)) as [I1 I2]. unfold st in *. rewrite loop_S. set (s := loop n _ s0) in *.
  split; intros i; cbn [soft_step ss_Zl ss_Zu]; (destruct (Nat.eq_dec i n) as [->|N]; [rewrite vs_eq|rewrite vs_ne by exact N; auto]).
  - rewrite I1. apply clip, HZl. lia.
  - rewrite I2. apply clip, HZu. lia.
Qed.
Lemma st_out n j : (n <= ns)%nat -> (forall i, (i < n)%nat -> ix i <> j) ->
  ss_lo (st n) j = ss_lo s0 j /\ ss_up (st n) j = ss_up s0 j /\ ss_dls (st n) j = ss_dls s0 j /\ ss_dus (st n) j = ss_dus s0 j /\ ss_rls (st n) j = ss_rls s0 j /\ ss_rus (st n) j = ss_rus s0 j /\ ss_sense (st n) j = ss_sense s0 j.
Proof.
  induction n as [|n IH]; intros H Hj; [repeat split|]. destruct (IH ltac:(lia) ltac:(intros i Hi; apply Hj; lia)) as (I1 & I2 & I3 & I4 & I5 & I6 & I7). unfold st in *. rewrite loop_S. set (s := loop n _ s0) in *.
  assert (N : j <> ix n) by (intros E; apply (Hj n); [lia|symmetry; exact E]). cbn [soft_step ss_lo ss_up ss_dls ss_dus ss_rls ss_rus ss_sense]. rewrite !vs_ne by exact N.
  repeat (split; [assumption|]). destruct act; [rewrite ss_ne by exact N|]; exact I7.
Qed.
Lemma st_in n i : (n <= ns)%nat -> (i < n)%nat ->
  ss_lo (st n) (ix i) = ss_lo s0 (ix i) + zl i / ss_Zl s0 i - dl' i / ss_Zl s0 i /\ ss_up (st n) (ix i) = ss_up s0 (ix i) - zu i / ss_Zu s0 i + du' i / ss_Zu s0 i /\
  ss_dls (st n) (ix i) = dl' i /\ ss_dus (st n) (ix i) = du' i /\ ss_rls (st n) (ix i) = 1 / ss_Zl s0 i /\ ss_rus (st n) (ix i) = 1 / ss_Zu s0 i /\
  (act = true -> ss_sense (st n) (ix i) = mkSn false false (sn_imm (ss_sense s0 (ix i))) true false).
Proof.
  induction n as [|n IH]; intros H Hi; [lia|]. destruct (Nat.eq_dec i n) as [->|N].
  - destruct (st_out n (ix n) ltac:(lia)) as (I1 & I2 & I3 & I4 & I5 & I6 & I7); [intros j Hj E; apply inj in E; lia|]. destruct (st_Z n ltac:(lia)) as [Z1 Z2]. unfold st in *. rewrite loop_S. set (s := loop n _ s0) in *.
    cbn [soft_step ss_lo ss_up ss_dls ss_dus ss_rls ss_rus ss_sense]. rewrite !vs_eq. rewrite I1, I2, I7, Z1, Z2. rewrite !clip by (auto; apply HZl || apply HZu; lia). cbn [num n0 n1 nadd nsub nmul ndiv real]. rewrite !(nmax_real 0).
    unfold dl', du'. repeat (split; [reflexivity|]). intros ->. rewrite ss_eq. reflexivity.
  - destruct (IH ltac:(lia) ltac:(lia)) as (I1 & I2 & I3 & I4 & I5 & I6 & I7). unfold st in *. rewrite loop_S. set (s := loop n _ s0) in *.
    assert (Ne : ix i <> ix n) by (intros E; apply inj in E; lia). cbn [soft_step ss_lo ss_up ss_dls ss_dus ss_rls ss_rus ss_sense]. rewrite !vs_ne by exact Ne.
    repeat (split; [assumption|]). intros Ha. specialize (I7 Ha). destruct act; [rewrite ss_ne by exact Ne|]; exact I7.
Qed.
End SOFT.

(** * Normalisation *)
Section ROWS.
Variables (tol : R) (n mm : nat) (lo up sc0 : vecR) (sn0 : nat -> sense) (F : matR).
Definition nrm j := sum n (fun r => F r j * F r j).
Hypothesis Htol : 0 < tol.
Hypothesis Hbig : forall j, (j < mm)%nat -> tol <= nrm j.
Definition sg j := 1 / sqrt (nrm j).
Lemma sg_pos j : (j < mm)%nat -> 0 < sg j.
Proof. intros H. unfold sg. apply Rdiv_lt_0_compat; [lra|]. apply sqrt_lt_R0. specialize (Hbig j H). lra. Qed.
Lemma vsum_sum k (f : vecR) : vsum (A := real) k f = sum k f.
Proof. induction k as [|k IH]; [reflexivity|]. cbn [vsum sum]. rewrite <- IH. reflexivity. Qed.
Lemma rows_loop k : (k <= mm)%nat -> exists sc F', loop k (row_step (A := real) tol sqrt n lo up) (Some (sn0, sc0, F)) = Some (sn0, sc, F') /\
  (forall j, (j < k)%nat -> sc j = sg j) /\ (forall r j, (r < n)%nat -> (j < k)%nat -> F' r j = sg j * F r j) /\ (forall r j, (k <= j)%nat -> F' r j = F r j).
Proof.
  induction k as [|k IH]; intros H.
  - exists sc0, F. split; [reflexivity|]. split; [intros; lia|]. split; [intros; lia|]. intros; reflexivity.
  - destruct (IH ltac:(lia)) as (sc & F' & E & I1 & I2 & I3). rewrite loop_S, E. cbn [row_step]. rewrite vsum_sum. cbn [num nmul ndiv n1 nltb real].
    rewrite (sum_ext n _ (fun r => F r k * F r k)) by (intros r Hr; rewrite I3 by lia; reflexivity). fold (nrm k). destruct (Rltb_spec (nrm k) tol) as [L|L]; [specialize (Hbig k ltac:(lia)); lra|].
    eexists. eexists. split; [reflexivity|]. split; [|split].
    + intros j Hj. destruct (Nat.eq_dec j k) as [->|N]; [rewrite vs_eq; reflexivity|]. rewrite vs_ne by exact N. apply I1. lia.
    + intros r j Hr Hj. destruct (Nat.ltb_spec r n); [|lia]. cbn [andb]. destruct (Nat.eqb_spec j k) as [->|N]; [rewrite I3 by lia; reflexivity|]. apply I2; lia.
    + intros r j Hj. destruct (Nat.eqb_spec j k); [lia|]. rewrite andb_false_r. apply I3. lia.
Qed.
End ROWS.

(** * Weights *)
Section NORM.
Variables (ns : nat) (ix : nat -> nat) (sc dl du rl ru : vecR).
Hypothesis inj : forall i j, (i < ns)%nat -> (j < ns)%nat -> ix i = ix j -> i = j.
Definition nt n := loop n (norm_step (A := real) ix sc) (dl, du, rl, ru).
Definition n_dl n := let '(a, _, _, _) := nt n in a.
Definition n_du n := let '(_, a, _, _) := nt n in a.
Definition n_rl n := let '(_, _, a, _) := nt n in a.
Definition n_ru n := let '(_, _, _, a) := nt n in a.
Lemma nt_eta n : nt n = (n_dl n, n_du n, n_rl n, n_ru n). Proof. unfold n_dl, n_du, n_rl, n_ru. destruct (nt n) as [[[? ?] ?] ?]. reflexivity. Qed.
Lemma nt_S n : nt (S n) = norm_step (A := real) ix sc n (nt n). Proof. reflexivity. Qed.
Lemma nt_out n j : (n <= ns)%nat -> (forall i, (i < n)%nat -> ix i <> j) -> n_dl n j = dl j /\ n_du n j = du j /\ n_rl n j = rl j /\ n_ru n j = ru j.
Proof.
  induction n as [|n IH]; intros H Hj; [repeat split|]. destruct (IH ltac:(lia) ltac:(intros i Hi; apply Hj; lia)) as (I1 & I2 & I3 & I4).
  assert (N : j <> ix n) by (intros E; apply (Hj n); [lia|symmetry; exact E]). unfold n_dl, n_du, n_rl, n_ru in *. rewrite nt_S. destruct (nt n) as [[[a b] c] e]. cbn [norm_step]. rewrite !vs_ne by exact N. auto.
Qed.
Lemma nt_in n i : (n <= ns)%nat -> (i < n)%nat -> n_dl n (ix i) = dl (ix i) / sc (ix i) /\ n_du n (ix i) = du (ix i) / sc (ix i) /\ n_rl n (ix i) = rl (ix i) * (sc (ix i) * sc (ix i)) /\ n_ru n (ix i) = ru (ix i) * (sc (ix i) * sc (ix i)).
Proof.
  induction n as [|n IH]; intros H Hi; [lia|]. destruct (Nat.eq_dec i n) as [->|N].
  - destruct (nt_out n (ix n) ltac:(lia)) as (I1 & I2 & I3 & I4); [intros j Hj E; apply inj in E; lia|]. unfold n_dl, n_du, n_rl, n_ru in *. rewrite nt_S. destruct (nt n) as [[[a b] c] e]. cbn [norm_step]. rewrite !vs_eq. rewrite I1, I2, I3, I4. auto.
  - destruct (IH ltac:(lia) ltac:(lia)) as (I1 & I2 & I3 & I4). assert (Ne : ix i <> ix n) by (intros E; apply inj in E; lia).
    unfold n_dl, n_du, n_rl, n_ru in *. rewrite nt_S. destruct (nt n) as [[[a b] c] e]. cbn [norm_step]. rewrite !vs_ne by exact Ne. auto.
Qed.
End NORM.

(** * Constraint matrix and bounds *)
Lemma cols_coef d (q : rdqp) F r j : (forall i, (i < dnb d)%nat -> (dq_idxb q i < dnv d)%nat) -> (r < dnv d)%nat -> (j < mrows d)%nat -> d_cols (A := real) d q F r j = acoef d q j r.
Proof.
  intros Hi Hr Hj. unfold d_cols, acoef, dcoef, drows, mrows in *. destruct (Nat.ltb_spec r (dnv d)); [|lia]. cbn [andb].
  destruct (Nat.leb_spec (dnb d + dng d) j) as [L|L]; cbn [andb].
  - destruct (Nat.ltb_spec j (dnb d + dng d + dne d)); [|lia]. destruct (Nat.ltb_spec j (dnb d + dng d)); [lia|]. reflexivity.
  - destruct (Nat.ltb_spec j (dnb d + dng d)); [|lia]. destruct (Nat.leb_spec (dnb d) j) as [L2|L2]; cbn [andb].
    + destruct (Nat.ltb_spec j (dnb d)); [lia|]. reflexivity.
    + destruct (Nat.ltb_spec j (dnb d)); [|lia]. set (F0 := mwr (A := real) _ _ _ _).
      assert (G : forall n, (n <= dnb d)%nat -> loop n (fun ii F => mset (A := real) F (dq_idxb q ii) ii 1) F0 r j = if (j <? n)%nat && (dq_idxb q j =? r)%nat then 1 else 0).
      { induction n as [|n IH]; intros Hn.
        - cbn. unfold F0, mwr. destruct (Nat.ltb_spec r (dnv d)); [|lia]. destruct (Nat.ltb_spec j (dnb d)); [|lia]. reflexivity.
        - rewrite loop_S. unfold mset at 1. destruct (Nat.eqb_spec j n) as [->|N].
          + rewrite andb_true_r. destruct (Nat.ltb_spec n (S n)); [|lia]. cbn [andb]. rewrite Nat.eqb_sym. destruct (Nat.eqb_spec (dq_idxb q n) r) as [E|E]; [reflexivity|].
            rewrite IH by lia. destruct (Nat.ltb_spec n n); [lia|]. reflexivity.
          + rewrite andb_false_r. rewrite IH by lia. destruct (Nat.ltb_spec j n), (Nat.ltb_spec j (S n)); try lia; reflexivity. }
      change (@n1 real) with 1. rewrite G by lia. destruct (Nat.ltb_spec j (dnb d)); [|lia]. reflexivity.
Qed.
Lemma lo_row inf d (q : rdqp) m k : (k < drows d)%nat -> d_lo (A := real) inf d q m k = if is0 (A := real) (dq_mask q k) then - inf else dq_d q k.
Proof.
  intros H. unfold d_lo, wr, drows in *. cbn zeta. assert (E0 : (dnb d + dng d <=? k)%nat = false) by (apply Nat.leb_gt; exact H). rewrite E0. cbn [andb].
  destruct (Nat.ltb_spec k (dnb d)) as [L|L].
  - assert (E1 : (dnb d <=? k)%nat = false) by (apply Nat.leb_gt; exact L). rewrite E1. cbn [andb Nat.leb]. rewrite Nat.sub_0_r. assert (E2 : (k <? 0 + dnb d)%nat = true) by (apply Nat.ltb_lt; lia). rewrite E2, ?Nat.sub_0_r. reflexivity.
  - assert (E1 : (dnb d <=? k)%nat = true) by (apply Nat.leb_le; exact L). assert (E2 : (k <? dnb d + dng d)%nat = true) by (apply Nat.ltb_lt; exact H). assert (E3 : (k <? 0 + dnb d)%nat = false) by (apply Nat.ltb_ge; lia).
    rewrite E1, E2. cbn [andb]. replace (dnb d + (k - dnb d))%nat with k by lia. rewrite E1, E2, E3. cbn [andb Nat.leb]. rewrite ?andb_false_r. replace (dnb d + (k - dnb d))%nat with k by lia. reflexivity.
Qed.
Lemma up_row inf d (q : rdqp) m k : (k < drows d)%nat -> d_up (A := real) inf d q m k = if is0 (A := real) (dq_mask q (drows d + k)%nat) then inf else - dq_d q (drows d + k)%nat.
Proof.
  intros H. unfold d_up, wr, drows in *. cbn zeta.
  destruct (Nat.ltb_spec k (dnb d)) as [L|L].
  - assert (E1 : (dnb d <=? k)%nat = false) by (apply Nat.leb_gt; exact L). rewrite E1. cbn [andb Nat.leb]. rewrite Nat.sub_0_r. assert (E2 : (k <? 0 + dnb d)%nat = true) by (apply Nat.ltb_lt; lia). rewrite E2.
    replace (k + dng d + dnb d)%nat with (dnb d + dng d + k)%nat by lia. rewrite ?Nat.sub_0_r. reflexivity.
  - assert (E1 : (dnb d <=? k)%nat = true) by (apply Nat.leb_le; exact L). assert (E2 : (k <? dnb d + dng d)%nat = true) by (apply Nat.ltb_lt; exact H). assert (E3 : (k <? 0 + dnb d)%nat = false) by (apply Nat.ltb_ge; lia).
    rewrite E1, E2. cbn [andb]. replace (dnb d + (k - dnb d))%nat with k by lia. rewrite E1, E2, E3. cbn [andb Nat.leb]. rewrite ?andb_false_r. replace (dnb d + (k - dnb d))%nat with k by lia. rewrite E1, E2. cbn [andb]. replace (2 * dnb d + dng d + (k - dnb d))%nat with (dnb d + dng d + k)%nat by lia. reflexivity.
Qed.
Lemma up_eq inf d (q : rdqp) m j : (j < dne d)%nat -> d_up (A := real) inf d q m (drows d + j)%nat = dq_b q j.
Proof.
  intros H. unfold d_up, wr, drows in *. cbn zeta.
  repeat (match goal with |- context [Nat.leb ?a ?b] => destruct (Nat.leb_spec a b) | |- context [Nat.ltb ?a ?b] => destruct (Nat.ltb_spec a b) end; cbn [andb]; try lia); f_equal; lia.
Qed.
