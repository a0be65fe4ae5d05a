(** The QP with stacked slacks, in closed form. *)
From Coq Require Import ZArith List Bool Lia Reals Lra Arith.
From Verif Require Import Arith Vec LinModel RSum DenseModel QpoModel DenseSpec DenseProofs.
Open Scope nat_scope.

Section S.
Variable d : ddims.
Variables q o : rdqp.
Hypothesis Hb : own_bounds d q.
Hypothesis Hs : one_row_each d q.
Notation nv := (dnv d). Notation nb := (dnb d). Notation ng := (dng d). Notation ns := (dns d).
Definition soft (js : nat) : bool := negb (hard q js).
Definition rk (js : nat) : nat := cnt soft js.
Definition sl (js : nat) : nat := Z.to_nat (dq_rev q js).
Notation nsb := (nsb_of d q).
Notation nv2 := (stk_nv d). Notation nb2 := (stk_nb d q). Notation ng2 := (stk_ng d q).

Lemma soft_rev js : js < nb + ng -> soft js = true -> sl js < ns /\ dq_rev q js = Z.of_nat (sl js).
Proof.
  unfold soft, hard, sl. intros H E. apply negb_true_iff, Z.eqb_neq in E. destruct (proj1 Hs js H) as [F|F]; [lia|]. lia.
Qed.
Lemma sl_inj js ks : js < nb + ng -> ks < nb + ng -> soft js = true -> soft ks = true -> sl js = sl ks -> js = ks.
Proof.
  intros H1 H2 E1 E2 E. destruct (soft_rev js H1 E1) as [A1 A2]. destruct (soft_rev ks H2 E2) as [B1 B2].
  apply (proj1 (proj2 Hs) js ks H1 H2); [lia|]. rewrite A2, B2, E. reflexivity.
Qed.
Lemma nsb_cnt : nsb = cnt soft nb.
Proof.
  unfold nsb_of. assert (G : forall n, n <= nb -> loop n (fun ii k => if (-1 <? dq_rev q ii)%Z then S k else k) 0 = cnt soft n); [|apply G; lia].
  induction n as [|n IH]; intros Hn; [reflexivity|]. rewrite loop_S, IH by lia. cbn. assert (Sn : soft n = negb (dq_rev q n =? -1)%Z) by reflexivity. rewrite Sn. destruct (proj1 Hs n ltac:(unfold drows; lia)) as [E|E].
  - rewrite E. reflexivity.
  - destruct (Z.ltb_spec (-1) (dq_rev q n)); destruct (Z.eqb_spec (dq_rev q n) (-1)); cbn; try lia; reflexivity.
Qed.
Hypothesis Hns : 0 < dns d.
Lemma ng2_eq : ng2 = ng + cnt soft nb.
Proof. unfold stk_ng. apply Nat.ltb_lt in Hns as E. rewrite E, nsb_cnt. reflexivity. Qed.
Lemma nhb_eq : nb - nsb = cnt (hard q) nb.
Proof. rewrite nsb_cnt. pose proof (cnt_compl (hard q) nb) as E. unfold soft. lia. Qed.
Lemma nb2_eq : nb2 = cnt (hard q) nb + 2 * ns.
Proof. unfold stk_nb. rewrite nhb_eq. reflexivity. Qed.
Lemma rk_lt js : js < nb -> soft js = true -> rk js < cnt soft nb.
Proof. intros H E. apply cnt_lt; assumption. Qed.

Let step := stack_row d q nb2 ng2.
Let s0 := mkSst (stack_C d q o) (dq_d o) (wr (A := real) 0 nb (fun _ => 1%R) (dq_m o)) (dq_idxb o) ng.
Definition st (n : nat) : sst real := loop n step s0.
Lemma st_rows : stack_rows d q o = st (nb + ng). Proof. reflexivity. Qed.
Lemma st_S n : st (S n) = step n (st n). Proof. reflexivity. Qed.
Lemma step_hard n s : soft n = false -> step n s = s.
Proof. unfold step, stack_row, soft. intros E. apply negb_false_iff in E. rewrite E. reflexivity. Qed.
Lemma step_b n s : soft n = true -> n < nb -> step n s =
  mkSst (mset (mset (mset (st_C s) (dq_idxb q n) (st_col s) 1%R) (nv + sl n) (st_col s) 1%R) (nv + ns + sl n) (st_col s) (-1)%R)
    (vset (vset (st_d s) (nb2 + st_col s) (dq_d q n)) (2 * nb2 + ng2 + st_col s) (- dq_d q (nb + ng + n)%nat)%R)
    (vset (st_m s) n (-1)%R) (iset (iset (st_idxb s) (nb - nsb + sl n) (sl n + nv)) (nb - nsb + ns + sl n) (sl n + nv + ns)) (S (st_col s)).
Proof.
  unfold step, stack_row, soft. intros E L. apply negb_true_iff in E. rewrite E. apply Nat.ltb_lt in L. rewrite L. reflexivity.
Qed.
Lemma step_g n s : soft n = true -> nb <= n -> step n s =
  mkSst (mset (mset (st_C s) (nv + sl n) (n - nb) 1%R) (nv + ns + sl n) (n - nb) (-1)%R) (st_d s) (st_m s)
    (iset (iset (st_idxb s) (nb - nsb + sl n) (sl n + nv)) (nb - nsb + ns + sl n) (sl n + nv + ns)) (st_col s).
Proof.
  unfold step, stack_row, soft. intros E L. apply negb_true_iff in E. rewrite E. destruct (Nat.ltb_spec n nb); [lia|]. reflexivity.
Qed.
Ltac steps n := rewrite !st_S; destruct (soft n) eqn:Esf; [destruct (Nat.ltb_spec n nb) as [Lb|Lb]; [rewrite !step_b by assumption|rewrite !step_g by assumption]; cbn [st_C st_d st_m st_idxb st_col]|rewrite !step_hard by assumption].

Lemma st_col_eq n : n <= nb + ng -> st_col (st n) = ng + cnt soft (Nat.min n nb).
Proof.
  induction n as [|n IH]; intros H; [cbn; lia|]. specialize (IH ltac:(lia)). steps n.
  - rewrite IH. replace (Nat.min (S n) nb) with (S n) by lia. replace (Nat.min n nb) with n by lia. cbn. rewrite Esf. lia.
  - rewrite IH. f_equal. f_equal. lia.
  - rewrite IH. f_equal. destruct (Nat.ltb_spec n nb) as [L|L]; [|f_equal; lia]. replace (Nat.min (S n) nb) with (S n) by lia. replace (Nat.min n nb) with n by lia. cbn. rewrite Esf. reflexivity.
Qed.
Lemma st_col_b n : n < nb -> st_col (st n) = ng + rk n.
Proof. intros H. rewrite st_col_eq by lia. unfold rk. f_equal. f_equal. lia. Qed.
Lemma st_m_eq n ii : n <= nb + ng -> ii < nb -> st_m (st n) ii = if (ii <? n) && soft ii then (-1)%R else 1%R.
Proof.
  intros H Hi. induction n as [|n IH].
  - cbn [st loop]. cbn. apply (wr_in 0 nb); lia.
  - specialize (IH ltac:(lia)). steps n.
    + destruct (Nat.eq_dec ii n) as [->|N]; [rewrite vset_eq; destruct (Nat.ltb_spec n (S n)); [|lia]; rewrite Esf; reflexivity|].
      rewrite vset_ne by exact N. rewrite IH. destruct (Nat.ltb_spec ii n), (Nat.ltb_spec ii (S n)); try lia; reflexivity.
    + rewrite IH. destruct (Nat.ltb_spec ii n), (Nat.ltb_spec ii (S n)); try lia; reflexivity.
    + rewrite IH. destruct (Nat.ltb_spec ii n), (Nat.ltb_spec ii (S n)); try lia; try reflexivity. replace ii with n by lia. rewrite Esf. reflexivity.
Qed.
Lemma st_idxb_eq n js : n <= nb + ng -> js < n -> soft js = true ->
  st_idxb (st n) (nb - nsb + sl js) = nv + sl js /\ st_idxb (st n) (nb - nsb + ns + sl js) = nv + ns + sl js.
Proof.
  intros H Hj Ej. induction n as [|n IH]; [lia|]. destruct (soft_rev js ltac:(lia) Ej) as [A1 _].
  assert (G : soft n = true -> js <> n -> sl n < ns /\ sl js <> sl n).
  { intros E N. destruct (soft_rev n ltac:(lia) E) as [B _]. split; [exact B|]. intros C. apply N. apply sl_inj; try assumption; lia. }
  rewrite !st_S. destruct (soft n) eqn:Esf.
  - assert (F : forall f, iset (iset f (nb - nsb + sl n) (sl n + nv)) (nb - nsb + ns + sl n) (sl n + nv + ns) (nb - nsb + sl js) = (if js =? n then nv + sl n else f (nb - nsb + sl js)) /\
       iset (iset f (nb - nsb + sl n) (sl n + nv)) (nb - nsb + ns + sl n) (sl n + nv + ns) (nb - nsb + ns + sl js) = (if js =? n then nv + ns + sl n else f (nb - nsb + ns + sl js))).
    { intros f. destruct (Nat.eqb_spec js n) as [->|N].
      - split; [rewrite iset_ne, iset_eq by lia; lia|rewrite iset_eq; lia].
      - destruct (G eq_refl N). split; rewrite !iset_ne by lia; reflexivity. }
    assert (R : forall f, (js <> n -> f (nb - nsb + sl js) = nv + sl js /\ f (nb - nsb + ns + sl js) = nv + ns + sl js) ->
       iset (iset f (nb - nsb + sl n) (sl n + nv)) (nb - nsb + ns + sl n) (sl n + nv + ns) (nb - nsb + sl js) = nv + sl js /\
       iset (iset f (nb - nsb + sl n) (sl n + nv)) (nb - nsb + ns + sl n) (sl n + nv + ns) (nb - nsb + ns + sl js) = nv + ns + sl js).
    { intros f Hf. destruct (F f) as [-> ->]. destruct (Nat.eqb_spec js n) as [->|N]; [split; reflexivity|]. apply Hf, N. }
    destruct (Nat.ltb_spec n nb) as [Lb|Lb]; [rewrite !step_b by assumption|rewrite !step_g by assumption]; cbn [st_idxb]; apply R; intros N; apply IH; lia.
  - rewrite !step_hard by assumption. apply IH; [lia|]. assert (js <> n) by congruence. lia.
Qed.
Lemma st_d_eq n js : n <= nb + ng -> js < n -> js < nb -> soft js = true ->
  st_d (st n) (nb2 + ng + rk js) = dq_d q js /\ st_d (st n) (2 * nb2 + ng2 + ng + rk js) = (- dq_d q (nb + ng + js)%nat)%R.
Proof.
  intros H Hj Hjb Ej. induction n as [|n IH]; [lia|]. pose proof (rk_lt js Hjb Ej). pose proof ng2_eq. steps n.
  - rewrite st_col_b by exact Lb. pose proof (rk_lt n Lb Esf). destruct (Nat.eq_dec js n) as [->|N].
    + split; [rewrite vset_ne by lia; replace (nb2 + (ng + rk n)) with (nb2 + ng + rk n) by lia; apply vset_eq|].
      replace (2 * nb2 + ng2 + (ng + rk n)) with (2 * nb2 + ng2 + ng + rk n) by lia. apply vset_eq.
    + assert (rk js <> rk n) by (intros E; apply N; exact (cnt_inj soft js n Ej Esf E)). rewrite !vset_ne by lia. apply IH; lia.
  - apply IH; lia.
  - apply IH; [lia|]. assert (js <> n) by congruence. lia.
Qed.
Lemma mset_eq (M : nat -> nat -> R) i j a r c : mset (A := real) M i j a r c = if (r =? i) && (c =? j) then a else M r c.
Proof. reflexivity. Qed.
(** columns not reached yet *)
Lemma st_C0 n r c : n <= nb + ng -> r < nv2 -> ng + cnt soft (Nat.min n nb) <= c -> c < ng2 -> st_C (st n) r c = 0%R.
Proof.
  intros H Hr. induction n as [|n IH]; intros Hc Hc2.
  - cbn [st loop s0 st_C]. unfold stack_C, mwr. destruct (Nat.ltb_spec c ng); [cbn in Hc; lia|]. rewrite andb_false_r.
    destruct (Nat.ltb_spec r nv2), (Nat.ltb_spec c ng2); try lia. reflexivity.
  - specialize (IH ltac:(lia)). steps n.
    + replace (Nat.min (S n) nb) with (S n) in Hc by lia. cbn in Hc. rewrite Esf in Hc. rewrite st_col_b by exact Lb. unfold rk. rewrite !mset_eq.
      destruct (Nat.eqb_spec c (ng + cnt soft n)); [lia|]. rewrite !andb_false_r. apply IH; [|exact Hc2]. replace (Nat.min n nb) with n by lia. lia.
    + rewrite !mset_eq. destruct (Nat.eqb_spec c (n - nb)) as [->|N]; [lia|]. rewrite !andb_false_r. apply IH; [|exact Hc2].
      replace (Nat.min n nb) with nb by lia. replace (Nat.min (S n) nb) with nb in Hc by lia. exact Hc.
    + apply IH; [|exact Hc2]. pose proof (cnt_mono soft (Nat.min n nb) (Nat.min (S n) nb) ltac:(lia)). lia.
Qed.
(** columns of general constraints *)
Lemma st_Cg n r c : n <= nb + ng -> r < nv2 -> c < ng -> st_C (st n) r c =
  if r <? nv then dq_C q r c else if (nb + c <? n) && soft (nb + c) then (if r =? nv + ns + sl (nb + c) then -1 else if r =? nv + sl (nb + c) then 1 else 0)%R else 0%R.
Proof.
  intros H Hr Hc. induction n as [|n IH].
  - cbn [st loop s0 st_C]. unfold stack_C, mwr. destruct (Nat.ltb_spec c ng); [|lia]. rewrite andb_true_r. destruct (Nat.ltb_spec r nv); [reflexivity|].
    destruct (Nat.ltb_spec r nv2); [|lia]. destruct (Nat.ltb_spec c ng2); [|pose proof ng2_eq; lia]. cbn. reflexivity.
  - specialize (IH ltac:(lia)). steps n.
    + rewrite st_col_b by exact Lb. rewrite !mset_eq. destruct (Nat.eqb_spec c (ng + rk n)); [lia|]. rewrite !andb_false_r, IH.
      destruct (Nat.ltb_spec (nb + c) n), (Nat.ltb_spec (nb + c) (S n)); try lia. reflexivity.
    + rewrite !mset_eq. destruct (Nat.eqb_spec c (n - nb)) as [E|N].
      * rewrite !andb_true_r. assert (En : n = nb + c) by lia. rewrite <- En. rewrite Esf. destruct (Nat.ltb_spec n (S n)); [|lia]. cbn [andb].
        destruct (Nat.ltb_spec r nv) as [L|L].
        -- destruct (Nat.eqb_spec r (nv + ns + sl n)); [lia|]. destruct (Nat.eqb_spec r (nv + sl n)); [lia|]. rewrite IH. reflexivity.
        -- rewrite IH. rewrite <- En. destruct (Nat.ltb_spec n n); [lia|]. cbn [andb]. reflexivity.
      * rewrite !andb_false_r, IH. destruct (Nat.ltb_spec (nb + c) n), (Nat.ltb_spec (nb + c) (S n)); try lia; reflexivity.
    + rewrite IH. destruct (r <? nv); [reflexivity|]. destruct (Nat.ltb_spec (nb + c) n), (Nat.ltb_spec (nb + c) (S n)); try lia; try reflexivity. replace (nb + c) with n by lia. rewrite Esf. reflexivity.
Qed.
(** columns of softened bounds *)
Lemma st_Cb n r js : n <= nb + ng -> r < nv2 -> js < n -> js < nb -> soft js = true -> st_C (st n) r (ng + rk js) =
  (if r =? nv + ns + sl js then -1 else if r =? nv + sl js then 1 else if r =? dq_idxb q js then 1 else 0)%R.
Proof.
  intros H Hr Hj Hjb Ej. induction n as [|n IH]; [lia|]. pose proof (rk_lt js Hjb Ej). steps n.
  - rewrite st_col_b by exact Lb. rewrite !mset_eq. destruct (Nat.eq_dec js n) as [->|N].
    + rewrite Nat.eqb_refl, !andb_true_r. destruct (r =? nv + ns + sl n); [reflexivity|]. destruct (r =? nv + sl n); [reflexivity|]. destruct (r =? dq_idxb q n); [reflexivity|].
      apply st_C0; [lia|exact Hr| |rewrite ng2_eq; lia]. unfold rk. replace (Nat.min n nb) with n by lia. lia.
    + destruct (Nat.eqb_spec (ng + rk js) (ng + rk n)) as [E|E]; [exfalso; apply N; apply (cnt_inj soft); [exact Ej|exact Esf|fold (rk js) (rk n); lia]|].
      rewrite !andb_false_r. apply IH; lia.
  - rewrite !mset_eq. destruct (Nat.eqb_spec (ng + rk js) (n - nb)); [lia|]. rewrite !andb_false_r. apply IH; lia.
  - apply IH; [lia|]. assert (js <> n) by congruence. lia.
Qed.

(** * Bounds that stay bounds *)
Let stepH := stack_hard d q nb2 ng2 (st_m (st (nb + ng))).
Definition bt (n : nat) : (nat -> R) * (nat -> nat) * nat := loop n stepH (st_d (st (nb + ng)), st_idxb (st (nb + ng)), 0).
Lemma bt_bounds : stack_bounds d q o = bt nb. Proof. reflexivity. Qed.
Lemma bt_S n : n < nb -> bt (S n) = if hard q n then
  (vset (vset (fst (fst (bt n))) (snd (bt n)) (dq_d q n)) (nb2 + ng2 + snd (bt n)) (- dq_d q (nb + ng + n)%nat)%R, iset (snd (fst (bt n))) (snd (bt n)) n, S (snd (bt n))) else bt n.
Proof.
  intros H. unfold bt at 1. rewrite loop_S. fold (bt n). unfold stepH, stack_hard. destruct (bt n) as [[dd idx] k]. cbn [fst snd].
  rewrite (st_m_eq (nb + ng) n) by lia. destruct (Nat.ltb_spec n (nb + ng)); [|lia]. cbn [andb]. unfold soft. change (@nltb real) with Rltb. change (@n0 real) with 0%R. destruct (hard q n); cbn [negb].
  - destruct (Rltb_spec 0 1); [reflexivity|lra].
  - destruct (Rltb_spec 0 (-1)); [lra|reflexivity].
Qed.
Lemma bt_k n : n <= nb -> snd (bt n) = cnt (hard q) n.
Proof. induction n as [|n IH]; intros H; [reflexivity|]. rewrite bt_S by lia. cbn. destruct (hard q n); cbn [snd]; rewrite IH by lia; reflexivity. Qed.
Lemma nh_nb2 : cnt (hard q) nb <= nb2. Proof. rewrite nb2_eq. lia. Qed.
Lemma bt_at n ii : n <= nb -> ii < n -> hard q ii = true ->
  fst (fst (bt n)) (cnt (hard q) ii) = dq_d q ii /\ fst (fst (bt n)) (nb2 + ng2 + cnt (hard q) ii) = (- dq_d q (nb + ng + ii)%nat)%R /\ snd (fst (bt n)) (cnt (hard q) ii) = ii.
Proof.
  intros H Hi E. induction n as [|n IH]; [lia|]. rewrite bt_S by lia. rewrite bt_k by lia. pose proof nh_nb2.
  destruct (Nat.eq_dec ii n) as [->|N].
  - rewrite E. cbn [fst snd]. pose proof (cnt_lt (hard q) n nb ltac:(lia) E). rewrite vset_ne by lia. rewrite !vset_eq, iset_eq. auto.
  - destruct (hard q n) eqn:En; [|apply IH; lia]. cbn [fst snd]. pose proof (cnt_lt (hard q) ii n ltac:(lia) E). pose proof (cnt_lt (hard q) n nb ltac:(lia) En).
    rewrite !vset_ne by lia. rewrite iset_ne by lia. apply IH; lia.
Qed.
Lemma bt_out_d n k : n <= nb -> cnt (hard q) nb <= k < nb2 + ng2 \/ nb2 + ng2 + cnt (hard q) nb <= k -> fst (fst (bt n)) k = st_d (st (nb + ng)) k.
Proof.
  intros H Hk. induction n as [|n IH]; [reflexivity|]. rewrite bt_S by lia. rewrite bt_k by lia. destruct (hard q n) eqn:E; [|apply IH; lia]. cbn [fst snd].
  pose proof (cnt_lt (hard q) n nb ltac:(lia) E). pose proof nh_nb2. rewrite !vset_ne by lia. apply IH. lia.
Qed.
Lemma bt_out_i n k : n <= nb -> cnt (hard q) nb <= k -> snd (fst (bt n)) k = st_idxb (st (nb + ng)) k.
Proof.
  intros H Hk. induction n as [|n IH]; [reflexivity|]. rewrite bt_S by lia. rewrite bt_k by lia. destruct (hard q n) eqn:E; [|apply IH; lia]. cbn [fst snd].
  pose proof (cnt_lt (hard q) n nb ltac:(lia) E). rewrite iset_ne by lia. apply IH. lia.
Qed.

(** * The stacked QP *)
Definition sk : rdqp := stack_slacks d q o.
Notation nh := (cnt (hard q) nb).
Let D0 : nat -> R := fst (fst (bt nb)).
Let D1 := wr (A := real) nh (2 * ns) (fun i => dq_d q (2 * nb + 2 * ng + i)) D0.
Let D2 := wr (A := real) (nb2 + ng2 + nh) (2 * ns) (fun _ => @ncst real 1 6) D1.
Let D3 := wr (A := real) nb2 ng (fun j => dq_d q (nb + j)) D2.
Let D4 := wr (A := real) (2 * nb2 + ng2) ng (fun j => (- dq_d q (2 * nb + ng + j)%nat)%R) D3.
Let D5 := wr (A := real) (nb2 + ng2) (nb2 + ng2) (fun i => (- D4 (nb2 + ng2 + i)%nat)%R) D4.
Lemma sk_parts : dq_C sk = st_C (st (nb + ng)) /\ dq_idxb sk = snd (fst (bt nb)) /\ dq_g sk = wr (A := real) 0 (nv + 2 * ns) (dq_g q) (dq_g o).
Proof.
  unfold sk, stack_slacks. apply Nat.ltb_lt in Hns as E. rewrite E. rewrite bt_bounds. destruct (bt nb) as [[dd idx] k]. cbn [dq_C dq_idxb dq_g fst snd]. rewrite st_rows. auto.
Qed.
Lemma sk_H : dq_H sk = fun r c => if (r =? c) && (nv <=? r) && (r <? nv + 2 * ns) then dq_Z q (r - nv) else mwr (A := real) nv nv (dq_H q) (mwr (A := real) nv2 nv2 (fun _ _ => 0%R) (dq_H o)) r c.
Proof.
  unfold sk, stack_slacks. apply Nat.ltb_lt in Hns as E. rewrite E. destruct (stack_bounds d q o) as [[dd idx] k]. reflexivity.
Qed.
Lemma sk_d : dq_d sk = D5.
Proof.
  unfold sk, stack_slacks. apply Nat.ltb_lt in Hns as E. rewrite E. unfold D5, D4, D3, D2, D1, D0. rewrite <- (bt_k nb (le_n _)). rewrite bt_bounds. destruct (bt nb) as [[dd idx] k]. reflexivity.
Qed.
Lemma cst6 : @ncst real 1 6 = 1000000%R. Proof. cbn. lra. Qed.
Lemma D5_low k : k < nb2 + ng2 -> D5 k = D4 k. Proof. intros H. unfold D5. apply wr_out. lia. Qed.
Lemma D5_up k : k < nb2 + ng2 -> D5 (nb2 + ng2 + k) = (- D4 (nb2 + ng2 + k)%nat)%R. Proof. intros H. unfold D5. rewrite wr_at by exact H. reflexivity. Qed.

(** bounds *)
Lemma sk_lb_hard ii : ii < nb -> hard q ii = true -> get_lb sk (cnt (hard q) ii) = dq_d q ii /\ get_ub nb2 ng2 sk (cnt (hard q) ii) = (- dq_d q (nb + ng + ii)%nat)%R /\ dq_idxb sk (cnt (hard q) ii) = ii.
Proof.
  intros H E. pose proof (cnt_lt (hard q) ii nb H E) as Hc. pose proof nh_nb2. pose proof nb2_eq. pose proof ng2_eq. unfold get_lb, get_ub. rewrite sk_d. destruct (bt_at nb ii (le_n _) H E) as (A1 & A2 & A3). destruct sk_parts as (_ & -> & _). split; [|split; [|exact A3]].
  - rewrite D5_low by lia. unfold D4, D3, D2, D1. rewrite !wr_out by lia. exact A1.
  - rewrite D5_up by lia. unfold D4, D3, D2, D1. rewrite !wr_out by lia. cbn [num nopp real]. unfold D0. rewrite A2. lra.
Qed.
Lemma sk_lb_slack e : e < 2 * ns -> get_lb sk (nh + e) = dq_d q (2 * nb + 2 * ng + e) /\ get_ub nb2 ng2 sk (nh + e) = 1000000%R /\ dq_idxb sk (nh + e) = nv + e.
Proof.
  intros H. pose proof nb2_eq. pose proof ng2_eq. unfold get_lb, get_ub. rewrite sk_d. split; [|split].
  - rewrite D5_low by lia. unfold D4, D3, D2. rewrite !wr_out by lia. unfold D1. rewrite wr_at by lia. reflexivity.
  - rewrite D5_up by lia. unfold D4, D3. rewrite !wr_out by lia. unfold D2. replace (nb2 + ng2 + (nh + e)) with (nb2 + ng2 + nh + e) by lia. rewrite wr_at by lia. cbn [num nopp real]. rewrite cst6. lra.
  - destruct sk_parts as (_ & -> & _). rewrite bt_out_i by lia. destruct (Nat.ltb_spec e ns) as [L|L].
    + destruct (proj2 (proj2 Hs) e L) as (k & Hk & Ek). assert (Sk : soft k = true) by (unfold soft, hard; destruct (Z.eqb_spec (dq_rev q k) (-1)); [lia|reflexivity]).
      assert (El : sl k = e) by (unfold sl; lia). destruct (st_idxb_eq (nb + ng) k (le_n _) Hk Sk) as [G _]. rewrite El, nhb_eq in G. exact G.
    + destruct (proj2 (proj2 Hs) (e - ns) ltac:(lia)) as (k & Hk & Ek). assert (Sk : soft k = true) by (unfold soft, hard; destruct (Z.eqb_spec (dq_rev q k) (-1)); [lia|reflexivity]).
      assert (El : sl k = e - ns) by (unfold sl; lia). destruct (st_idxb_eq (nb + ng) k (le_n _) Hk Sk) as [_ G]. rewrite El, nhb_eq in G.
      replace (nh + e) with (nh + ns + (e - ns)) by lia. rewrite G. lia.
Qed.
(** rows *)
Lemma sk_lg j : j < ng -> get_lg nb2 sk j = dq_d q (nb + j) /\ get_ug nb2 ng2 sk j = (- dq_d q (2 * nb + ng + j)%nat)%R.
Proof.
  intros H. pose proof ng2_eq. unfold get_lg, get_ug. rewrite sk_d. split.
  - rewrite D5_low by lia. unfold D4. rewrite wr_out by lia. unfold D3. rewrite wr_at by lia. reflexivity.
  - replace (2 * nb2 + ng2 + j) with (nb2 + ng2 + (nb2 + j)) by lia. rewrite D5_up by lia. unfold D4. replace (nb2 + ng2 + (nb2 + j)) with (2 * nb2 + ng2 + j) by lia. rewrite wr_at by lia. cbn [num nopp real]. lra.
Qed.
Lemma sk_lg_soft js : js < nb -> soft js = true -> get_lg nb2 sk (ng + rk js) = dq_d q js /\ get_ug nb2 ng2 sk (ng + rk js) = (- dq_d q (nb + ng + js)%nat)%R.
Proof.
  intros H E. pose proof ng2_eq. pose proof (rk_lt js H E). pose proof nb2_eq. unfold get_lg, get_ug. rewrite sk_d. destruct (st_d_eq (nb + ng) js (le_n _) ltac:(lia) H E) as [A1 A2]. split.
  - rewrite D5_low by lia. unfold D4, D3, D2, D1. rewrite !wr_out by lia. unfold D0. rewrite bt_out_d by lia. replace (nb2 + (ng + rk js)) with (nb2 + ng + rk js) by lia. exact A1.
  - replace (2 * nb2 + ng2 + (ng + rk js)) with (nb2 + ng2 + (nb2 + ng + rk js)) by lia. rewrite D5_up by lia. unfold D4, D3, D2, D1. rewrite !wr_out by lia. unfold D0. rewrite bt_out_d by lia.
    replace (nb2 + ng2 + (nb2 + ng + rk js)) with (2 * nb2 + ng2 + ng + rk js) by lia. rewrite A2. cbn [num nopp real]. lra.
Qed.
Lemma sk_Cg r c : r < nv2 -> c < ng -> dq_C sk r c = if r <? nv then dq_C q r c else if soft (nb + c) then (if r =? nv + ns + sl (nb + c) then -1 else if r =? nv + sl (nb + c) then 1 else 0)%R else 0%R.
Proof. intros H Hc. destruct sk_parts as (-> & _). rewrite st_Cg by lia. destruct (Nat.ltb_spec (nb + c) (nb + ng)); [reflexivity|lia]. Qed.
Lemma sk_Cb r js : r < nv2 -> js < nb -> soft js = true -> dq_C sk r (ng + rk js) = (if r =? nv + ns + sl js then -1 else if r =? nv + sl js then 1 else if r =? dq_idxb q js then 1 else 0)%R.
Proof. intros H Hc E. destruct sk_parts as (-> & _). apply st_Cb; try assumption; lia. Qed.
Theorem asserts_hold : stack_asserts d q o = true.
Proof.
  unfold stack_asserts. apply Nat.ltb_lt in Hns as E. rewrite E. unfold stk_nv at 1, stk_nb at 1, stk_ng at 1. rewrite E, !Nat.eqb_refl. cbn [andb]. rewrite bt_bounds, bt_k by lia. rewrite nhb_eq. apply Nat.eqb_refl.
Qed.
End S.
