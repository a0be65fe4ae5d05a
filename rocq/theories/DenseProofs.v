(** Counting, scattered writes, and the constraint slacks of a dense QP. *)
From Coq Require Import ZArith List Bool Lia Reals Lra Arith.
From Verif Require Import Arith Vec LinModel RSum DenseModel QpoModel DenseSpec.
Open Scope nat_scope.

(** * Number of indices below [n] with a property *)
Fixpoint cnt (p : nat -> bool) (n : nat) : nat := match n with O => 0 | S m => if p m then S (cnt p m) else cnt p m end.
Lemma cnt_le p n : cnt p n <= n.
Proof. induction n as [|n IH]; cbn; [lia|]. destruct (p n); lia. Qed.
Lemma cnt_mono p n m : n <= m -> cnt p n <= cnt p m.
Proof. induction 1 as [|m H IH]; [lia|]. cbn. destruct (p m); lia. Qed.
Lemma cnt_lt p i n : i < n -> p i = true -> cnt p i < cnt p n.
Proof. intros H Hp. pose proof (cnt_mono p (S i) n H) as M. cbn in M. rewrite Hp in M. lia. Qed.
Lemma cnt_inj p i j : p i = true -> p j = true -> cnt p i = cnt p j -> i = j.
Proof.
  intros Hi Hj E. destruct (Nat.lt_trichotomy i j) as [L|[L|L]]; [|exact L|].
  - pose proof (cnt_lt p i j L Hi). lia.
  - pose proof (cnt_lt p j i L Hj). lia.
Qed.
Lemma cnt_surj p n k : k < cnt p n -> exists i, i < n /\ p i = true /\ cnt p i = k.
Proof.
  induction n as [|n IH]; cbn; [lia|]. destruct (p n) eqn:E; intros H.
  - destruct (Nat.eq_dec k (cnt p n)) as [->|N]; [exists n; auto|]. destruct (IH ltac:(lia)) as (i & A & B & C). exists i. auto.
  - destruct (IH H) as (i & A & B & C). exists i. auto.
Qed.
Lemma cnt_compl p n : cnt p n + cnt (fun i => negb (p i)) n = n.
Proof. induction n as [|n IH]; cbn; [reflexivity|]. destruct (p n); cbn; lia. Qed.
Lemma cnt_ext p q n : (forall i, i < n -> p i = q i) -> cnt p n = cnt q n.
Proof. induction n as [|n IH]; intros H; cbn; [reflexivity|]. rewrite (H n) by lia. rewrite IH by (intros; apply H; lia). reflexivity. Qed.
Lemma cnt_zero p n m : n <= m -> (forall i, n <= i -> i < m -> p i = false) -> cnt p m = cnt p n.
Proof.
  induction 1 as [|m H IH]; intros Z; [reflexivity|]. cbn. rewrite (Z m) by lia. apply IH. intros; apply Z; lia.
Qed.

(** * Writes *)
Lemma vset_eq (v : nat -> R) i a : vset (A := real) v i a i = a.
Proof. unfold vset. rewrite Nat.eqb_refl. reflexivity. Qed.
Lemma vset_ne (v : nat -> R) i a j : j <> i -> vset (A := real) v i a j = v j.
Proof. unfold vset. intros H. apply Nat.eqb_neq in H. rewrite H. reflexivity. Qed.
Lemma iset_eq v i a : iset v i a i = a.
Proof. unfold iset. rewrite Nat.eqb_refl. reflexivity. Qed.
Lemma iset_ne v i a j : j <> i -> iset v i a j = v j.
Proof. unfold iset. intros H. apply Nat.eqb_neq in H. rewrite H. reflexivity. Qed.
Lemma wr_in (off n : nat) (f x : nat -> R) k : off <= k -> k < off + n -> wr (A := real) off n f x k = f (k - off).
Proof. unfold wr. intros H1 H2. apply Nat.leb_le in H1. apply Nat.ltb_lt in H2. rewrite H1, H2. reflexivity. Qed.
Lemma wr_at (off n : nat) (f x : nat -> R) k : k < n -> wr (A := real) off n f x (off + k) = f k.
Proof. intros H. rewrite wr_in by lia. f_equal. lia. Qed.
Lemma wr_out (off n : nat) (f x : nat -> R) k : k < off \/ off + n <= k -> wr (A := real) off n f x k = x k.
Proof.
  unfold wr. intros H. destruct (off <=? k) eqn:E1; [|reflexivity]. destruct (k <? off + n) eqn:E2; [|reflexivity].
  apply Nat.leb_le in E1. apply Nat.ltb_lt in E2. lia.
Qed.
Lemma loop_S {X} n (f : nat -> X -> X) s : loop (S n) f s = f n (loop n f s).
Proof. reflexivity. Qed.

(** scattering with distinct indices *)
Lemma scatter_none n idx (b x : nat -> R) r : (forall i, i < n -> idx i <> r) -> scatter (A := real) n idx b x r = x r.
Proof.
  unfold scatter. induction n as [|n IH]; intros H; [reflexivity|]. rewrite loop_S. rewrite vset_ne by (intros E; apply (H n); [lia|symmetry; exact E]).
  apply IH. intros i Hi. apply H. lia.
Qed.
Lemma scatter_at n idx (b x : nat -> R) i : i < n -> (forall j, j < n -> idx j = idx i -> j = i) -> scatter (A := real) n idx b x (idx i) = b i.
Proof.
  unfold scatter. induction n as [|n IH]; intros Hi Hinj; [lia|]. rewrite loop_S. destruct (Nat.eq_dec i n) as [->|N].
  - rewrite vset_eq. reflexivity.
  - rewrite vset_ne by (intros E; apply N; symmetry; apply Hinj; [lia|symmetry; exact E]). apply IH; [lia|]. intros j Hj. apply Hinj. lia.
Qed.

(** * dense_qp_compute_t computes the slack of every inequality *)
Open Scope R_scope.
Section T.
Variable d : ddims.
Variable q : rdqp.
Hypothesis Hb : own_bounds d q.
Hypothesis Hr : forall k, (k < drows d)%nat -> dq_rev q k = (-1)%Z \/ (0 <= dq_rev q k)%Z.
Lemma mvt_sum n (C : matR) (v : vecR) j : mvt (A := real) n C v j = sum n (fun r => C r j * v r).
Proof. unfold mvt. rewrite vsum_sum. reflexivity. Qed.
Lemma dlin_bound v k : (k < dnb d)%nat -> dlin d q v k = v (dq_idxb q k).
Proof.
  intros Hk. unfold dlin. rewrite (sum_one _ (dq_idxb q k)).
  - unfold dcoef. apply Nat.ltb_lt in Hk. rewrite Hk, Nat.eqb_refl. lra.
  - apply Hb, Hk.
  - intros r _ N. unfold dcoef. apply Nat.ltb_lt in Hk. rewrite Hk. destruct (dq_idxb q k =? r)%nat eqn:E; [apply Nat.eqb_eq in E; congruence|lra].
Qed.
Lemma dlin_gen v j : dlin d q v (dnb d + j) = sum (dnv d) (fun r => dq_C q r j * v r).
Proof.
  unfold dlin. apply sum_ext. intros r _. unfold dcoef. destruct (dnb d + j <? dnb d)%nat eqn:E; [apply Nat.ltb_lt in E; lia|].
  replace (dnb d + j - dnb d)%nat with j by lia. reflexivity.
Qed.
Let stepT (v : vecR) := fun ii (t : vecR) => if hard q ii then t else
    let idx := Z.to_nat (dq_rev q ii) in
    let t := vset (A := real) t ii (t ii + v (dnv d + idx)%nat) in
    vset (A := real) t (dnb d + dng d + ii) (t (dnb d + dng d + ii)%nat + v (dnv d + dns d + idx)%nat).
Lemma stepT_loop v t n : (n <= drows d)%nat -> forall k,
  ((k < n)%nat -> loop n (stepT v) t k = t k + dslack d q v k false /\ loop n (stepT v) t (drows d + k)%nat = t (drows d + k)%nat + dslack d q v k true) /\
  ((n <= k < drows d)%nat -> loop n (stepT v) t k = t k /\ loop n (stepT v) t (drows d + k)%nat = t (drows d + k)%nat).
Proof.
  induction n as [|n IH]; intros Hn k.
  - split; [lia|]. intros _. split; reflexivity.
  - rewrite loop_S. specialize (IH ltac:(lia)). set (u := loop n (stepT v) t) in *.
    assert (E1 : hard q n = true -> dslack d q v n false = 0 /\ dslack d q v n true = 0).
    { unfold hard, dslack. intros E. apply Z.eqb_eq in E. rewrite E. cbn. auto. }
    assert (E2 : hard q n = false -> dslack d q v n false = v (dnv d + Z.to_nat (dq_rev q n))%nat /\ dslack d q v n true = v (dnv d + dns d + Z.to_nat (dq_rev q n))%nat).
    { unfold hard, dslack. intros E. apply Z.eqb_neq in E. destruct (Hr n ltac:(lia)) as [E0|E0]; [lia|]. apply Z.leb_le in E0. rewrite E0. split; f_equal; lia. }
    unfold stepT at 1 2 3 4. fold (stepT v).
    destruct (hard q n) eqn:Eh.
    + destruct (E1 eq_refl) as [A1 A2]. split; intros H.
      * destruct (Nat.eq_dec k n) as [->|N]; [|apply IH; lia]. destruct (IH n) as [_ I2]. destruct (I2 ltac:(lia)) as [-> ->]. rewrite A1, A2. split; lra.
      * apply IH. lia.
    + destruct (E2 eq_refl) as [A1 A2]. destruct (IH n) as [_ I2]. destruct (I2 ltac:(lia)) as [J1 J2]. unfold drows in *. split; intros H.
      * destruct (Nat.eq_dec k n) as [->|N].
        -- rewrite A1, A2. split.
           ++ rewrite vset_ne, vset_eq by lia. rewrite J1. reflexivity.
           ++ rewrite vset_eq, vset_ne by lia. rewrite J2. reflexivity.
        -- destruct (IH k) as [I1 _]. destruct (I1 ltac:(lia)) as [K1 K2]. split; rewrite !vset_ne by lia; assumption.
      * destruct (IH k) as [_ I3]. destruct (I3 ltac:(lia)) as [K1 K2]. split; rewrite !vset_ne by lia; assumption.
Qed.
Lemma stepT_out v t n k : (n <= drows d)%nat -> (2 * drows d <= k)%nat -> loop n (stepT v) t k = t k.
Proof.
  induction n as [|n IH]; intros Hn Hk; [reflexivity|]. rewrite loop_S. unfold stepT at 1. destruct (hard q n); [apply IH; lia|].
  unfold drows in *. rewrite !vset_ne by lia. apply IH; lia.
Qed.
Theorem compute_t_ineq v t m : (m < dall d)%nat -> compute_t d q v t m = dineq d q v m.
Proof.
  intros Hm. unfold compute_t. cbn [num nadd nsub nopp real].
  match goal with |- context [loop (dnb d + dng d) _ ?x] => set (t0 := x) end.
  change (loop (dnb d + dng d) _ t0) with (loop (drows d) (stepT v) t0).
  assert (B : forall k, (k < drows d)%nat -> t0 k = dlin d q v k - dq_d q k /\ t0 (drows d + k)%nat = - dlin d q v k - dq_d q (drows d + k)%nat).
  { intros k Hk. unfold t0, drows in *. destruct (Nat.ltb_spec k (dnb d)) as [L|L].
    - rewrite dlin_bound by exact L. split.
      + rewrite !wr_out by lia. rewrite wr_in by lia. replace (k - 0)%nat with k by lia. rewrite wr_at by lia. lra.
      + rewrite !(wr_out (2 * dnb d + dng d)), !(wr_out (dnb d)) by lia. rewrite wr_at by lia. rewrite (wr_out 0), wr_at by lia. lra.
    - assert (DL : dlin d q v k = sum (dnv d) (fun r => dq_C q r (k - dnb d)%nat * v r)) by (rewrite <- dlin_gen; f_equal; lia). rewrite DL. split.
      + rewrite (wr_out (2 * dnb d + dng d)) by lia. rewrite wr_in by lia. rewrite mvt_sum. replace (dnb d + (k - dnb d))%nat with k by lia. lra.
      + replace (dnb d + dng d + k)%nat with (2 * dnb d + dng d + (k - dnb d))%nat by lia. rewrite wr_at by lia. rewrite mvt_sum. lra. }
  unfold dineq, dall, drows in *. destruct (Nat.ltb_spec m (dnb d + dng d)) as [L|L]; [|destruct (Nat.ltb_spec m (2 * (dnb d + dng d))) as [L2|L2]].
  - rewrite !wr_out by lia. destruct (stepT_loop v t0 _ (le_n _) m) as [S _]. destruct (S L) as [E _]. unfold drows in E. rewrite E. rewrite (proj1 (B m L)). lra.
  - rewrite !wr_out by lia. destruct (stepT_loop v t0 _ (le_n _) (m - (dnb d + dng d))%nat) as [S _]. destruct (S ltac:(unfold drows; lia)) as [_ E]. unfold drows in E.
    pose proof (proj2 (B (m - (dnb d + dng d))%nat ltac:(lia))) as B2. replace (dnb d + dng d + (m - (dnb d + dng d)))%nat with m in E, B2 by lia. rewrite E, B2. lra.
  - rewrite wr_in by lia. replace (2 * dnb d + 2 * dng d + (m - (2 * dnb d + 2 * dng d)))%nat with m by lia.
    rewrite wr_in by lia. replace (m - (2 * dnb d + 2 * dng d))%nat with (m - 2 * (dnb d + dng d))%nat by lia. lra.
Qed.
End T.
