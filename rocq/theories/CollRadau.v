(** The Radau IIA table: every entry is within 1e-15 of a node of the rule of order 2 s - 1. *)
From Coq Require Import ZArith List Bool Lia Reals Lra Psatz.
From Coquelicot Require Import Coquelicot.
From Verif Require Import Arith Vec LinModel LinProofs LinSolve PadeModel RSum PadeProofs PadeTop Poly CollModel CollProofs CollTop.
Import ListNotations.
Open Scope R_scope.

(** coefficients of d^(s-1)/dx^(s-1) (x^(s-1) (x-1)^s) / (s-1)! *)
Fixpoint binom (n k : nat) : Z := match n, k with _, O => 1 | O, S _ => 0 | S n', S k' => binom n' k' + binom n' k end%Z.
Definition rcoef (s k : nat) : Z := ((if Nat.even (s - k) then 1 else -1) * binom s k * binom (s - 1 + k) k)%Z.
(** homogeneous evaluation: hz n D x = D^n p (x / D) *)
Definition hz (s n : nat) (D x : Z) : Z := fold_right Z.add 0%Z (map (fun k => rcoef s k * x ^ Z.of_nat k * D ^ Z.of_nat (n - k))%Z (seq 0 (S n))).
Definition U : Z := (10 ^ 20)%Z.
Definition tab (s i : nat) : Z := nth i (radau_table s) 0%Z.
Definition del : Z := 100000%Z.
Definition L18 : Z := 12252240%Z.
Definition radau_ok (s : nat) : bool :=
  forallb (fun i => (hz s s U (tab s i - del) * hz s s U (tab s i + del) <=? 0)%Z && (tab s i + del <? tab s (S i) - del)%Z) (seq 0 (s - 1)) &&
  (tab s (s - 1) =? U)%Z && (hz s s U U =? 0)%Z && (del <? tab s 0)%Z && negb (rcoef s s =? 0)%Z &&
  forallb (fun m => (fold_right Z.add 0 (map (fun k => rcoef s k * (L18 / Z.of_nat (k + m + 1))) (seq 0 (S s))) =? 0)%Z &&
    forallb (fun k => (L18 mod Z.of_nat (k + m + 1) =? 0)%Z) (seq 0 (S s))) (seq 0 (s - 1)).
Lemma radau_table_ok : forallb radau_ok (seq 1 9) = true.
Proof. vm_compute. reflexivity. Qed.

Lemma fold_sum (f : nat -> Z) n : IZR (fold_right Z.add 0%Z (map f (seq 0 n))) = sum n (fun k => IZR (f k)).
Proof.
  assert (G : forall n a, IZR (fold_right Z.add 0%Z (map f (seq a n))) = sum n (fun k => IZR (f (a + k)%nat))).
  { clear n. induction n as [|n IH]; intros a; [reflexivity|]. cbn [seq map fold_right]. rewrite plus_IZR, IH. change (S n) with (1 + n)%nat. rewrite sum_split.
    cbn [sum]. rewrite Nat.add_0_r, Rplus_0_l. f_equal. apply sum_ext. intros k _. f_equal. f_equal. lia. }
  apply G.
Qed.
Definition ra (s k : nat) : R := IZR (rcoef s k).
Lemma U_pos : 0 < IZR U.
Proof. apply IZR_lt. reflexivity. Qed.
Lemma hz_poly s x : IZR (hz s s U x) = IZR U ^ s * poly s (ra s) (IZR x / IZR U).
Proof.
  unfold hz. rewrite fold_sum. unfold poly. rewrite <- sum_scal. apply sum_ext. intros k Hk. unfold ra. rewrite !mult_IZR, <- !pow_IZR.
  unfold Rdiv. rewrite Rpow_mult_distr, pow_inv. replace (IZR U ^ s) with (IZR U ^ (s - k) * IZR U ^ k) by (rewrite <- pow_add; f_equal; lia). pose proof U_pos. field. apply pow_nonzero. lra.
Qed.
Lemma poly_cont n a : continuity (poly n a).
Proof.
  induction n as [|n IH].
  - intros x. apply continuity_pt_ext with (fun _ => a 0%nat); [intros t; unfold poly; cbn; lra|]. apply continuity_const. intros ? ?; reflexivity.
  - intros x. apply continuity_pt_ext with (fun t => poly n a t + a (S n) * t ^ S n); [intros t; reflexivity|].
    apply continuity_pt_plus; [apply IH|]. apply continuity_pt_mult; [apply continuity_const; intros ? ?; reflexivity|]. apply derivable_continuous_pt, derivable_pt_pow.
Qed.
Lemma radau_root s i : (1 <= s)%nat -> radau_ok s = true -> (i < s)%nat -> exists z, poly s (ra s) z = 0 /\
  IZR (tab s i - (if (S i =? s)%nat then 0 else del)) / IZR U <= z <= IZR (tab s i + (if (S i =? s)%nat then 0 else del)) / IZR U.
Proof.
  intros Hs Ok Hi. unfold radau_ok in Ok. rewrite !andb_true_iff in Ok. destruct Ok as [[[[[O1 O2] O3] O4] O5] O6].
  pose proof U_pos as UP. assert (UP' : 0 < IZR U ^ s) by (apply pow_lt; lra).
  destruct (Nat.eqb_spec (S i) s) as [E|N].
  - exists 1. apply Z.eqb_eq in O2, O3. split.
    + pose proof (hz_poly s U) as H. rewrite O3 in H. replace (IZR U / IZR U) with 1 in H by (field; lra). symmetry in H. apply Rmult_integral in H.
      destruct H as [H|H]; [lra|exact H].
    + replace i with (s - 1)%nat by lia. rewrite O2, Z.sub_0_r, Z.add_0_r. replace (IZR U / IZR U) with 1 by (field; lra). lra.
  - rewrite forallb_forall in O1. specialize (O1 i ltac:(apply in_seq; lia)). apply andb_true_iff in O1. destruct O1 as [O1 _]. apply Z.leb_le in O1.
    apply IZR_le in O1. rewrite mult_IZR, !hz_poly in O1. set (a := IZR (tab s i - del) / IZR U) in *. set (b := IZR (tab s i + del) / IZR U) in *.
    assert (AB : a <= b). { unfold a, b. apply Rmult_le_compat_r; [apply Rlt_le, Rinv_0_lt_compat, UP|]. apply IZR_le. unfold del. lia. }
    assert (Sg : poly s (ra s) a * poly s (ra s) b <= 0).
    { assert (0 < IZR U ^ s * IZR U ^ s) by (apply Rmult_lt_0_compat; lra).
      replace (IZR U ^ s * poly s (ra s) a * (IZR U ^ s * poly s (ra s) b)) with ((IZR U ^ s * IZR U ^ s) * (poly s (ra s) a * poly s (ra s) b)) in O1 by ring.
      generalize dependent (poly s (ra s) a * poly s (ra s) b). generalize dependent (IZR U ^ s * IZR U ^ s). intros. nra. }
    destruct (IVT_cor (poly s (ra s)) a b (poly_cont s (ra s)) AB Sg) as (z & Hz & Z). exists z. split; assumption.
Qed.
Lemma radau_nodes s : (1 <= s)%nat -> radau_ok s = true -> exists c : vecR, (forall i, (i < s)%nat -> poly s (ra s) (c i) = 0) /\
  (forall i, (i < s)%nat -> IZR (tab s i - (if (S i =? s)%nat then 0 else del)) / IZR U <= c i <= IZR (tab s i + (if (S i =? s)%nat then 0 else del)) / IZR U).
Proof.
  intros Hs Ok. assert (F : forall m, (m <= s)%nat -> exists c : vecR, (forall i, (i < m)%nat -> poly s (ra s) (c i) = 0) /\
    (forall i, (i < m)%nat -> IZR (tab s i - (if (S i =? s)%nat then 0 else del)) / IZR U <= c i <= IZR (tab s i + (if (S i =? s)%nat then 0 else del)) / IZR U)).
  { induction m as [|m IH]; intros Hm; [exists (fun _ => 0); split; intros; lia|].
    destruct (IH ltac:(lia)) as (c & C1 & C2). destruct (radau_root s m Hs Ok ltac:(lia)) as (z & Z1 & Z2).
    exists (fun i => if (i =? m)%nat then z else c i). split; intros i Hi; destruct (Nat.eqb_spec i m) as [->|N]; [exact Z1|apply C1; lia|exact Z2|apply C2; lia]. }
  apply F. lia.
Qed.
Lemma increasing s (c : vecR) : (forall i, (S i < s)%nat -> c i < c (S i)) -> forall i j, (i < j < s)%nat -> c i < c j.
Proof.
  intros H i j [Hij Hj]. induction Hij as [|j Hij IH]; [apply H; lia|]. apply Rlt_trans with (c j); [apply IH; lia|apply H; lia].
Qed.
Lemma inc_distinct s c : (forall i j, (i < j < s)%nat -> c i < c j) -> distinct s c.
Proof. intros H i j Hij E. specialize (H i j Hij). lra. Qed.
(** orthogonality raises the order *)
Lemma radau_moment s (c : vecR) : radau_ok s = true -> distinct s c -> (forall i, (i < s)%nat -> poly s (ra s) (c i) = 0) ->
  forall m, (m + 1 < 2 * s)%nat -> sum s (fun i => bt_b (A := real) s c i * c i ^ m) = 1 / INR (m + 1).
Proof.
  intros Ok D Z. unfold radau_ok in Ok. rewrite !andb_true_iff in Ok. destruct Ok as [[[[[O1 O2] O3] O4] O5] O6].
  assert (Rs : ra s s <> 0) by (unfold ra; intros E; apply (eq_IZR _ 0) in E; rewrite E in O5; discriminate O5).
  induction m as [m IH] using lt_wf_ind. intros Hm. destruct (Nat.lt_ge_cases m s) as [L|L]; [apply moment_B; assumption|].
  set (q := (m - s)%nat). assert (Q : (q < s - 1)%nat) by (unfold q; lia).
  rewrite forallb_forall in O6. specialize (O6 q ltac:(apply in_seq; lia)). apply andb_true_iff in O6. destruct O6 as [O6 O7].
  apply Z.eqb_eq, (f_equal IZR) in O6. rewrite fold_sum in O6. rewrite forallb_forall in O7.
  assert (Ort : sum (S s) (fun k => ra s k * (1 / INR (k + q + 1))) = 0).
  { apply Rmult_eq_reg_l with (IZR L18); [|apply not_0_IZR; unfold L18; lia]. rewrite Rmult_0_r, <- O6, <- sum_scal. apply sum_ext. intros k Hk.
    specialize (O7 k ltac:(apply in_seq; lia)). apply Z.eqb_eq in O7. rewrite mult_IZR. fold (ra s k).
    assert (P : (0 < Z.of_nat (k + q + 1))%Z) by lia. pose proof (Z_div_mod_eq_full L18 (Z.of_nat (k + q + 1))) as DM. rewrite O7, Z.add_0_r in DM.
    rewrite DM at 1. rewrite mult_IZR, <- INR_IZR_INZ. field. apply not_0_INR. lia. }
  assert (W : sum s (fun i => bt_b (A := real) s c i * (c i ^ q * poly s (ra s) (c i))) = 0) by (apply sum_zero; intros i Hi; rewrite Z by exact Hi; rlra).
  assert (W' : sum (S s) (fun k => ra s k * sum s (fun i => bt_b (A := real) s c i * c i ^ (k + q))) = 0).
  { rewrite <- W. rewrite (sum_ext (S s) _ (fun k => sum s (fun i => ra s k * (bt_b (A := real) s c i * c i ^ (k + q))))) by (intros k _; rewrite <- sum_scal; reflexivity).
    rewrite sum_swap. apply sum_ext. intros i _. unfold poly. rewrite <- sum_scal, <- sum_scal. apply sum_ext. intros k _. rewrite pow_add. ring. }
  change (sum s (fun k => ra s k * sum s (fun i => bt_b (A := real) s c i * c i ^ (k + q))) + ra s s * sum s (fun i => bt_b (A := real) s c i * c i ^ (s + q)) = 0) in W'.
  change (sum s (fun k => ra s k * (1 / INR (k + q + 1))) + ra s s * (1 / INR (s + q + 1)) = 0) in Ort.
  rewrite (sum_ext s _ (fun k => ra s k * (1 / INR (k + q + 1)))) in W' by (intros k Hk; rewrite IH by lia; reflexivity).
  replace (s + q)%nat with m in * by (unfold q; lia). apply Rmult_eq_reg_l with (ra s s); [|exact Rs]. lra.
Qed.
Lemma eps_unit : 100000 * / IZR U = 1 / 10 ^ 15.
Proof.
  assert (E : IZR U = 10 ^ 15 * 100000). { change U with (10 ^ Z.of_nat 20)%Z. rewrite <- pow_IZR. change 20%nat with (15 + 5)%nat. rewrite pow_add. f_equal. ring. }
  rewrite E. field.
Qed.
Lemma radau_quadrature s : (1 <= s <= 9)%nat -> exists c : vecR,
  (forall i, (i < s)%nat -> Rabs (radau_node (A := real) s i - c i) <= 1 / 10 ^ 15) /\
  (forall i j, (i < j < s)%nat -> c i < c j) /\ 0 < c 0%nat /\ c (s - 1)%nat = 1 /\
  forall a, is_RInt (poly (2 * s - 2) a) 0 1 (sum s (fun i => bt_b (A := real) s c i * poly (2 * s - 2) a (c i))).
Proof.
  intros Hs. assert (Ok : radau_ok s = true). { pose proof radau_table_ok as T. rewrite forallb_forall in T. apply T, in_seq. lia. }
  destruct (radau_nodes s ltac:(lia) Ok) as (c & C1 & C2). exists c. pose proof U_pos as UP. pose proof Ok as Ok'.
  unfold radau_ok in Ok'. rewrite !andb_true_iff in Ok'. destruct Ok' as [[[[[O1 O2] O3] O4] O5] O6]. rewrite forallb_forall in O1.
  assert (IU : 0 < / IZR U) by (apply Rinv_0_lt_compat, UP).
  assert (Inc : forall i j, (i < j < s)%nat -> c i < c j).
  { apply increasing. intros i Hi. pose proof (C2 i ltac:(lia)) as Ci. pose proof (C2 (S i) ltac:(lia)) as Cj. specialize (O1 i ltac:(apply in_seq; lia)).
    apply andb_true_iff in O1. destruct O1 as [_ O1]. apply Z.ltb_lt in O1. destruct (Nat.eqb_spec (S i) s); [lia|].
    apply Rle_lt_trans with (IZR (tab s i + del) / IZR U); [apply Ci|]. apply Rlt_le_trans with (IZR (tab s (S i) - del) / IZR U).
    - apply Rmult_lt_compat_r; [exact IU|]. apply IZR_lt, O1.
    - eapply Rle_trans; [|apply Cj]. apply Rmult_le_compat_r; [lra|]. apply IZR_le. destruct (S (S i) =? s)%nat; unfold del; lia. }
  assert (Near : forall i, (i < s)%nat -> Rabs (radau_node (A := real) s i - c i) <= 1 / 10 ^ 15).
  { intros i Hi. specialize (C2 i Hi). change (radau_node (A := real) s i) with (IZR (tab s i) / IZR U).
    set (e := if (S i =? s)%nat then 0%Z else del) in *. assert (He : 0 <= IZR e <= 100000) by (unfold e, del; destruct (S i =? s)%nat; lra).
    rewrite minus_IZR, plus_IZR in C2. unfold Rdiv in C2. rewrite Rmult_minus_distr_r, Rmult_plus_distr_r in C2.
    assert (Eu : 100000 * / IZR U = 1 / 10 ^ 15) by apply eps_unit.
    assert (IZR e * / IZR U <= 100000 * / IZR U) by (apply Rmult_le_compat_r; lra). unfold Rdiv at 1. apply Rabs_le. lra. }
  split; [exact Near|]. split; [exact Inc|]. split; [|split].
  - apply Z.ltb_lt, IZR_lt in O4. eapply Rlt_le_trans; [|apply (C2 0%nat); lia]. apply Rmult_lt_0_compat; [|exact IU]. destruct (1 =? s)%nat; rewrite minus_IZR.
    + unfold del in O4. lra.
    + lra.
  - specialize (C2 (s - 1)%nat ltac:(lia)). replace (S (s - 1) =? s)%nat with true in C2 by (symmetry; apply Nat.eqb_eq; lia).
    apply Z.eqb_eq in O2. rewrite O2, Z.sub_0_r, Z.add_0_r in C2. replace (IZR U / IZR U) with 1 in C2 by (field; lra). lra.
  - intros a. set (n := (2 * s - 2)%nat).
    replace (sum s (fun i => bt_b (A := real) s c i * poly n a (c i))) with (sum (S n) (fun m => a m * (1 ^ (m + 1) / INR (m + 1)))); [apply int_poly|].
    rewrite (sum_ext s (fun i => bt_b (A := real) s c i * poly n a (c i)) (fun i => sum (S n) (fun m => a m * (bt_b (A := real) s c i * c i ^ m)))).
    2:{ intros i _. unfold poly. rewrite <- sum_scal. apply sum_ext. intros; rlra. }
    rewrite sum_swap. apply sum_ext. intros m Hm. rewrite sum_scal, (radau_moment s c Ok (inc_distinct s c Inc) C1 m) by (unfold n in Hm; lia). rewrite pow1. reflexivity.
Qed.
(** the table itself is increasing, so B(s) and C(s) hold for the tableau the code computes from it *)
Lemma radau_distinct s : (1 <= s <= 9)%nat -> forall i j, (i < j < s)%nat -> radau_node (A := real) s i < radau_node (A := real) s j.
Proof.
  intros Hs. assert (Ok : radau_ok s = true). { pose proof radau_table_ok as T. rewrite forallb_forall in T. apply T, in_seq. lia. }
  unfold radau_ok in Ok. rewrite !andb_true_iff in Ok. destruct Ok as [[[[[O1 O2] O3] O4] O5] O6]. rewrite forallb_forall in O1.
  apply (increasing s (radau_node (A := real) s)). intros i Hi. specialize (O1 i ltac:(apply in_seq; lia)). apply andb_true_iff in O1. destruct O1 as [_ O1]. apply Z.ltb_lt in O1.
  change (IZR (tab s i) / IZR U < IZR (tab s (S i)) / IZR U). apply Rmult_lt_compat_r; [apply Rinv_0_lt_compat, U_pos|]. apply IZR_lt. unfold del in O1. lia.
Qed.
