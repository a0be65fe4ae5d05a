(** Gauss-Legendre nodes: fixed points of the code's iteration give order 2 s; the iteration is only
    linearly convergent. *)
From Coq Require Import ZArith List Bool Lia Reals Lra Psatz.
From Coquelicot Require Import Coquelicot.
From Verif Require Import Arith Vec LinModel LinProofs LinSolve PadeModel RSum PadeProofs PadeTop Poly CollModel CollProofs CollTop.
Import ListNotations.
Open Scope R_scope.

(** Legendre polynomials over R *)
Fixpoint leg (k : nat) (y : R) : R :=
  match k with
  | O => 1
  | S k1 => match k1 with O => y | S k2 => (INR (2 * k - 1) * y * leg k1 y - INR (k - 1) * leg k2 y) / INR k end
  end.
Lemma leg_SS n y : leg (S (S n)) y = (INR (2 * S (S n) - 1) * y * leg (S n) y - INR (S (S n) - 1) * leg n y) / INR (S (S n)).
Proof. reflexivity. Qed.
Lemma legendre_SS (A : arith) n (y : num A) : legendre (A := A) (S (S n)) y = ndiv (nsub (nmul (nmul (of_nat (2 * S (S n) - 1)) y) (legendre (S n) y)) (nmul (of_nat (S (S n) - 1)) (legendre n y))) (of_nat (S (S n))).
Proof. reflexivity. Qed.
Lemma two_step (P : nat -> Prop) : P 0%nat -> P 1%nat -> (forall n, P n -> P (S n) -> P (S (S n))) -> forall n, P n.
Proof. intros H0 H1 H n. enough (P n /\ P (S n)) by tauto. induction n as [|n [A B]]; split; auto. Qed.
Lemma legendre_real n (y : R) : legendre (A := real) n y = leg n y.
Proof.
  revert n. apply two_step; [reflexivity|reflexivity|]. intros n IH IH1. rewrite legendre_SS, leg_SS, IH, IH1, !of_nat_real. reflexivity.
Qed.
(** coefficients *)
Fixpoint pc (n : nat) (k : nat) : R :=
  match n with
  | O => if (k =? 0)%nat then 1 else 0
  | S n1 => match n1 with
            | O => if (k =? 1)%nat then 1 else 0
            | S n2 => (INR (2 * n - 1) * (match k with O => 0 | S k1 => pc n1 k1 end) - INR (n - 1) * pc n2 k) / INR n
            end
  end.
Lemma pc_SS n k : pc (S (S n)) k = (INR (2 * S (S n) - 1) * (match k with O => 0 | S k1 => pc (S n) k1 end) - INR (S (S n) - 1) * pc n k) / INR (S (S n)).
Proof. reflexivity. Qed.
Lemma INR_S_pos n : 0 < INR (S n).
Proof. apply lt_0_INR. lia. Qed.
Lemma pc_high n : forall k, (n < k)%nat -> pc n k = 0.
Proof.
  revert n. apply (two_step (fun n => forall k, (n < k)%nat -> pc n k = 0)).
  - intros k Hk. cbn. destruct (Nat.eqb_spec k 0); [lia|reflexivity].
  - intros k Hk. cbn. destruct (Nat.eqb_spec k 1); [lia|reflexivity].
  - intros n IH IH1 k Hk. rewrite pc_SS. destruct k as [|k]; [lia|]. rewrite IH1, IH by lia. unfold Rdiv. ring.
Qed.
Lemma pc_lead n : 0 < pc n n.
Proof.
  revert n. apply (two_step (fun n => 0 < pc n n)); [cbn; lra|cbn; lra|]. intros n _ IH. rewrite pc_SS, (pc_high n (S (S n))) by lia.
  rewrite Rmult_0_r, Rminus_0_r. apply Rdiv_lt_0_compat; [|apply INR_S_pos]. apply Rmult_lt_0_compat; [apply lt_0_INR; lia|exact IH].
Qed.
(** the functional defined by a moment sequence, applied to x^m P_n *)
Definition J (mu : nat -> R) (n m : nat) : R := sum (S n) (fun k => pc n k * mu (m + k)%nat).
Lemma J_rec mu n m : INR (S (S n)) * J mu (S (S n)) m = INR (2 * S (S n) - 1) * J mu (S n) (S m) - INR (S (S n) - 1) * J mu n m.
Proof.
  unfold J. rewrite <- sum_scal.
  rewrite (sum_ext (S (S (S n))) _ (fun k => INR (2 * S (S n) - 1) * ((match k with O => 0 | S k1 => pc (S n) k1 end) * mu (m + k)%nat) - INR (S (S n) - 1) * (pc n k * mu (m + k)%nat))).
  2:{ intros k _. rewrite pc_SS. field. pose proof (INR_S_pos (S n)). lra. }
  rewrite sum_minus, !sum_scal. f_equal; f_equal.
  - change (S (S (S n))) with (1 + S (S n))%nat. rewrite sum_split. cbn [sum Nat.add]. rewrite !Rmult_0_l, !Rplus_0_l.
    f_equal; [f_equal|]; [apply sum_ext; intros k _; f_equal; f_equal; lia|f_equal; f_equal; lia|f_equal; f_equal; lia].
  - cbn [sum]. rewrite (pc_high n (S n)), (pc_high n (S (S n))) by lia. ring.
Qed.
Lemma J_pow x n m : J (fun k => x ^ k) n m = x ^ m * leg n x.
Proof.
  revert m. revert n. apply (two_step (fun n => forall m, J (fun k => x ^ k) n m = x ^ m * leg n x)).
  - intros m. unfold J. cbn [sum pc Nat.eqb leg]. rewrite Nat.add_0_r. ring.
  - intros m. unfold J. cbn [sum pc Nat.eqb leg]. rewrite Nat.add_0_r, pow_add. ring.
  - intros n IH IH1 m. pose proof (J_rec (fun k => x ^ k) n m) as E. rewrite IH, IH1 in E. rewrite leg_SS. pose proof (INR_S_pos (S n)) as P.
    apply Rmult_eq_reg_l with (INR (S (S n))); [|lra]. rewrite E. cbn [pow]. field. lra.
Qed.
Lemma leg_poly n x : leg n x = poly n (pc n) x.
Proof. pose proof (J_pow x n 0) as E. cbn [pow] in E. rewrite Rmult_1_l in E. rewrite <- E. reflexivity. Qed.
(** moments of the uniform distribution on [-1, 1] *)
Definition Ev (m : nat) : R := if Nat.even m then 1 / INR (m + 1) else 0.
Lemma Ev_S m : Ev (S (S m)) * INR (m + 3) = Ev m * INR (m + 1).
Proof.
  unfold Ev. change (Nat.even (S (S m))) with (Nat.even m). destruct (Nat.even m); [|ring].
  replace (S (S m) + 1)%nat with (m + 3)%nat by lia. field. split; apply not_0_INR; lia.
Qed.
Lemma J_AB n : (forall m, INR (m + n + 3) * J Ev (S (S n)) m = (INR m - INR n) * J Ev n m) /\ (forall m, INR (m + n + 3) * J Ev (S n) (S m) = INR (m + 1) * J Ev n m).
Proof.
  assert (B2A : forall n, (forall m, INR (m + n + 3) * J Ev (S n) (S m) = INR (m + 1) * J Ev n m) -> forall m, INR (m + n + 3) * J Ev (S (S n)) m = (INR m - INR n) * J Ev n m).
  { clear. intros n B m. specialize (B m). pose proof (J_rec Ev n m) as E. apply Rmult_eq_reg_l with (INR (S (S n))); [|apply not_0_INR; lia].
    replace (INR (S (S n)) * (INR (m + n + 3) * J Ev (S (S n)) m)) with (INR (m + n + 3) * (INR (S (S n)) * J Ev (S (S n)) m)) by ring. rewrite E.
    replace (INR (m + n + 3) * (INR (2 * S (S n) - 1) * J Ev (S n) (S m) - INR (S (S n) - 1) * J Ev n m))
      with (INR (2 * S (S n) - 1) * (INR (m + n + 3) * J Ev (S n) (S m)) - INR (m + n + 3) * INR (S (S n) - 1) * J Ev n m) by ring. rewrite B.
    replace (2 * S (S n) - 1)%nat with (2 * n + 3)%nat by lia. replace (S (S n) - 1)%nat with (S n) by lia.
    rewrite !plus_INR, mult_INR, !S_INR. cbn [INR]. ring. }
  revert n. apply (two_step (fun n => (forall m, INR (m + n + 3) * J Ev (S (S n)) m = (INR m - INR n) * J Ev n m) /\ (forall m, INR (m + n + 3) * J Ev (S n) (S m) = INR (m + 1) * J Ev n m))).
  - assert (B : forall m, INR (m + 0 + 3) * J Ev 1 (S m) = INR (m + 1) * J Ev 0 m).
    { intros m. unfold J. cbn [sum pc Nat.eqb]. rewrite !Nat.add_0_r. replace (S m + 1)%nat with (S (S m)) by lia. pose proof (Ev_S m). lra. }
    split; [apply B2A, B|exact B].
  - assert (B : forall m, INR (m + 1 + 3) * J Ev 2 (S m) = INR (m + 1) * J Ev 1 m).
    { intros m. unfold J. cbn [sum pc Nat.eqb]. rewrite !Nat.add_0_r. replace (S m + 1)%nat with (S (S m)) by lia. replace (S m + 2)%nat with (S (S (S m))) by lia.
      pose proof (Ev_S (S m)) as E. replace (m + 1)%nat with (S m) by lia. replace (S m + 3)%nat with (m + 4)%nat in * by lia. replace (S m + 1)%nat with (m + 2)%nat in * by lia.
      replace (2 * 2 - 1)%nat with 3%nat by lia. replace (2 - 1)%nat with 1%nat by lia. rewrite !plus_INR, !S_INR in *. cbn [INR] in *.
      generalize dependent (Ev (S m)). generalize dependent (Ev (S (S (S m)))). intros a b E. nra. }
    split; [apply B2A, B|exact B].
  - intros n [A0 B0] [A1 B1].
    assert (B : forall m, INR (m + S (S n) + 3) * J Ev (S (S (S n))) (S m) = INR (m + 1) * J Ev (S (S n)) m).
    { intros m. specialize (A1 (S m)). specialize (A0 m). specialize (B0 m).
      replace (m + S (S n) + 3)%nat with (S m + S n + 3)%nat by lia. rewrite A1.
      apply Rmult_eq_reg_l with (INR (m + n + 3)); [|apply not_0_INR; lia].
      replace (INR (m + n + 3) * ((INR (S m) - INR (S n)) * J Ev (S n) (S m))) with ((INR (S m) - INR (S n)) * (INR (m + n + 3) * J Ev (S n) (S m))) by ring. rewrite B0.
      replace (INR (m + n + 3) * (INR (m + 1) * J Ev (S (S n)) m)) with (INR (m + 1) * (INR (m + n + 3) * J Ev (S (S n)) m)) by ring. rewrite A0.
      rewrite !S_INR. ring. }
    split; [apply B2A, B|exact B].
Qed.
Lemma J_odd n : forall m, Nat.even (n + m) = false -> J Ev n m = 0.
Proof.
  revert n. apply (two_step (fun n => forall m, Nat.even (n + m) = false -> J Ev n m = 0)).
  - intros m H. unfold J. cbn [sum pc Nat.eqb]. rewrite Nat.add_0_r. unfold Ev. cbn [Nat.add] in H. rewrite H. ring.
  - intros m H. unfold J. cbn [sum pc Nat.eqb]. unfold Ev. replace (m + 1)%nat with (1 + m)%nat by lia. rewrite H. ring.
  - intros n IH _ m H. pose proof (proj1 (J_AB n) m) as A. rewrite (IH m H), Rmult_0_r in A. apply Rmult_integral in A.
    destruct A as [A|A]; [|exact A]. exfalso. revert A. apply not_0_INR. lia.
Qed.
Lemma J_orth n : forall m, (m < n)%nat -> J Ev n m = 0.
Proof.
  revert n. apply (two_step (fun n => forall m, (m < n)%nat -> J Ev n m = 0)).
  - intros; lia.
  - intros m Hm. apply J_odd. replace m with 0%nat by lia. reflexivity.
  - intros n IH _ m Hm. pose proof (proj1 (J_AB n) m) as A.
    assert (Z : (INR m - INR n) * J Ev n m = 0).
    { destruct (Nat.eq_dec m n) as [->|]; [ring|]. destruct (Nat.eq_dec m (S n)) as [->|]; [|rewrite IH by lia; ring].
      rewrite (J_odd n (S n)); [ring|]. replace (n + S n)%nat with (S (2 * n)) by lia. rewrite Nat.even_succ, <- Nat.negb_even, Nat.even_mul. reflexivity. }
    rewrite Z in A. apply Rmult_integral in A. destruct A as [A|A]; [|exact A]. exfalso. revert A. apply not_0_INR. lia.
Qed.
(** affine change of variable *)
Lemma is_poly_affpow u v n : is_poly n (fun x => (u * x + v) ^ n).
Proof.
  induction n as [|n IH]; [exact (is_poly_const 0 1)|]. apply is_poly_ext with (fun x => x * (u * (u * x + v) ^ n) + v * (u * x + v) ^ n); [intros x; cbn [pow]; ring|].
  apply is_poly_add; [apply is_poly_x, is_poly_scal, IH|apply is_poly_up, is_poly_scal, IH].
Qed.
Lemma is_poly_aff u v n a : is_poly n (fun x => poly n a (u * x + v)).
Proof.
  induction n as [|n IH].
  - apply is_poly_ext with (fun _ => a 0%nat); [intros x; unfold poly; cbn; ring|]. apply is_poly_const.
  - apply is_poly_ext with (fun x => poly n a (u * x + v) + a (S n) * (u * x + v) ^ S n); [intros x; reflexivity|].
    apply is_poly_add; [apply is_poly_up, IH|apply is_poly_scal, is_poly_affpow].
Qed.
Lemma int_Ev m : is_RInt (fun t => (2 * t - 1) ^ m) 0 1 (Ev m).
Proof.
  assert (N : INR (m + 1) <> 0) by (apply not_0_INR; lia).
  replace (Ev m) with (minus ((2 * 1 - 1) ^ (m + 1) / (2 * INR (m + 1))) ((2 * 0 - 1) ^ (m + 1) / (2 * INR (m + 1))) : R).
  2:{ unfold minus, plus, opp. cbn [AbelianGroup.plus AbelianGroup.opp]. cbn -[pow INR Nat.add Ev]. replace (2 * 1 - 1) with 1 by ring. replace (2 * 0 - 1) with (-1) by ring. rewrite pow1.
      unfold Ev. rewrite Nat.add_1_r in *. cbn [pow]. destruct (Nat.even m) eqn:Ee.
      - apply Nat.even_spec in Ee. destruct Ee as [k ->]. rewrite pow_1_even. field. exact N.
      - assert (O : Nat.odd m = true) by (rewrite <- Nat.negb_even, Ee; reflexivity). apply Nat.odd_spec in O. destruct O as [k ->]. rewrite Nat.add_1_r in *. rewrite pow_1_odd. field. exact N. }
  apply (is_RInt_derive (fun t => (2 * t - 1) ^ (m + 1) / (2 * INR (m + 1)))).
  - intros t _. auto_derive; [exact I|]. rewrite Nat.add_1_r in *. cbn [Nat.pred]. change (2 * t - 1) with (2 * t + - (1)). field. exact N.
  - intros t _. apply (ex_derive_continuous (fun t => (2 * t - 1) ^ m)). auto_derive. exact I.
Qed.
Lemma int_polyE n d : is_RInt (fun t => poly n d (2 * t - 1)) 0 1 (sum (S n) (fun m => d m * Ev m)).
Proof.
  induction n as [|n IH].
  - apply is_RInt_ext with (fun t => scal (d 0%nat) ((2 * t - 1) ^ 0)); [intros t _; unfold poly; cbn; unfold scal; cbn; unfold mult; cbn; ring|].
    replace (sum 1 (fun m => d m * Ev m)) with (scal (d 0%nat) (Ev 0)) by (cbn [sum]; unfold scal; cbn; unfold mult; cbn; ring).
    apply (is_RInt_scal (V := R_NormedModule)), (int_Ev 0).
  - apply is_RInt_ext with (fun t => plus (poly n d (2 * t - 1)) (scal (d (S n)) ((2 * t - 1) ^ S n))); [intros t _; reflexivity|].
    change (is_RInt (fun t => plus (poly n d (2 * t - 1)) (scal (d (S n)) ((2 * t - 1) ^ S n))) 0 1 (plus (sum (S n) (fun m => d m * Ev m)) (scal (d (S n)) (Ev (S n))))).
    apply (is_RInt_plus (V := R_NormedModule)); [exact IH|]. apply (is_RInt_scal (V := R_NormedModule)), int_Ev.
Qed.
Lemma gl_node_real (y : R) : gl_node (A := real) y = (1 + y) / 2.
Proof. unfold gl_node. change (0 * (1 - y) + rcst 5 (-1) * 1 * (1 + y) = (1 + y) / 2). unfold rcst. change (0 <=? -1)%Z with false. change (10 ^ (- -1))%Z with 10%Z. cbv iota. lra. Qed.
Lemma gauss_moment s (y : vecR) : distinct s y -> (forall i, (i < s)%nat -> leg s (y i) = 0) ->
  let c := fun i => (1 + y i) / 2 in forall m, (m < 2 * s)%nat -> sum s (fun i => bt_b (A := real) s c i * y i ^ m) = Ev m.
Proof.
  intros D Z c. assert (Dc : distinct s c) by (intros i j Hij E; apply (D i j Hij); unfold c in E; lra).
  assert (Y : forall i, y i = 2 * c i - 1) by (intros i; unfold c; lra).
  induction m as [m IH] using lt_wf_ind. intros Hm. destruct (Nat.lt_ge_cases m s) as [L|L].
  - destruct s as [|s]; [lia|]. destruct (is_poly_affpow 2 (-1) m) as [a0 Ha0]. destruct (is_poly_le m s (fun x => (2 * x + -1) ^ m) ltac:(lia) (ex_intro _ a0 Ha0)) as [a Ha].
    pose proof (coll_B s c Dc a) as B. pose proof (int_Ev m) as E. 
    assert (B' : is_RInt (fun t => (2 * t - 1) ^ m) 0 1 (sum (S s) (fun i => bt_b (A := real) (S s) c i * poly s a (c i)))).
    { apply is_RInt_ext with (poly s a); [|exact B]. intros t _. rewrite <- Ha. f_equal. }
    apply (is_RInt_unique (V := R_CompleteNormedModule)) in B'. apply (is_RInt_unique (V := R_CompleteNormedModule)) in E. rewrite B' in E. rewrite <- E. apply sum_ext. intros i _. rewrite <- Ha, Y. f_equal. 
  - set (q := (m - s)%nat). pose proof (J_orth s q ltac:(unfold q; lia)) as Or.
    assert (W : sum (S s) (fun k => pc s k * sum s (fun i => bt_b (A := real) s c i * y i ^ (q + k))) = 0).
    { rewrite (sum_ext (S s) _ (fun k => sum s (fun i => pc s k * (bt_b (A := real) s c i * y i ^ (q + k))))) by (intros k _; rewrite <- sum_scal; reflexivity).
      rewrite sum_swap. apply sum_zero. intros i Hi. pose proof (J_pow (y i) s q) as P. rewrite Z, Rmult_0_r in P by exact Hi. unfold J in P.
      rewrite (sum_ext (S s) _ (fun k => bt_b (A := real) s c i * (pc s k * y i ^ (q + k)))) by (intros; rlra). rewrite sum_scal, P. rlra. }
    unfold J in Or. cbn [sum] in W, Or. rewrite (sum_ext s _ (fun k => pc s k * Ev (q + k))) in W by (intros k Hk; rewrite IH by (unfold q; lia); reflexivity).
    replace (q + s)%nat with m in * by (unfold q; lia). pose proof (pc_lead s). apply Rmult_eq_reg_l with (pc s s); lra.
Qed.
Lemma gauss_order s (y : vecR) : (1 <= s)%nat -> distinct s y -> (forall i, (i < s)%nat -> leg s (y i) = 0) ->
  let c := fun i => gl_node (A := real) (y i) in forall a, is_RInt (poly (2 * s - 1) a) 0 1 (sum s (fun i => bt_b (A := real) s c i * poly (2 * s - 1) a (c i))).
Proof.
  intros Hs D Z c a. set (c' := fun i : nat => (1 + y i) / 2). set (n := (2 * s - 1)%nat).
  assert (Ec : forall i, c i = c' i) by (intros i; apply gl_node_real).
  assert (Rh : forall j i, bt_rhs (A := real) s c j i = bt_rhs (A := real) s c' j i).
  { intros j i. unfold bt_rhs. f_equal. apply FunctionalExtensionality.functional_extensionality. intros k. apply FunctionalExtensionality.functional_extensionality. intros l. rewrite Ec. reflexivity. }
  assert (Bb : forall i, bt_b (A := real) s c i = bt_b (A := real) s c' i).
  { intros i. rewrite !bt_b_real. apply sum_ext. intros j _. rewrite Rh. reflexivity. }
  destruct (is_poly_aff (1 / 2) (1 / 2) n a) as [d Hd].
  assert (Pd : forall x, poly n a x = poly n d (2 * x - 1)) by (intros x; rewrite <- Hd; f_equal; lra).
  apply is_RInt_ext with (fun t => poly n d (2 * t - 1)); [intros t _; symmetry; apply Pd|].
  replace (sum s (fun i => bt_b (A := real) s c i * poly n a (c i))) with (sum (S n) (fun m => d m * Ev m)); [apply int_polyE|].
  rewrite (sum_ext s (fun i => bt_b (A := real) s c i * poly n a (c i)) (fun i => sum (S n) (fun m => d m * (bt_b (A := real) s c' i * y i ^ m)))).
  2:{ intros i _. rewrite Bb, Ec, Pd. replace (2 * c' i - 1) with (y i) by (unfold c'; lra). unfold poly. rewrite <- sum_scal. apply sum_ext. intros; rlra. }
  rewrite sum_swap. apply sum_ext. intros m Hm. rewrite sum_scal. unfold c'. rewrite (gauss_moment s y D Z m) by (unfold n in Hm; lia). reflexivity.
Qed.
(** a stationary iterate is a root *)
Lemma gl_der_real s (y : R) : gl_der (A := real) s y = INR (s + 1) * (leg (s - 1) y - y * leg s y) / (1 - y * y).
Proof. unfold gl_der. rewrite !legendre_real, of_nat_real. reflexivity. Qed.
Lemma gl_fix s (y : R) : gl_der (A := real) s y <> 0 -> gl_step (A := real) s y = y -> leg s y = 0.
Proof.
  intros N E. unfold gl_step in E. rewrite legendre_real in E. change (y - leg s y / gl_der (A := real) s y = y) in E.
  assert (Z : leg s y / gl_der (A := real) s y = 0) by lra. unfold Rdiv in Z. apply Rmult_integral in Z. destruct Z as [Z|Z]; [exact Z|].
  exfalso. revert Z. apply Rinv_neq_0_compat, N.
Qed.
Lemma gl_root s (y : R) : leg s y = 0 -> gl_step (A := real) s y = y.
Proof. intros E. unfold gl_step. rewrite legendre_real, E. change (y - 0 / gl_der (A := real) s y = y). unfold Rdiv. ring. Qed.
(** the derivative *)
Lemma derive_rec (f1 f0 : R -> R) (y d1 d0 c1 c0 c : R) : is_derive f1 y d1 -> is_derive f0 y d0 -> c <> 0 ->
  is_derive (fun y => (c1 * y * f1 y - c0 * f0 y) / c) y ((c1 * (f1 y + y * d1) - c0 * d0) / c).
Proof.
  intros D1 D0 N. assert (X1 : ex_derive f1 y) by (exists d1; exact D1). assert (X0 : ex_derive f0 y) by (exists d0; exact D0).
  apply is_derive_unique in D1. apply is_derive_unique in D0. auto_derive; [repeat split; assumption|]. 
  replace (Derive (fun x => f1 x) y) with d1. replace (Derive (fun x => f0 x) y) with d0. field; exact N.
Qed.
Lemma leg_diff n (y : R) : exists d : R, is_derive (leg n) y d /\ (1 - y * y) * d = INR n * ((match n with O => 0 | S k => leg k y end) - y * leg n y).
Proof.
  assert (G : forall n, (exists d : R, is_derive (leg n) y d /\ (1 - y * y) * d = INR n * ((match n with O => 0 | S k => leg k y end) - y * leg n y)) /\
                        (exists d : R, is_derive (leg (S n)) y d /\ (1 - y * y) * d = INR (S n) * (leg n y - y * leg (S n) y))).
  { clear n. induction n as [|n [(d0 & D0 & E0) (d1 & D1 & E1)]].
    - split.
      + exists 0. split; [apply is_derive_ext with (fun _ => 1); [reflexivity|apply (is_derive_const (V := R_NormedModule))]|]. cbn [INR]. ring.
      + exists 1. split; [apply is_derive_ext with (fun t => t); [reflexivity|apply (is_derive_id (K := R_AbsRing))]|]. cbn [leg INR]. ring.
    - split; [exists d1; split; assumption|].
      exists ((INR (2 * S (S n) - 1) * (leg (S n) y + y * d1) - INR (S (S n) - 1) * d0) / INR (S (S n))). pose proof (INR_S_pos (S n)) as P. split.
      + apply is_derive_ext with (fun y => (INR (2 * S (S n) - 1) * y * leg (S n) y - INR (S (S n) - 1) * leg n y) / INR (S (S n))); [intros t; reflexivity|].
        apply derive_rec; [exact D1|exact D0|lra].
      + rewrite leg_SS. replace (2 * S (S n) - 1)%nat with (2 * n + 3)%nat by lia. replace (S (S n) - 1)%nat with (S n) by lia.
        destruct n as [|n].
        * cbn [leg] in *. cbn [INR Nat.mul Nat.add] in *.
          assert (K : (1 - y * y) * (((1 + 1 + 1) * (y + y * d1) - 1 * d0) / (1 + 1)) = ((1 + 1 + 1) * ((1 - y * y) * y + y * ((1 - y * y) * d1)) - (1 - y * y) * d0) / (1 + 1)) by field.
          rewrite K, E1, E0. field.
        * assert (Lr : leg (S (S n)) y = (INR (2 * S (S n) - 1) * y * leg (S n) y - INR (S (S n) - 1) * leg n y) / INR (S (S n))) by apply leg_SS.
          replace (2 * S (S n) - 1)%nat with (2 * n + 3)%nat in Lr by lia. replace (S (S n) - 1)%nat with (S n) in Lr by lia.
          replace (2 * S n + 3)%nat with (2 * n + 5)%nat in * by lia.
          generalize dependent (leg (S (S n)) y). generalize dependent (leg (S n) y). generalize dependent (leg n y). intros p0 p1 E0 p2 E1 Lr.
          rewrite !plus_INR, !mult_INR, !S_INR in *. cbn [INR] in *. set (N := INR n) in *. assert (NP : 0 <= N) by apply pos_INR.
          assert (P0 : (N + 1) * p0 = (2 * N + 3) * y * p1 - (N + 2) * p2) by (rewrite Lr; field; lra).
          assert (K : (1 - y * y) * ((((2) * N + 5) * (p2 + y * d1) - (N + 2) * d0) / (N + 3)) = ((2 * N + 5) * ((1 - y * y) * p2 + y * ((1 - y * y) * d1)) - (N + 2) * ((1 - y * y) * d0)) / (N + 3)) by (field; lra).
          match goal with |- ?lhs = _ => replace lhs with ((1 - y * y) * ((((2) * N + 5) * (p2 + y * d1) - (N + 2) * d0) / (N + 3))) by (f_equal; field; lra) end.
          rewrite K, E1, E0.
          replace ((N + 1) * (p0 - y * p1)) with ((N + 1) * p0 - (N + 1) * (y * p1)) by ring. rewrite P0. field. lra. }
  destruct n as [|n]; [apply (G 0%nat)|apply (G n)].
Qed.
(** with N2 in place of N1 the iteration contracts like 1/(s+1) instead of quadratically *)
Lemma newton_like (f g : R -> R) (y d d2 : R) : f y = 0 -> is_derive f y d -> is_derive g y d2 -> g y <> 0 -> is_derive (fun t => t - f t / g t) y (1 - d / g y).
Proof.
  intros Z D1 D2 N. assert (X1 : ex_derive f y) by (exists d; exact D1). assert (X0 : ex_derive g y) by (exists d2; exact D2).
  apply is_derive_unique in D1. apply is_derive_unique in D2. auto_derive; [repeat split; assumption|].
  replace (Derive (fun x => f x) y) with d. rewrite Z. field; exact N.
Qed.
Lemma gl_rate s (y : R) : (1 <= s)%nat -> leg s y = 0 -> y * y <> 1 -> leg (s - 1) y <> 0 -> is_derive (gl_step (A := real) s) y (1 / INR (s + 1)).
Proof.
  intros Hs Z Ny Nl. destruct s as [|s]; [lia|]. replace (S s - 1)%nat with s in Nl by lia.
  destruct (leg_diff (S s) y) as (d & D & E). destruct (leg_diff s y) as (d0 & D0 & _). rewrite Z in E.
  assert (P : 0 < INR (S s + 1)) by (apply lt_0_INR; lia). assert (Y : 1 - y * y <> 0) by lra.
  set (g := fun y => INR (S s + 1) * (leg s y - y * leg (S s) y) / (1 - y * y)).
  assert (G : gl_der (A := real) (S s) y = INR (S s + 1) * leg s y / (1 - y * y)) by (rewrite gl_der_real, Z; replace (S s - 1)%nat with s by lia; f_equal; ring).
  assert (Gy : g y = INR (S s + 1) * leg s y / (1 - y * y)) by (unfold g; rewrite Z; f_equal; ring).
  assert (Gn : g y <> 0). { rewrite Gy. unfold Rdiv. apply Rmult_integral_contrapositive. split; [apply Rmult_integral_contrapositive; split; lra|apply Rinv_neq_0_compat, Y]. }
  apply is_derive_ext with (fun t => t - leg (S s) t / g t).
  { intros t. unfold gl_step. rewrite legendre_real, gl_der_real. unfold g. replace (S s - 1)%nat with s by lia. reflexivity. }
  replace (1 / INR (S s + 1)) with (1 - d / g y).
  - assert (Dg : exists d2 : R, is_derive g y d2).
    { assert (X1 : ex_derive (leg (S s)) y) by (exists d; exact D). assert (X0 : ex_derive (leg s) y) by (exists d0; exact D0).
      assert (X : ex_derive g y); [|destruct X as [x X]; exists x; exact X]. unfold g. generalize dependent (leg (S s)). generalize dependent (leg s). intros. auto_derive. repeat split; try assumption. }
    destruct Dg as [d2 Dg]. apply newton_like with d2; assumption.
  - rewrite Gy. replace d with (INR (S s) * leg s y / (1 - y * y)) by (apply Rmult_eq_reg_l with (1 - y * y); [rewrite E; field; exact Y|exact Y]).
    replace (S s + 1)%nat with (S (S s)) in * by lia. rewrite (S_INR (S s)) in *. field. repeat split; lra.
Qed.
Lemma leg_consecutive n (y : R) : leg (S n) y = 0 -> leg n y <> 0.
Proof.
  induction n as [|n IH]; intros E Z; [cbn in Z; lra|]. apply (IH Z). rewrite leg_SS, Z in E. pose proof (INR_S_pos (S n)) as P.
  replace (S (S n) - 1)%nat with (S n) in E by lia. pose proof (INR_S_pos n) as P'.
  assert (E' : INR (S n) * leg n y = 0). { apply Rmult_eq_reg_r with (- / INR (S (S n))); [|apply Ropp_neq_0_compat, Rinv_neq_0_compat; lra]. rewrite Rmult_0_l, <- E. field. lra. }
  apply Rmult_integral in E'. destruct E'; [lra|assumption].
Qed.
Lemma leg_end n (y : R) : y * y = 1 -> leg n y = y ^ n.
Proof.
  intros Y. revert n. apply (two_step (fun n => leg n y = y ^ n)); [reflexivity|cbn; ring|]. intros n A B. rewrite leg_SS, A, B. pose proof (INR_S_pos (S n)) as P.
  replace (INR (2 * S (S n) - 1) * y * y ^ S n) with (INR (2 * S (S n) - 1) * (y * y) * y ^ n) by (cbn [pow]; ring). rewrite Y.
  replace (y ^ S (S n)) with (y * y * y ^ n) by (cbn [pow]; ring). rewrite Y. replace (2 * S (S n) - 1)%nat with (S (S n) + S n)%nat by lia. replace (S (S n) - 1)%nat with (S n) by lia.
  rewrite plus_INR. field. lra.
Qed.
Lemma leg_root_inside n (y : R) : leg n y = 0 -> y * y <> 1.
Proof. intros Z Y. rewrite leg_end in Z by exact Y. apply (pow_nonzero y n); [intros ->; lra|exact Z]. Qed.
Lemma gl_rate_root s (y : R) : (1 <= s)%nat -> leg s y = 0 -> is_derive (gl_step (A := real) s) y (1 / INR (s + 1)).
Proof.
  intros Hs Z. apply gl_rate; [exact Hs|exact Z|exact (leg_root_inside s y Z)|]. apply leg_consecutive. replace (S (s - 1)) with s by lia. exact Z.
Qed.
Lemma gl_all s (y : vecR) : (1 <= s)%nat -> distinct s y -> (forall i, (i < s)%nat -> gl_der (A := real) s (y i) <> 0 /\ gl_step (A := real) s (y i) = y i) ->
  let c := fun i => gl_node (A := real) (y i) in forall a, is_RInt (poly (2 * s - 1) a) 0 1 (sum s (fun i => bt_b (A := real) s c i * poly (2 * s - 1) a (c i))).
Proof. intros Hs D H. apply gauss_order; [exact Hs|exact D|]. intros i Hi. destruct (H i Hi) as [N E]. exact (gl_fix s (y i) N E). Qed.
Lemma gl_der_root s (y : R) : (1 <= s)%nat -> leg s y = 0 -> gl_der (A := real) s y <> 0.
Proof.
  intros Hs Z. rewrite gl_der_real, Z. pose proof (leg_root_inside s y Z) as Y. assert (N : leg (s - 1) y <> 0) by (apply leg_consecutive; replace (S (s - 1)) with s by lia; exact Z).
  assert (P : INR (s + 1) <> 0) by (apply not_0_INR; lia). replace (leg (s - 1) y - y * 0) with (leg (s - 1) y) by ring.
  unfold Rdiv. apply Rmult_integral_contrapositive. split; [apply Rmult_integral_contrapositive; split; assumption|apply Rinv_neq_0_compat; lra].
Qed.
Lemma gl_iff s (y : R) : (1 <= s)%nat -> (gl_der (A := real) s y <> 0 /\ gl_step (A := real) s y = y) <-> leg s y = 0.
Proof. intros Hs. split; [intros [N E]; exact (gl_fix s y N E)|]. intros Z. split; [exact (gl_der_root s y Hs Z)|exact (gl_root s y Z)]. Qed.
(** the two-point rule *)
Definition gl2 (i : nat) : R := match i with O => - sqrt (1 / 3) | _ => sqrt (1 / 3) end.
Lemma gl2_root i : leg 2 (gl2 i) = 0.
Proof.
  assert (Q : sqrt (1 / 3) * sqrt (1 / 3) = 1 / 3) by (apply sqrt_sqrt; lra).
  cbn. destruct i; cbn; [replace ((1 + 1 + 1) * - sqrt (1 / 3) * - sqrt (1 / 3)) with (3 * (sqrt (1 / 3) * sqrt (1 / 3))) by ring|replace ((1 + 1 + 1) * sqrt (1 / 3) * sqrt (1 / 3)) with (3 * (sqrt (1 / 3) * sqrt (1 / 3))) by ring]; rewrite Q; field.
Qed.
Lemma gl2_ok : distinct 2 gl2 /\ forall i, gl_der (A := real) 2 (gl2 i) <> 0 /\ gl_step (A := real) 2 (gl2 i) = gl2 i.
Proof.
  assert (S3 : 0 < sqrt (1 / 3)) by (apply sqrt_lt_R0; lra). split.
  - intros i j Hij. assert (i = 0 /\ j = 1)%nat as [-> ->] by lia. cbn. lra.
  - intros i. apply gl_iff; [lia|apply gl2_root].
Qed.
(** explicit tableaux *)
Definition row (l : list (list R)) (i j : nat) : R := nth j (nth i l []) 0.
Definition ent (l : list R) (i : nat) : R := nth i l 0.
(** the order conditions (one per rooted tree) up to order p <= 4 *)
Definition order_conditions (s p : nat) (a : matR) (b c : vecR) : Prop :=
  ((1 <= p)%nat -> sum s b = 1) /\
  ((2 <= p)%nat -> sum s (fun i => b i * c i) = 1 / 2) /\
  ((3 <= p)%nat -> sum s (fun i => b i * c i ^ 2) = 1 / 3 /\ sum s (fun i => b i * sum s (fun j => a i j * c j)) = 1 / 6) /\
  ((4 <= p)%nat -> sum s (fun i => b i * c i ^ 3) = 1 / 4 /\ sum s (fun i => b i * c i * sum s (fun j => a i j * c j)) = 1 / 8 /\
     sum s (fun i => b i * sum s (fun j => a i j * c j ^ 2)) = 1 / 12 /\ sum s (fun i => b i * sum s (fun j => a i j * sum s (fun k => a j k * c k))) = 1 / 24).
Lemma q_real m e : q (A := real) m e = rcst m e.
Proof. reflexivity. Qed.
Lemma explicit_ok s : (1 <= s <= 4)%nat -> exists A b c, explicit_tableau (A := real) s = Some (A, b, c) /\
  order_conditions s s (row A) (ent b) (ent c) /\ (forall i j, (i <= j)%nat -> (i < s)%nat -> (j < s)%nat -> row A i j = 0) /\ (forall i, (i < s)%nat -> sum s (row A i) = ent c i).
Proof.
  intros Hs. assert (s = 1 \/ s = 2 \/ s = 3 \/ s = 4)%nat as [->|[->|[->| ->]]] by lia.
  all: eexists; eexists; eexists; split; [reflexivity|].
  all: assert (Q : forall m, q (A := real) m 0 = IZR m) by (intros m; rewrite q_real; unfold rcst; cbn -[Z.mul]; f_equal; lia).
  all: assert (Qh : forall m, q (A := real) m (-1) = IZR m / 10) by reflexivity.
  all: rewrite ?Q, ?Qh; change (@ndiv real) with Rdiv.
  all: split; [unfold order_conditions; repeat match goal with |- _ /\ _ => split | |- (_ <= _)%nat -> _ => intros ? end; try lia; unfold row, ent; cbn [sum nth]; lra|].
  all: split; [intros i j Hij Hi Hj; unfold row|intros i Hi; unfold row, ent].
  all: repeat (destruct i as [|i]; [|try lia]); try (repeat (destruct j as [|j]; [|try lia])); cbn [sum nth]; try lra; try lia.
Qed.
Lemma explicit_none s : ~ (1 <= s <= 4)%nat -> explicit_tableau (A := real) s = None.
Proof. intros H. destruct s as [|[|[|[|[|s]]]]]; try reflexivity; lia. Qed.
