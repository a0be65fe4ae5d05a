(** The eigendecomposition on concrete matrices (binary64), and two by two matrices over the reals. *)
From Coq Require Import ZArith List Bool Reals Lia Lra.
From Flocq Require Import IEEE754.BinarySingleNaN.
From Verif Require Import FP Arith Vec LinModel RSum TredModel TredReduce TredCases TqlModel TqlSweep TqlLoop TqlTop.
Import ListNotations.

(** pow(2.0, -52.0) *)
Definition epsd : double := fz2 1 (-52).
Definition eig (n : nat) (M : nat -> nat -> double) := eigen (A := dbl) fsqrt epsd n M zv zv.
Definition vals (n : nat) (M : nat -> nat -> double) := map B2SF (arr1 n (td (q_st (fst (eig n M))))).
Definition vecs (n : nat) (M : nat -> nat -> double) := map B2SF (arr2 n (tV (q_st (fst (eig n M))))).
Lemma ex_two : vals 2 (rows [[2; 9]; [1; 2]]%Z) = map B2SF [dz 3; fz2 (2 ^ 52 + 1) (-52)] /\ q_ok (fst (eig 2 (rows [[2; 9]; [1; 2]]%Z))) = true.
Proof. vm_compute. split; reflexivity. Qed.
Lemma ex_diag : vals 2 (rows [[4; 0]; [0; -3]]%Z) = map B2SF [dz 4; dz (-3)] /\ vecs 2 (rows [[4; 0]; [0; -3]]%Z) = map B2SF [f1; f0; f0; f1].
Proof. vm_compute. split; reflexivity. Qed.
Lemma ex_three : q_ok (fst (eig 3 (rows [[2; 0; 3]; [0; 5; 4]; [3; 4; 1]]%Z))) = true.
Proof. vm_compute. reflexivity. Qed.
(** zero on the diagonal, x off it *)
Definition offdiag (x : double) (i j : nat) : double := if (i =? j)%nat then f0 else x.
Lemma tiny_bad : exists x : double, is_finite x = true /\ forall i, (i < 2)%nat -> is_finite (td (q_st (fst (eig 2 (offdiag x)))) i) = false.
Proof. exists (dcst 1 (-300)). split; [vm_compute; reflexivity|]. intros [|[|i]] Hi; [vm_compute; reflexivity|vm_compute; reflexivity|lia]. Qed.
Lemma zero_oob : snd (eig 0 (rows [])) = true.
Proof. vm_compute. reflexivity. Qed.
Lemma large_bad : exists x : double, is_finite x = true /\ vals 2 (offdiag x) = map B2SF [x; f0] /\ forall i j, (i < 2)%nat -> (j < 2)%nat -> Beqb (tV (q_st (fst (eig 2 (offdiag x)))) i j) f0 = true.
Proof. exists (fz2 1 600). split; [vm_compute; reflexivity|]. split; [vm_compute; reflexivity|]. intros [|[|i]] [|[|j]] Hi Hj; try lia; vm_compute; reflexivity. Qed.

Open Scope R_scope.
Lemma sweep_one n l (t : tst real) f : te t l <> 0 -> (l + 1 < n)%nat -> exists t' f', ql_sweep (A := real) sqrt n l (l + 1) t f = (t', f', true) /\ te t' l = 0.
Proof.
  intros He Hl. unfold ql_sweep. destruct (shift (A := real) sqrt n l t) as [[t1 dl1] h] eqn:ES. destruct (shift_spec n l t He Hl _ _ _ ES) as (S1 & S2 & S3 & S4 & S5 & S6 & S7).
  cbv zeta. replace (l + 1 - l)%nat with 1%nat by lia. cbn [loop]. replace (l + 1 - 1 - 0)%nat with l by lia.
  eexists _, _. split.
  - f_equal. unfold rotate. cbv zeta. cbn [r_ok r_p r_st]. cbn [andb]. apply negb_true_iff. apply not_true_iff_false. intros X. apply is_zero_real in X. unfold hypot2 in X. cbn in X.
    apply sqrt_eq_0 in X; [|nra]. rewrite S2 in X. change (num real) with R in *. nra.
  - cbn [te setd sete]. unfold vset. rewrite Nat.eqb_refl. unfold rotate. cbv zeta. cbn [r_s r_s2 r_c3 r_c]. cbn. unfold Rdiv. ring.
Qed.
Lemma step_ok n l eps (q : ql real) : 0 <= eps -> (n <= l + 2)%nat -> 0 <= q_tst1 q -> q_ok q = true -> q_ok (ql_step (A := real) sqrt eps n l q) = true /\ 0 <= q_tst1 (ql_step (A := real) sqrt eps n l q).
Proof.
  intros He Hn H0 Hok. unfold ql_step. cbv zeta. set (t := q_st q) in *.
  destruct (fmaxc_real (q_tst1 q) (nabs (td t l) + nabs (te t l))%num) as [T1 _]. match goal with |- context [find_m _ _ ?x _ _] => set (tst1 := x) in * end. clearbody tst1. change (num real) with R in tst1.
  destruct (find_spec eps tst1 (te t) (n - 1 - l) l) as (M1 & M2 & M3 & M4). set (m := find_m (A := real) eps (n - 1 - l) tst1 (te t) l) in *. clearbody m.
  destruct (Nat.ltb_spec l m) as [Hm|Hm].
  - specialize (M4 Hm). assert (m = l + 1)%nat as -> by lia. assert (D0 : 0 <= eps * tst1) by (apply Rmult_le_pos; lra).
    destruct (sweep_one n l t (q_f q)) as (t' & f' & E & E0); [intros X; rewrite X, Rabs_R0 in M4; lra|lia|].
    assert (L : ql_loop (A := real) sqrt eps n 19 l (l + 1) tst1 t (q_f q) = (t', f', true)).
    { cbn [ql_loop]. rewrite E. destruct (@nltb real _ _) eqn:B; [exfalso|reflexivity].
      rewrite E0 in B. change (Rltb (eps * tst1) (Rabs 0) = true) in B. rewrite Rabs_R0 in B. unfold Rltb in B. destruct (Rlt_dec _ _); [lra|discriminate]. }
    rewrite L. cbn [q_ok q_tst1]. rewrite Hok. split; [reflexivity|lra].
  - cbn [q_ok q_tst1]. rewrite Hok. split; [reflexivity|lra].
Qed.
Lemma two_ok eps (M : nat -> nat -> R) d e : 0 <= eps -> q_ok (fst (eigen (A := real) sqrt eps 2 M d e)) = true.
Proof.
  intros He. unfold eigen, tql2. generalize (tred2 (A := real) sqrt 2 (mkT M d e)); intros w. destruct (ql_init (A := real) 2 w) as [t o].
  change (q_ok (ql_step (A := real) sqrt eps 2 1 (ql_step (A := real) sqrt eps 2 0 (mkQ t (@n0 real) (@n0 real) true))) = true).
  set (q0 := mkQ t (@n0 real) (@n0 real) true).
  destruct (step_ok 2 0 eps q0 He ltac:(lia)) as (A1 & A2); [apply Rle_refl|reflexivity|].
  apply step_ok; [exact He|lia|exact A2|exact A1].
Qed.
