(** Top-level statements about the dense solver, and concrete cases. *)
From Coq Require Import ZArith List Bool Lia Reals Lra.
From Verif Require Import FP Arith Vec LinModel LinProofs LinSolve PadeModel RSum PadeProofs PadeTop Poly InterpProofs.
Import ListNotations.
Open Scope R_scope.

Lemma dgesv_all n nrhs (M B : matR) piv X i : dgesv (A := real) n nrhs M B piv = (X, i) ->
  (i = 0%Z -> forall r c, (r < n)%nat -> (c < nrhs)%nat -> sum n (fun k => M r k * X k c) = B r c) /\
  (i <> 0%Z -> (1 <= i <= Z.of_nat n)%Z /\ forall r c, X r c = B r c) /\
  (i <> 0%Z <-> singular n M).
Proof.
  intros E. split; [|split; [|split]].
  - intros ->. intros r c Hr Hc. rewrite <- vsum_sum. exact (dgesv_solves n nrhs M B piv X E r c Hr Hc).
  - intros N. destruct (dgesv_singular n nrhs M B piv X i E N) as (H1 & H2 & _). split; assumption.
  - intros N. destruct (dgesv_singular n nrhs M B piv X i E N) as (_ & _ & v & V & K). exists v. split; [exact V|].
    intros r Hr. unfold mv. rewrite <- vsum_sum. apply K, Hr.
  - intros (v & V & K). pose proof (dgesv_flags n nrhs M B piv v V) as F. rewrite E in F. apply F. intros r Hr. rewrite vsum_sum. apply K, Hr.
Qed.

(** 2 x 2 system needing a row exchange: [[0, 2], [1, 1]] x = [4, 3] has solution [1, 2] *)
Definition ex_M : matR := fun i j => match i, j with 0%nat, 0%nat => 0 | 0%nat, _ => 2 | _, _ => 1 end.
Definition ex_B : matR := fun i _ => match i with 0%nat => 4 | _ => 3 end.
Lemma ex_nonsing : ~ singular 2 ex_M.
Proof.
  intros (v & (k & Hk & Vk) & K). pose proof (K 0%nat ltac:(lia)) as K0. pose proof (K 1%nat ltac:(lia)) as K1.
  unfold mv, ex_M in K0, K1. cbn in K0, K1. destruct k as [|[|k]]; [| |lia]; apply Vk; lra.
Qed.
Lemma ex_solve : let (X, i) := dgesv (A := real) 2 1 ex_M ex_B (fun _ => 0%nat) in i = 0%Z /\ X 0%nat 0%nat = 1 /\ X 1%nat 0%nat = 2.
Proof.
  destruct (dgesv 2 1 ex_M ex_B (fun _ => 0%nat)) as [X i] eqn:E. destruct (dgesv_all 2 1 ex_M ex_B (fun _ => 0%nat) X i E) as (S & _ & F).
  assert (I : i = 0%Z). { destruct (Z.eq_dec i 0) as [e|e]; [exact e|]. exfalso. exact (ex_nonsing (proj1 F e)). }
  split; [exact I|]. pose proof (S I 0%nat 0%nat ltac:(lia) ltac:(lia)) as S0. pose proof (S I 1%nat 0%nat ltac:(lia) ltac:(lia)) as S1.
  unfold ex_M, ex_B in S0, S1. cbn in S0, S1. rewrite Rplus_0_l in S0, S1. change (num real) with R in *. lra.
Qed.
(** the same routine in double arithmetic *)
Definition dz (a : Z) : double := fz2 a 0.
Definition exd_M : nat -> nat -> double := fun i j => match i, j with 0%nat, 0%nat => dz 0 | 0%nat, _ => dz 2 | _, _ => dz 1 end.
Definition exd_B : nat -> nat -> double := fun i _ => match i with 0%nat => dz 4 | _ => dz 3 end.
Lemma exd_solve : let (X, i) := dgesv (A := dbl) 2 1 exd_M exd_B (fun _ => 0%nat) in
  (i =? 0)%Z && fle (X 0%nat 0%nat) (dz 1) && fle (dz 1) (X 0%nat 0%nat) && fle (X 1%nat 0%nat) (dz 2) && fle (dz 2) (X 1%nat 0%nat) = true.
Proof. vm_compute. reflexivity. Qed.

(** degree 3 reads an uninitialised array: with a NaN there exp(0) is NaN *)
Lemma pade3_garbage : exists garb Y, padeapprox (A := dbl) 3 1 garb (fun _ _ => dz 0) = Some Y /\ isnan (Y 0%nat 0%nat) = true.
Proof. exists (fun _ _ => fnan). eexists. split; [reflexivity|]. vm_compute. reflexivity. Qed.
(** with zeros there it is 1 *)
Lemma pade3_clean : exists Y, padeapprox (A := dbl) 3 1 (fun _ _ => dz 0) (fun _ _ => dz 0) = Some Y /\ fle (Y 0%nat 0%nat) (dz 1) = true /\ fle (dz 1) (Y 0%nat 0%nat) = true.
Proof. eexists. split; [reflexivity|]. split; vm_compute; reflexivity. Qed.
(** 1 x 1, degree 3, argument 1: 193/71 *)
Lemma pade3_one : exists Y, padeapprox (A := real) 3 1 (fun _ _ => 0) (fun _ _ => 1) = Some Y /\ Y 0%nat 0%nat = 193 / 71.
Proof.
  destruct (pade_correct 3 1 (fun _ _ => 0) (fun _ _ => 1)) as (Y & E & R1 & _); [cbn; tauto|]. exists Y. split; [exact E|].
  assert (P : forall k, mpow 1 (fun _ _ => 1) k 0%nat 0%nat = 1) by (intros k; rewrite mpow_one; apply pow1).
  assert (G : pade_den 3 1 (fun _ _ => 1) 0%nat 0%nat = 71 /\ pade_num 3 1 (fun _ _ => 1) 0%nat 0%nat = 193).
  { unfold pade_den, pade_num. cbn [sum]. rewrite !P.
    repeat match goal with |- context[coef ?m ?k] => rewrite (coef_eq m k (nth k (pade_table m) 0%Z)) by (vm_compute; reflexivity) end.
    cbn [nth pade_table pow]. split; lra. }
  destruct G as [G1 G2].
  assert (N : ~ singular 1 (pade_den 3 1 (fun _ _ => 1))).
  { intros (v & (k & Hk & Vk) & K). specialize (K 0%nat ltac:(lia)). unfold mv in K. cbn [sum] in K. rewrite G1 in K. replace k with 0%nat in Vk by lia. lra. }
  specialize (R1 N 0%nat 0%nat ltac:(lia) ltac:(lia)). unfold mm in R1. cbn [sum] in R1. rewrite G1, G2 in R1. lra.
Qed.
(** interpolation of x^2 at 0, 1, 3, read at 2 *)
Lemma neville_ex : neville (A := real) 2 2 (fun i => match i with 0%nat => 0 | 1%nat => 1 | _ => 3 end) (fun i => match i with 0%nat => 0 | 1%nat => 1 | _ => 9 end) = 4.
Proof.
  rewrite (neville_interpolates 2 _ _) with (a := fun k => match k with 2%nat => 1 | _ => 0 end).
  - unfold poly. cbn. lra.
  - intros i j H. destruct i as [|[|i]], j as [|[|[|j]]]; try lia; lra.
  - intros i Hi. destruct i as [|[|[|i]]]; [| | |lia]; unfold poly; cbn; lra.
Qed.
(** Gershgorin on [[2, -1], [-1, 2]]: bounds 3 and 1, both attained *)
Definition ex_G : matR := fun i j => if (i =? j)%nat then 2 else -1.
Lemma gersh_ex : gersh_max (A := real) 2 ex_G = 3 /\ gersh_min (A := real) 2 ex_G = 1 /\ eigenpair 2 ex_G 3 (fun i => if (i =? 0)%nat then 1 else -1) /\ eigenpair 2 ex_G 1 (fun _ => 1).
Proof.
  assert (R0 : radius 2 ex_G 0 = 1 /\ radius 2 ex_G 1 = 1).
  { assert (A1 : Rabs (-1) = 1) by (rewrite Rabs_left; lra). unfold radius, ex_G. cbn. rewrite A1. split; lra. }
  destruct R0 as [R0 R1]. split; [|split; [|split; split]].
  - change (gersh_max (A := real) 2 ex_G) with (loop 2 (fun i m => cmax (A := real) m (cmax (A := real) (Rabs (ex_G i i - radius 2 ex_G i)) (Rabs (ex_G i i + radius 2 ex_G i)))) 0).
    cbn [loop]. rewrite !cmax_real, R0, R1. unfold ex_G. cbn [Nat.eqb]. rewrite !(Rabs_right (2 - 1)), !(Rabs_right (2 + 1)) by lra.
    unfold Rmax. repeat (destruct (Rle_dec _ _)); lra.
  - change (gersh_min (A := real) 2 ex_G) with (loop 2 (fun i m => nmin (A := real) m (ex_G i i - radius 2 ex_G i)) (ncst (a := real) 1 10)).
    assert (H : ncst (a := real) 1 10 = 10000000000) by reflexivity.
    cbn [loop]. rewrite !nmin_real, R0, R1, H. unfold ex_G. cbn [Nat.eqb]. change (Rmin (Rmin 10000000000 (2 - 1)) (2 - 1) = 1).
    unfold Rmin. repeat (destruct (Rle_dec _ _)); lra.
  - exists 0%nat. split; [lia|cbn; lra].
  - intros i Hi. destruct i as [|[|i]]; [| |lia]; unfold ex_G; cbn; lra.
  - exists 0%nat. split; [lia|lra].
  - intros i Hi. destruct i as [|[|i]]; [| |lia]; unfold ex_G; cbn; lra.
Qed.
(** in double arithmetic a NaN in an earlier row is lost: the estimates look finite *)
Definition exd_G : nat -> nat -> double := fun i j => match i, j with 0%nat, 0%nat => fnan | 0%nat, _ | _, 0%nat => dz 0 | _, _ => dz 5 end.
Lemma gersh_nan : isnan (exd_G 0%nat 0%nat) = true /\ fle (gersh_min (A := dbl) 2 exd_G) (dz 5) && fle (dz 5) (gersh_min (A := dbl) 2 exd_G) = true /\
  fle (gersh_max (A := dbl) 2 exd_G) (dz 5) && fle (dz 5) (gersh_max (A := dbl) 2 exd_G) = true.
Proof. vm_compute. repeat split. Qed.
Lemma gersh_nan_ex : exists M : nat -> nat -> double, isnan (M 0%nat 0%nat) = true /\
  isnan (gersh_min (A := dbl) 2 M) = false /\ isnan (gersh_max (A := dbl) 2 M) = false.
Proof. exists exd_G. vm_compute. repeat split. Qed.
