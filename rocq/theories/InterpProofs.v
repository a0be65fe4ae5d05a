(** Neville interpolation and Gershgorin bounds of math.c in exact arithmetic. *)
From Coq Require Import ZArith List Bool Lia Reals Lra Psatz.
From Verif Require Import FP Arith Vec RSum Poly LinModel.
Import ListNotations.
Open Scope R_scope.

(** the Neville scheme as a table *)
Fixpoint nev (x Q : nat -> R) (d j : nat) (xx : R) : R :=
  match d with
  | O => Q j
  | S e => ((xx - x j) * nev x Q e (S j) xx - (xx - x (j + S e)%nat) * nev x Q e j xx) / (x (j + S e)%nat - x j)
  end.
Lemma nev_loop (xx : R) n (x Q : nat -> R) : forall t, (t <= n)%nat -> forall j, (j <= n - t)%nat ->
  loop t (fun t Q => neville_inner (A := real) xx n (n - t) x Q) Q j = nev x Q t j xx.
Proof.
  induction t as [|t IH]; intros Ht j Hj; [reflexivity|]. cbn [loop].
  specialize (IH ltac:(lia)). revert IH. generalize (loop t (fun (t : nat) (Q : nat -> num real) => neville_inner (A := real) xx n (n - t) x Q) Q). intros Qt IH.
  assert (G : forall i, (i <= n - t)%nat -> forall k, (k <= n - t)%nat ->
    loop i (fun j Q => vset (A := real) Q j (((xx - x j) * Q (j + 1)%nat - (xx - x (j + n - (n - t) + 1)%nat) * Q j) / (x (j + n - (n - t) + 1)%nat - x j))) Qt k =
    if (k <? i)%nat then nev x Q (S t) k xx else nev x Q t k xx).
  { induction i as [|i IHi]; intros Hi k Hk; cbn [loop].
    - destruct (Nat.ltb_spec k 0); [lia|]. apply IH. exact Hk.
    - unfold vset. destruct (Nat.eqb_spec k i) as [->|N].
      + rewrite !IHi by lia. destruct (Nat.ltb_spec i i); [lia|]. destruct (Nat.ltb_spec (i + 1) i); [lia|]. destruct (Nat.ltb_spec i (S i)); [|lia].
        cbn [nev]. replace (i + n - (n - t) + 1)%nat with (i + S t)%nat by lia. rewrite Nat.add_1_r. reflexivity.
      + rewrite IHi by lia. destruct (Nat.ltb_spec k i), (Nat.ltb_spec k (S i)); try lia; reflexivity. }
  etransitivity; [exact (G (n - t)%nat ltac:(lia) j ltac:(lia))|]. destruct (Nat.ltb_spec j (n - t)); [reflexivity|lia].
Qed.
Lemma nev_poly (x Q : nat -> R) : forall d j, is_poly d (nev x Q d j).
Proof.
  induction d as [|d IH]; intros j; [apply (is_poly_const 0)|]. cbn [nev].
  apply is_poly_ext with (fun xx => / (x (j + S d)%nat - x j) * ((xx - x j) * nev x Q d (S j) xx + (-1) * ((xx - x (j + S d)%nat) * nev x Q d j xx))).
  { intros xx. unfold Rdiv. ring. }
  apply is_poly_scal, is_poly_add; [apply is_poly_lin, IH|apply is_poly_scal, is_poly_lin, IH].
Qed.
Lemma nev_interp (x Q : nat -> R) n (D : forall i j, (i < j <= n)%nat -> x i <> x j) : forall d j, (j + d <= n)%nat ->
  forall i, (j <= i <= j + d)%nat -> nev x Q d j (x i) = Q i.
Proof.
  induction d as [|d IH]; intros j Hj i Hi.
  - replace i with j by lia. reflexivity.
  - cbn [nev]. assert (N : x (j + S d)%nat - x j <> 0) by (specialize (D j (j + S d)%nat ltac:(lia)); lra).
    destruct (Nat.eq_dec i j) as [->|Nj].
    { rewrite (IH j) by lia. field. exact N. }
    destruct (Nat.eq_dec i (j + S d)) as [->|Nd].
    { rewrite (IH (S j)) by lia. field. exact N. }
    rewrite (IH (S j)), (IH j) by lia. field. exact N.
Qed.
Lemma neville_interpolates n (x Q : nat -> R) : (forall i j, (i < j <= n)%nat -> x i <> x j) ->
  forall (a : nat -> R), (forall i, (i <= n)%nat -> poly n a (x i) = Q i) -> forall xx, neville (A := real) xx n x Q = poly n a xx.
Proof.
  intros D a H xx. unfold neville. rewrite nev_loop by lia.
  apply (poly_unique n (nev x Q n 0) (poly n a) x); [apply nev_poly|exists a; reflexivity|exact D|].
  intros i Hi. rewrite H by exact Hi. apply (nev_interp x Q n D); lia.
Qed.
Lemma neville_exists n (x Q : nat -> R) : (forall i j, (i < j <= n)%nat -> x i <> x j) ->
  exists a, (forall i, (i <= n)%nat -> poly n a (x i) = Q i) /\ forall xx, neville (A := real) xx n x Q = poly n a xx.
Proof.
  intros D. destruct (nev_poly x Q n 0) as [a Ha]. exists a. split.
  - intros i Hi. rewrite <- Ha. apply (nev_interp x Q n D); lia.
  - intros xx. unfold neville. rewrite nev_loop by lia. apply Ha.
Qed.

(** *** Gershgorin *)
Definition radius (n : nat) (M : matR) (i : nat) : R := sum n (fun j => if (j =? i)%nat then 0 else Rabs (M i j)).
Lemma cmax_real a b : cmax (A := real) a b = Rmax a b.
Proof. unfold cmax; cbn. destruct (Rltb_spec a b); [rewrite Rmax_right|rewrite Rmax_left]; lra. Qed.
Lemma gersh_max_row (M : matR) n : forall m, forall i, (i < m)%nat ->
  Rabs (M i i) + radius n M i <= loop m (fun i m => cmax (A := real) m (cmax (A := real) (Rabs (M i i - radius n M i)) (Rabs (M i i + radius n M i)))) 0.
Proof.
  induction m as [|m IH]; intros i Hi; [lia|]. cbn [loop]. rewrite !cmax_real. destruct (Nat.eq_dec i m) as [->|N].
  - assert (0 <= radius n M m) by (apply sum_nonneg; intros k _; destruct (k =? m)%nat; [lra|apply Rabs_pos]).
    apply Rle_trans with (2 := Rmax_r _ _). unfold Rmax. unfold Rabs. repeat (destruct (Rcase_abs _); destruct (Rle_dec _ _) || idtac); lra.
  - apply Rle_trans with (2 := Rmax_l _ _). apply IH. lia.
Qed.
Lemma gersh_min_row (M : matR) n : forall m, (forall i, (i < m)%nat ->
  loop m (fun i m => nmin (A := real) m (M i i - radius n M i)) (ncst (a := real) 1 10) <= M i i - radius n M i).
Proof.
  induction m as [|m IH]; intros i Hi; [lia|]. cbn [loop]. rewrite nmin_real. destruct (Nat.eq_dec i m) as [->|N].
  - apply Rmin_r.
  - apply Rle_trans with (1 := Rmin_l _ _). apply IH. lia.
Qed.
(** the row of the largest component *)
Lemma arg_max (n : nat) (v : nat -> R) : (0 < n)%nat -> exists i, (i < n)%nat /\ forall k, (k < n)%nat -> Rabs (v k) <= Rabs (v i).
Proof.
  induction n as [|n IH]; intros H; [lia|]. destruct n as [|n].
  - exists 0%nat. split; [lia|]. intros k Hk. replace k with 0%nat by lia. lra.
  - destruct (IH ltac:(lia)) as (i & Hi & G). destruct (Rle_dec (Rabs (v (S n))) (Rabs (v i))) as [L|L].
    + exists i. split; [lia|]. intros k Hk. destruct (Nat.eq_dec k (S n)) as [->|N]; [exact L|apply G; lia].
    + exists (S n). split; [lia|]. intros k Hk. destruct (Nat.eq_dec k (S n)) as [->|N]; [lra|]. specialize (G k ltac:(lia)). lra.
Qed.
Definition eigenpair (n : nat) (M : matR) (lam : R) (v : nat -> R) : Prop :=
  (exists k, (k < n)%nat /\ v k <> 0) /\ forall i, (i < n)%nat -> sum n (fun j => M i j * v j) = lam * v i.
(** the Gershgorin disc theorem *)
Lemma gershgorin n (M : matR) lam v : eigenpair n M lam v -> exists i, (i < n)%nat /\ Rabs (lam - M i i) <= radius n M i.
Proof.
  intros [(k0 & K0 & Vk) E]. destruct (arg_max n v ltac:(lia)) as (i & Hi & G). exists i. split; [exact Hi|].
  assert (P : 0 < Rabs (v i)) by (apply Rlt_le_trans with (Rabs (v k0)); [apply Rabs_pos_lt, Vk|apply G, K0]).
  assert (Q : sum n (fun j => if (j =? i)%nat then 0 else M i j * v j) = (lam - M i i) * v i).
  { specialize (E i Hi). rewrite (sum_ext n _ (fun j => (if (j =? i)%nat then 0 else M i j * v j) + (if (j =? i)%nat then M i i * v i else 0))) in E.
    2:{ intros k Hk. destruct (Nat.eqb_spec k i) as [->|]; change (num real) with R in *; cbn; lra. }
    rewrite sum_plus, (sum_one n i (fun j => if (j =? i)%nat then M i i * v i else 0)) in E.
    2:exact Hi. 2:{ intros k Hk N. destruct (Nat.eqb_spec k i); [contradiction|reflexivity]. }
    rewrite Nat.eqb_refl in E. lra. }
  assert (B : Rabs ((lam - M i i) * v i) <= radius n M i * Rabs (v i)).
  { rewrite <- Q. apply Rle_trans with (1 := sum_abs n _). unfold radius. rewrite <- sum_scal_r. apply sum_le. intros k Hk.
    destruct (k =? i)%nat; [rewrite Rabs_R0; lra|]. rewrite Rabs_mult. apply Rmult_le_compat_l; [apply Rabs_pos|apply G, Hk]. }
  rewrite Rabs_mult in B. apply Rmult_le_reg_r with (1 := P). exact B.
Qed.
Lemma gersh_max_bounds n (M : matR) lam v : eigenpair n M lam v -> Rabs lam <= gersh_max (A := real) n M.
Proof.
  intros E. destruct (gershgorin n M lam v E) as (i & Hi & H). pose proof (gersh_max_row M n n i Hi) as G.
  change (gersh_max (A := real) n M) with (loop n (fun i m => cmax (A := real) m (cmax (A := real) (Rabs (M i i - radius n M i)) (Rabs (M i i + radius n M i)))) 0).
  revert G. generalize (loop n (fun i m => cmax (A := real) m (cmax (A := real) (Rabs (M i i - radius n M i)) (Rabs (M i i + radius n M i)))) 0).
  intros b G. change (num real) with R in *. pose proof (Rabs_triang (lam - M i i) (M i i)) as T. replace (lam - M i i + M i i) with lam in T by lra. lra.
Qed.
Lemma gersh_min_bounds n (M : matR) lam v : eigenpair n M lam v -> gersh_min (A := real) n M <= lam.
Proof.
  intros E. destruct (gershgorin n M lam v E) as (i & Hi & H). pose proof (gersh_min_row M n n i Hi) as G.
  change (gersh_min (A := real) n M) with (loop n (fun i m => nmin (A := real) m (M i i - radius n M i)) (ncst (a := real) 1 10)).
  apply Rle_trans with (1 := G). unfold Rabs in H. destruct (Rcase_abs _); lra.
Qed.
(** the minimum estimate bounds the quadratic form of a symmetric matrix *)
Definition quad (n : nat) (M : matR) (v : nat -> R) : R := sum n (fun i => sum n (fun j => v i * M i j * v j)).
Definition nrm2 (n : nat) (v : nat -> R) : R := sum n (fun i => v i * v i).
Lemma gersh_quad n (M : matR) (v : nat -> R) : (forall i j, (i < n)%nat -> (j < n)%nat -> M i j = M j i) ->
  gersh_min (A := real) n M * nrm2 n v <= quad n M v.
Proof.
  intros S.
  assert (Q : sum n (fun i => (M i i - radius n M i) * (v i * v i)) <= quad n M v).
  { unfold quad.
    assert (E1 : sum n (fun i => (M i i - radius n M i) * (v i * v i)) =
      sum n (fun i => sum n (fun j => if (j =? i)%nat then M i i * (v i * v i) else - (Rabs (M i j) * ((v i * v i + v j * v j) / 2))))).
    { assert (E2 : sum n (fun i => sum n (fun j => if (j =? i)%nat then 0 else Rabs (M i j) * (v j * v j / 2))) =
                   sum n (fun i => sum n (fun j => if (j =? i)%nat then 0 else Rabs (M i j) * (v i * v i / 2)))).
      { rewrite sum_swap. apply sum_ext. intros i Hi. apply sum_ext. intros j Hj. rewrite (Nat.eqb_sym i j). destruct (j =? i)%nat; [reflexivity|]. rewrite (S j i Hj Hi). reflexivity. }
      rewrite (sum_ext n (fun i => sum n (fun j => if (j =? i)%nat then M i i * (v i * v i) else _))
        (fun i => (M i i * (v i * v i) - sum n (fun j => if (j =? i)%nat then 0 else Rabs (M i j) * (v i * v i / 2))) - sum n (fun j => if (j =? i)%nat then 0 else Rabs (M i j) * (v j * v j / 2)))).
      2:{ intros i Hi. rewrite (sum_ext n _ (fun j => (if (j =? i)%nat then M i i * (v i * v i) else 0) + ((-1) * (if (j =? i)%nat then 0 else Rabs (M i j) * (v i * v i / 2)) + (-1) * (if (j =? i)%nat then 0 else Rabs (M i j) * (v j * v j / 2))))).
          2:{ intros j Hj. destruct (j =? i)%nat; lra. }
          rewrite !sum_plus, !sum_scal, (sum_one n i (fun j => if (j =? i)%nat then M i i * (v i * v i) else 0)).
          2:exact Hi. 2:{ intros k Hk N. destruct (Nat.eqb_spec k i); [contradiction|reflexivity]. }
          rewrite Nat.eqb_refl. lra. }
      rewrite sum_minus, E2, sum_minus.
      rewrite (sum_ext n (fun i => (M i i - radius n M i) * (v i * v i)) (fun i => M i i * (v i * v i) - 2 * sum n (fun j => if (j =? i)%nat then 0 else Rabs (M i j) * (v i * v i / 2)))).
      2:{ intros i Hi. rewrite (sum_ext n (fun j => if (j =? i)%nat then 0 else Rabs (M i j) * (v i * v i / 2)) (fun j => (if (j =? i)%nat then 0 else Rabs (M i j)) * (v i * v i / 2))).
          2:{ intros j Hj. destruct (j =? i)%nat; lra. }
          rewrite sum_scal_r. fold (radius n M i). lra. }
      rewrite sum_minus, sum_scal. lra. }
    rewrite E1. apply sum_le. intros i Hi. apply sum_le. intros j Hj. destruct (Nat.eqb_spec j i) as [->|N]; [lra|].
    pose proof (Rle_abs (M i j)). pose proof (Rle_abs (- M i j)) as H1. rewrite Rabs_Ropp in H1.
    assert (0 <= (v i + v j) * (v i + v j)) by (apply Rle_0_sqr). assert (0 <= (v i - v j) * (v i - v j)) by (apply Rle_0_sqr). nra. }
  apply Rle_trans with (2 := Q). unfold nrm2. rewrite <- sum_scal. apply sum_le. intros i Hi.
  apply Rmult_le_compat_r; [apply Rle_0_sqr|]. pose proof (gersh_min_row M n n i Hi) as G. exact G.
Qed.
