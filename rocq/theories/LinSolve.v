(** Triangular solves, the complete solver, interpolation and Gershgorin bounds of math.c in exact arithmetic. *)
From Coq Require Import ZArith List Bool Lia Reals Lra Psatz.
From Verif Require Import Arith Vec LinModel LinProofs.
Import ListNotations.
Open Scope R_scope.

Lemma sum_if_lt (n k : nat) (f : nat -> R) : (k <= n)%nat -> sum n (fun l => if (l <? k)%nat then f l else 0) = sum k f.
Proof.
  intros H. replace n with (k + (n - k))%nat by lia. rewrite vsum_split.
  rewrite (vsum_ext k _ f) by (intros l Hl; nb; [reflexivity|lia]).
  rewrite (vsum_zero (n - k)) by (intros l Hl; nb; [lia|reflexivity]). lra.
Qed.
(** forward substitution *)
Lemma llnu_inv (m : nat) (L B : matR) : forall k, (k <= m)%nat -> forall r c, (r < m)%nat ->
  let X := loop k (fun k X r c => if (k <? r)%nat && (r <? m)%nat then X r c - X k c * L r k else X r c) B in
  X r c + sum (Nat.min k r) (fun l => L r l * X l c) = B r c.
Proof.
  induction k as [|k IH]; intros Hk r c Hr; cbn [loop].
  - cbn. lra.
  - cbv zeta in *. set (X := loop k _ B) in *. destruct (Nat.ltb_spec k r) as [H|H].
    + replace (Nat.min (S k) r) with (S k) by lia. specialize (IH ltac:(lia) r c Hr). replace (Nat.min k r) with k in IH by lia.
      cbn [vsum]. rewrite (vsum_ext k _ (fun l => L r l * X l c)).
      2:{ intros l Hl. nb; try lia. reflexivity. }
      nb; try lia. rewrite <- IH. change (@nadd real) with Rplus. lra.
    + replace (Nat.min (S k) r) with r by lia. specialize (IH ltac:(lia) r c Hr). replace (Nat.min k r) with r in IH by lia.
      cbn [andb]. rewrite <- IH. f_equal. apply vsum_ext. intros l Hl. nb; try lia. reflexivity.
Qed.
Lemma llnu_spec (m : nat) (L B : matR) r c : (r < m)%nat ->
  sum m (fun l => Lof L r l * dtrsm_llnu (A := real) m L B l c) = B r c.
Proof.
  intros Hr. pose proof (llnu_inv m L B m (Nat.le_refl m) r c Hr) as H. cbv zeta in H.
  change (loop m _ B) with (dtrsm_llnu (A := real) m L B) in H. rewrite <- H. replace (Nat.min m r) with r by lia.
  replace m with (S r + (m - S r))%nat at 1 by lia. rewrite vsum_split. rewrite (vsum_zero (m - S r)).
  2:{ intros l Hl. unfold Lof. nb; try lia. lra. }
  cbn [vsum]. unfold Lof at 2. rewrite Nat.eqb_refl. change (@nadd real) with Rplus.
  rewrite (vsum_ext r _ (fun l => L r l * dtrsm_llnu (A := real) m L B l c)); [lra|].
  intros l Hl. unfold Lof. nb; try lia. reflexivity.
Qed.
(** back substitution *)
Lemma lunn_inv (m : nat) (U B : matR) (D : forall l, (l < m)%nat -> U l l <> 0) : forall t, (t <= m)%nat -> forall r c, (r < m)%nat ->
  let X := loop t (fun t X => let k := (m - 1 - t)%nat in
    let X1 := fun r c => if (r =? k)%nat then X r c / U k k else X r c in
    fun r c => if (r <? k)%nat then X1 r c - X1 k c * U r k else X1 r c) B in
  (if (r <? m - t)%nat then X r c else U r r * X r c) +
  sum m (fun l => if (r <? l)%nat && (m - t <=? l)%nat then U r l * X l c else 0) = B r c.
Proof.
  induction t as [|t IH]; intros Ht r c Hr; cbn [loop].
  - cbv zeta. rewrite vsum_zero by (intros l Hl; nb; try lia; reflexivity). nb; try lia. lra.
  - cbv zeta in *. set (X := loop t _ B) in *. set (k := (m - 1 - t)%nat) in *. specialize (IH ltac:(lia) r c Hr).
    assert (Dk : U k k <> 0) by (apply D; unfold k; lia).
    replace (m - S t)%nat with k by (unfold k; lia). replace (m - t)%nat with (S k) in IH by (unfold k; lia).
    rewrite <- IH. clear IH.
    rewrite (vsum_ext m (fun l => if (r <? l)%nat && (k <=? l)%nat then _ else 0)
       (fun l => (if (r <? l)%nat && (S k <=? l)%nat then U r l * X l c else 0) + (if (r <? k)%nat then (if (l =? k)%nat then U r k * (X k c / U k k) else 0) else 0))).
    2:{ intros l Hl. destruct (Nat.eqb_spec k k); [|lia]. nb; subst; try lia; lra. }
    rewrite vsum_plus. match goal with |- _ + (vsum m ?f + _) = _ + ?s => change s with (sum m f); generalize (sum m f) end. intros sm. change (num real) with R in *.
    destruct (Nat.ltb_spec r k) as [H|H].
    + rewrite (vsum_one m k (fun l => if (l =? k)%nat then U r k * (X k c / U k k) else 0)).
      2:{ unfold k; lia. } 2:{ intros l Hl N. nb; [lia|reflexivity]. }
      rewrite Nat.eqb_refl. nb; try lia. change (@nsub real) with Rminus. change (@nmul real) with Rmult. change (@ndiv real) with Rdiv. unfold Rdiv. ring.
    + rewrite vsum_0. destruct (Nat.eqb_spec r k) as [->|N].
      * nb; try lia. change (@ndiv real) with Rdiv. field. exact Dk.
      * nb; try lia. lra.
Qed.
Lemma lunn_spec (m : nat) (U B : matR) r c : (forall l, (l < m)%nat -> U l l <> 0) -> (r < m)%nat ->
  sum m (fun l => Uof U r l * dtrsm_lunn (A := real) m U B l c) = B r c.
Proof.
  intros D Hr. pose proof (lunn_inv m U B D m (Nat.le_refl m) r c Hr) as H. cbv zeta in H.
  change (loop m _ B) with (dtrsm_lunn (A := real) m U B) in H. rewrite <- H. rewrite Nat.sub_diag.
  destruct (Nat.ltb_spec r 0); [lia|].
  rewrite (vsum_ext m _ (fun l => (if (l =? r)%nat then U r r * dtrsm_lunn (A := real) m U B r c else 0) +
     (if (r <? l)%nat && (0 <=? l)%nat then U r l * dtrsm_lunn (A := real) m U B l c else 0))).
  2:{ intros l Hl. unfold Uof. nb; subst; try lia; lra. }
  rewrite vsum_plus. f_equal. rewrite (vsum_one m r); [rewrite Nat.eqb_refl; reflexivity|exact Hr|]. intros l Hl N. nb; [lia|reflexivity].
Qed.
(** the permuted matrix is the product of the factors *)
Lemma lu_product n A0 s r c : Inv n A0 n s -> (r < n)%nat -> (c < n)%nat ->
  A0 (sigma (lu_piv s) n r) c = sum n (fun l => Lof (lu_A s) r l * Uof (lu_A s) l c).
Proof. intros I Hr Hc. rewrite (inv_fac _ _ _ _ I) by assumption. destruct (Nat.leb_spec n r); [lia|]. cbn [andb]. lra. Qed.
Lemma lu_apply n A0 s (v : nat -> R) r : Inv n A0 n s -> (r < n)%nat ->
  sum n (fun k => A0 (sigma (lu_piv s) n r) k * v k) = sum n (fun l => Lof (lu_A s) r l * sum n (fun k => Uof (lu_A s) l k * v k)).
Proof.
  intros I Hr. rewrite (vsum_ext n _ (fun k => sum n (fun l => Lof (lu_A s) r l * Uof (lu_A s) l k * v k))).
  2:{ intros k Hk. rewrite (lu_product n A0 s) by assumption. rewrite <- vsum_scal_r. reflexivity. }
  rewrite vsum_swap. apply vsum_ext. intros l Hl. rewrite <- vsum_scal. apply vsum_ext. intros k Hk. lra.
Qed.

(** *** dgesv: C27 *)
Lemma dgesv_solves n nrhs (M B : matR) piv X : dgesv (A := real) n nrhs M B piv = (X, 0%Z) ->
  forall r c, (r < n)%nat -> (c < nrhs)%nat -> sum n (fun k => M r k * X k c) = B r c.
Proof.
  unfold dgesv. cbv zeta. set (s := dgetf2 n (mkLu M piv 0)). intros E. injection E as E1 E2. rewrite E2 in E1. cbn in E1.
  assert (I : Inv n M n s) by apply inv_lu. intros r c Hr Hc.
  assert (Pv : forall j, (j < n)%nat -> (lu_piv s j < n)%nat) by (intros j Hj; pose proof (inv_piv _ _ _ _ I j Hj); lia).
  destruct (sigma_onto n (lu_piv s) n (Nat.le_refl n) Pv r Hr) as (r' & Hr' & <-).
  rewrite (lu_apply n M s) by assumption. rewrite <- E1. unfold dgetrs.
  rewrite <- (dlaswp_eq nrhs n (lu_piv s) B r' c Hc). rewrite <- (llnu_spec n (lu_A s) (dlaswp nrhs n (lu_piv s) B) r' c Hr').
  apply vsum_ext. intros l Hl. f_equal. apply lunn_spec; [|exact Hl]. apply (inv_ok _ _ _ _ I E2).
Qed.
(** a vector in the kernel of an upper triangular matrix with a zero on the diagonal *)
Lemma upper_kernel (n j : nat) (U : matR) : (j < n)%nat -> U j j = 0 -> (forall k, (k < j)%nat -> U k k <> 0) ->
  exists v : nat -> R, v j = 1 /\ forall r, (r < n)%nat -> sum n (fun l => Uof U r l * v l) = 0.
Proof.
  intros Hj Z D. set (B := fun r (_ : nat) => - U r j). set (X := dtrsm_lunn (A := real) j U B).
  exists (fun l => if (l <? j)%nat then X l 0%nat else if (l =? j)%nat then 1 else 0).
  split; [nb; try lia; reflexivity|]. intros r Hr.
  rewrite (vsum_ext n _ (fun l => (if (l <? j)%nat then Uof U r l * X l 0%nat else 0) + (if (l =? j)%nat then Uof U r j else 0))).
  2:{ intros l Hl. nb; subst; try lia; lra. }
  rewrite vsum_plus, (sum_if_lt n j) by lia. rewrite (vsum_one n j (fun l => if (l =? j)%nat then Uof U r j else 0)) by (try lia; intros k Hk N; nb; try lia; reflexivity).
  rewrite Nat.eqb_refl. destruct (Nat.ltb_spec r j) as [H|H].
  - unfold X. rewrite lunn_spec by assumption. unfold B, Uof. nb; try lia. lra.
  - rewrite vsum_zero by (intros l Hl; unfold Uof; nb; try lia; lra). unfold Uof. destruct (Nat.eq_dec r j) as [->|N]; nb; try lia; [rewrite Z|]; lra.
Qed.
Lemma dgesv_singular n nrhs (M B : matR) piv X i : dgesv (A := real) n nrhs M B piv = (X, i) -> i <> 0%Z ->
  (1 <= i <= Z.of_nat n)%Z /\ (forall r c, X r c = B r c) /\
  exists v : nat -> R, (exists k, (k < n)%nat /\ v k <> 0) /\ forall r, (r < n)%nat -> sum n (fun k => M r k * v k) = 0.
Proof.
  unfold dgesv. cbv zeta. set (s := dgetf2 n (mkLu M piv 0)). intros E N. injection E as E1 E2. rewrite E2 in E1.
  assert (I : Inv n M n s) by apply inv_lu. assert (N' : lu_info s <> 0%Z) by congruence.
  destruct (inv_bad _ _ _ _ I N') as (j & J1 & J2 & J3 & J4).
  split; [lia|]. split.
  { intros r c. rewrite <- E1. destruct (Z.eqb_spec i 0); [contradiction|reflexivity]. }
  destruct (upper_kernel n j (lu_A s) J1 J2 J4) as (v & V1 & V2). exists v. split; [exists j; split; [exact J1|rewrite V1; lra]|].
  intros r Hr.
  assert (Pv : forall j, (j < n)%nat -> (lu_piv s j < n)%nat) by (intros k Hk; pose proof (inv_piv _ _ _ _ I k Hk); lia).
  destruct (sigma_onto n (lu_piv s) n (Nat.le_refl n) Pv r Hr) as (r' & Hr' & <-).
  rewrite (lu_apply n M s) by assumption. apply vsum_zero. intros l Hl. rewrite V2 by exact Hl. lra.
Qed.
(** the converse: with a vector in the kernel the solver reports a zero pivot *)
Lemma dgesv_flags n nrhs (M B : matR) piv (v : nat -> R) : (exists k, (k < n)%nat /\ v k <> 0) ->
  (forall r, (r < n)%nat -> sum n (fun k => M r k * v k) = 0) -> snd (dgesv (A := real) n nrhs M B piv) <> 0%Z.
Proof.
  intros (k0 & K0 & Vk) H E. unfold dgesv in E. cbv zeta in E. cbn [snd] in E. set (s := dgetf2 n (mkLu M piv 0)) in E.
  assert (I : Inv n M n s) by apply inv_lu.
  assert (Pv : forall j, (j < n)%nat -> (lu_piv s j < n)%nat) by (intros k Hk; pose proof (inv_piv _ _ _ _ I k Hk); lia).
  (* U v = 0, by forward induction, then v = 0 by backward induction *)
  assert (W : forall r, (r < n)%nat -> sum n (fun k => Uof (lu_A s) r k * v k) = 0).
  { intros r. induction r as [r IH] using lt_wf_ind. intros Hr.
    pose proof (lu_apply n M s v r I Hr) as Q. rewrite H in Q by (apply sigma_lt; [lia|assumption|exact Hr]).
    rewrite (vsum_one n r) in Q; [|exact Hr|].
    - unfold Lof in Q. rewrite Nat.eqb_refl in Q. lra.
    - intros l Hl N. unfold Lof. nb; try lia; [|lra]. rewrite IH by lia. lra. }
  assert (Zv : forall t, (t <= n)%nat -> forall l, (n - t <= l < n)%nat -> v l = 0).
  { induction t as [|t IH]; intros Ht l Hl; [lia|]. destruct (Nat.eq_dec l (n - S t)) as [->|N]; [|apply IH; lia].
    pose proof (W (n - S t)%nat ltac:(lia)) as Q. rewrite (vsum_one n (n - S t)) in Q; [|lia|].
    - unfold Uof in Q. rewrite Nat.leb_refl in Q. apply Rmult_integral in Q. destruct Q as [Q|Q]; [|exact Q].
      exfalso. apply (inv_ok _ _ _ _ I E (n - S t)%nat); [lia|exact Q].
    - intros k Hk N. unfold Uof. nb; [|lra]. rewrite IH by lia. lra. }
  apply Vk. apply (Zv n); lia.
Qed.
