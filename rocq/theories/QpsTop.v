(** The scaled QP computed by the model, entry by entry, and the map of solutions. *)
From Coq Require Import ZArith List Bool Lia Reals Lra Psatz.
From Verif Require Import Arith Vec LinModel QpsModel QpsSpec Poly RSum QpsProofs.
Open Scope R_scope.

Section Row.
Variables nx nu nb ng ns : nat.
Variables (DC : matR) (mask dv : vecR) (rev : nat -> Z).
(** the factor of general constraint [j] *)
Definition sfv (j : nat) : R :=
  1 / nmax (A := real) 1 (nmax (A := real) (nmax (A := real) (Rabs (mask (nb + j)%nat * dv (nb + j)%nat)) (Rabs (mask (2 * nb + ng + j)%nat * dv (2 * nb + ng + j)%nat)))
     (col_norm (A := real) j (nu + nx) DC)).
Lemma sfv_pos j : 0 < sfv j <= 1.
Proof.
  unfold sfv. rewrite (nmax_real 1). match goal with |- context [Rmax 1 ?b] => pose proof (Rmax_l 1 b) as H; revert H; generalize (Rmax 1 b) end.
  intros m H. split; [apply Rdiv_lt_0_compat; lra|]. apply Rmult_le_reg_r with m; [lra|]. unfold Rdiv. rewrite Rmult_assoc, Rinv_l; lra.
Qed.
(** factor accumulated by slack [k] over the first [n] constraints *)
Fixpoint sprod (n k : nat) : R :=
  match n with O => 1 | S j => sprod j k * (if (rev (nb + j)%nat =? Z.of_nat k)%Z then sfv j else 1) end.
Lemma sprod_pos n k : 0 < sprod n k.
Proof. induction n as [|n IH]; cbn; [lra|]. apply Rmult_lt_0_compat; [exact IH|]. destruct (_ =? _)%Z; [apply sfv_pos|lra]. Qed.
Lemma sprod_one n k : (forall j, (j < n)%nat -> rev (nb + j)%nat <> Z.of_nat k) -> sprod n k = 1.
Proof.
  induction n as [|n IH]; intros H; cbn; [reflexivity|]. rewrite IH by (intros; apply H; lia).
  destruct (Z.eqb_spec (rev (nb + n)%nat) (Z.of_nat k)) as [E|E]; [exfalso; exact (H n ltac:(lia) E)|lra].
Qed.
Lemma sprod_own n k j : (j < n)%nat -> rev (nb + j)%nat = Z.of_nat k -> (forall l, (l < n)%nat -> l <> j -> rev (nb + l)%nat <> Z.of_nat k) -> sprod n k = sfv j.
Proof.
  induction n as [|n IH]; intros Hj E H; [lia|]. cbn. destruct (Nat.eq_dec j n) as [->|N].
  - rewrite sprod_one by (intros l Hl; apply H; lia). rewrite E, Z.eqb_refl. lra.
  - rewrite IH by (try assumption; try lia; intros; apply H; lia). destruct (Z.eqb_spec (rev (nb + n)%nat) (Z.of_nat k)) as [E2|_]; [exfalso; exact (H n ltac:(lia) ltac:(lia) E2)|lra].
Qed.

Hypothesis Rv : forall j, (j < ng)%nat -> (rev (nb + j)%nat = -1 \/ 0 <= rev (nb + j)%nat < Z.of_nat ns)%Z.
Variable s0 : cst real.
Definition sd (up : bool) : nat := if up then ns else 0%nat.
Definition low_d (n m : nat) : R :=
  if (nb <=? m)%nat && (m <? nb + n)%nat && eq1 (A := real) (mask m) then sfv (m - nb) * c_d s0 m
  else if (2 * nb + ng <=? m)%nat && (m <? 2 * nb + ng + n)%nat && eq1 (A := real) (mask m) then sfv (m - (2 * nb + ng)) * c_d s0 m
  else c_d s0 m.
Definition inv (n : nat) (s : cst real) : Prop :=
  (forall j, (c_sc s j : R) = if (j <? n)%nat then sfv j else c_sc s0 j) /\
  (forall r c, (c_DC s r c : R) = if (r <? nu + nx)%nat && (c <? n)%nat then sfv c * DC r c else c_DC s0 r c) /\
  (forall m, (m < 2 * (nb + ng))%nat -> (c_d s m : R) = low_d n m) /\
  (forall k up, (k < ns)%nat -> (c_d s (2 * (nb + ng) + (sd up + k))%nat : R) = sprod n k * c_d s0 (2 * (nb + ng) + (sd up + k))%nat) /\
  (forall r, (r < nu + nx)%nat -> c_rqz s r = c_rqz s0 r) /\
  (forall k up, (k < ns)%nat -> (c_rqz s (nu + nx + (sd up + k))%nat : R) = c_rqz s0 (nu + nx + (sd up + k))%nat / sprod n k) /\
  (forall k up, (k < ns)%nat -> (c_Z s (sd up + k)%nat : R) = c_Z s0 (sd up + k)%nat / (sprod n k * sprod n k)).
Lemma vmul_eq k a (v : vecR) i : vmul (A := real) k a v i = if (i =? k)%nat then v k * a else v i.
Proof. reflexivity. Qed.
Lemma vdiv_eq k a (v : vecR) i : vdiv (A := real) k a v i = if (i =? k)%nat then v k / a else v i.
Proof. reflexivity. Qed.
Ltac eqs := repeat match goal with |- context [(?a =? ?b)%nat] => destruct (Nat.eqb_spec a b); [try lia|try lia] end.
Lemma eq1_true x : eq1 (A := real) x = true <-> x = 1.
Proof. unfold eq1. cbn. destruct (Rleb_spec x 1), (Rleb_spec 1 x); cbn; split; intros; try discriminate; try reflexivity; lra. Qed.

Lemma low_step n (d1 : vecR) : (n < ng)%nat -> (forall m, (m < 2 * (nb + ng))%nat -> d1 m = low_d n m) ->
  let d2 := if eq1 (A := real) (mask (nb + n)%nat) then vmul (A := real) (nb + n) (sfv n) d1 else d1 in
  let d3 := if eq1 (A := real) (mask (2 * nb + ng + n)%nat) then vmul (A := real) (2 * nb + ng + n) (sfv n) d2 else d2 in
  (forall m, (m < 2 * (nb + ng))%nat -> d3 m = low_d (S n) m) /\ (forall m, (2 * (nb + ng) <= m)%nat -> d3 m = d1 m).
Proof.
  intros Hn H d2 d3.
  assert (E : forall m, d3 m = if (m =? nb + n)%nat && eq1 (A := real) (mask m) then d1 m * sfv n
    else if (m =? 2 * nb + ng + n)%nat && eq1 (A := real) (mask m) then d1 m * sfv n else d1 m).
  { intros m. unfold d3, d2. destruct (Nat.eqb_spec m (nb + n)) as [->|N1]; cbn [andb].
    - destruct (Nat.eqb_spec (nb + n) (2 * nb + ng + n)) as [E|_]; [lia|]. cbn [andb].
      destruct (eq1 (mask (nb + n)%nat)), (eq1 (mask (2 * nb + ng + n)%nat)); rewrite ?vmul_eq; eqs; reflexivity.
    - destruct (Nat.eqb_spec m (2 * nb + ng + n)) as [->|N2]; cbn [andb];
      destruct (eq1 (mask (nb + n)%nat)), (eq1 (mask (2 * nb + ng + n)%nat)); rewrite ?vmul_eq; eqs; reflexivity. }
  split; intros m Hm; rewrite E.
  - rewrite (H m Hm). unfold low_d. destruct (eq1 (mask m)); rewrite ?andb_true_r, ?andb_false_r; [|reflexivity].
    destruct (Nat.eqb_spec m (nb + n)) as [N1|N1]; [|destruct (Nat.eqb_spec m (2 * nb + ng + n)) as [N2|N2]];
    repeat match goal with |- context [(?a <? ?b)%nat] => destruct (Nat.ltb_spec a b); try lia | |- context [(?a <=? ?b)%nat] => destruct (Nat.leb_spec a b); try lia end;
    cbn [andb]; try reflexivity.
    + replace (m - nb)%nat with n by lia. apply Rmult_comm.
    + replace (m - (2 * nb + ng))%nat with n by lia. apply Rmult_comm.
  - eqs; reflexivity.
Qed.
Lemma row_inv n s : (n < ng)%nat -> inv n s -> inv (S n) (scale_row (A := real) nx nu nb ng ns DC mask dv rev n s).
Proof.
  intros Hn (I1 & I2 & I3 & I4 & I5 & I6 & I7).
  unfold scale_row. cbv zeta. change (1 / nmax 1 _)%num with (sfv n).
  pose proof (sfv_pos n) as Sp.
  assert (J1 : forall j, vset (A := real) (c_sc s) n (sfv n) j = if (j <? S n)%nat then sfv j else c_sc s0 j).
  { intros j. unfold vset. destruct (Nat.eqb_spec j n) as [->|]; [destruct (Nat.ltb_spec n (S n)); [reflexivity|lia]|]. rewrite I1.
    destruct (Nat.ltb_spec j n), (Nat.ltb_spec j (S n)); try lia; reflexivity. }
  assert (J2 : forall r c, (if (r <? nu + nx)%nat && (c =? n)%nat then (sfv n * DC r c)%R else c_DC s r c) = if (r <? nu + nx)%nat && (c <? S n)%nat then sfv c * DC r c else c_DC s0 r c).
  { intros r c. destruct (Nat.ltb_spec r (nu + nx)) as [Lr|Lr]; cbn [andb].
    - destruct (Nat.eqb_spec c n) as [->|]; [destruct (Nat.ltb_spec n (S n)); [reflexivity|lia]|]. rewrite I2. destruct (Nat.ltb_spec r (nu + nx)); [|lia].
      cbn [andb]. destruct (Nat.ltb_spec c n), (Nat.ltb_spec c (S n)); try lia; reflexivity.
    - rewrite I2. destruct (Nat.ltb_spec r (nu + nx)); [lia|]. reflexivity. }
  destruct (Rv n Hn) as [E|E].
  - (* no slack *) rewrite E. change (-1 =? -1)%Z with true. cbn [negb c_d c_rqz c_Z c_DC c_sc].
    assert (P1 : forall k, sprod (S n) k = sprod n k).
    { intros k. cbn [sprod]. rewrite E. destruct (Z.eqb_spec (-1) (Z.of_nat k)); [lia|lra]. }
    destruct (low_step n (c_d s) Hn I3) as [L1 L2].
    unfold inv. cbn [c_d c_rqz c_Z c_DC c_sc]. repeat apply conj.
    + exact J1.
    + exact J2.
    + exact L1.
    + intros k up Hk. rewrite P1, <- (I4 k up Hk). apply L2. lia.
    + exact I5.
    + intros k up Hk. rewrite P1. apply I6, Hk.
    + intros k up Hk. rewrite P1. apply I7, Hk.
  - (* own slack *)
    destruct (Z.eqb_spec (rev (nb + n)%nat) (-1)) as [E2|_]; [lia|]. cbn [negb c_d c_rqz c_Z c_DC c_sc].
    set (e := Z.to_nat (rev (nb + n)%nat)). assert (He : (e < ns)%nat) by (unfold e; lia).
    assert (P1 : forall k, sprod (S n) k = sprod n k * (if (k =? e)%nat then sfv n else 1)).
    { intros k. cbn [sprod]. destruct (Z.eqb_spec (rev (nb + n)%nat) (Z.of_nat k)), (Nat.eqb_spec k e); unfold e in *; try lia; reflexivity. }
    set (d1 := vmul (A := real) (2 * (nb + ng) + ns + e) (sfv n) (vmul (A := real) (2 * (nb + ng) + e) (sfv n) (c_d s))).
    destruct (low_step n d1 Hn) as [L1 L2].
    { intros m Hm. unfold d1. rewrite !vmul_eq. eqs. apply I3, Hm. }
    unfold inv. cbn [c_d c_rqz c_Z c_DC c_sc]. repeat apply conj.
    + exact J1.
    + exact J2.
    + exact L1.
    + intros k up Hk. rewrite P1. etransitivity; [apply L2; lia|]. unfold d1. rewrite !vmul_eq.
      pose proof (I4 k up Hk) as G. unfold sd in *. destruct up; cbn [Nat.add] in *; eqs; rewrite ?Rmult_1_r, G || idtac; subst.
      all: try (replace (2 * (nb + ng) + ns + e)%nat with (2 * (nb + ng) + (ns + e))%nat by lia).
      all: rewrite ?G; rng.
    + intros r Hr. rewrite !vdiv_eq. eqs. apply I5, Hr.
    + intros k up Hk. rewrite P1, !vdiv_eq. pose proof (I6 k up Hk) as G. pose proof (sprod_pos n k). unfold sd in *. destruct up; cbn [Nat.add] in *; eqs; subst.
      all: try (replace (nu + nx + ns + e)%nat with (nu + nx + (ns + e))%nat by lia).
      all: rewrite ?G; rR; fld; lra.
    + intros k up Hk. rewrite P1, !vdiv_eq. pose proof (I7 k up Hk) as G. pose proof (sprod_pos n k). unfold sd in *. destruct up; cbn [Nat.add] in *; eqs; subst.
      all: rewrite ?G; rR; rr; fld; lra.
Qed.
Lemma rows_inv n : (n <= ng)%nat -> inv n (loop n (scale_row (A := real) nx nu nb ng ns DC mask dv rev) s0).
Proof.
  induction n as [|n IH]; intros Hn; cbn [loop]; [|apply row_inv; [lia|apply IH; lia]].
  unfold inv. repeat apply conj; try (intros; reflexivity).
  - intros r c. destruct (c <? 0)%nat eqn:E; [apply Nat.ltb_lt in E; lia|]. rewrite andb_false_r. reflexivity.
  - intros m Hm. unfold low_d. repeat match goal with |- context [(?a <? ?b)%nat] => destruct (Nat.ltb_spec a b); try lia | |- context [(?a <=? ?b)%nat] => destruct (Nat.leb_spec a b); try lia end; reflexivity.
  - intros. cbn [sprod]. rng.
  - intros. cbn [sprod]. rR. fld.
  - intros. cbn [sprod]. rR. fld.
Qed.
End Row.

(** undoing the scaling, one stage *)
Section Back.
Variables nx nu nb ng ns : nat.
Variables (DC : matR) (mask dv : vecR) (rev : nat -> Z).
Hypothesis Rv : forall j, (j < ng)%nat -> (rev (nb + j)%nat = -1 \/ 0 <= rev (nb + j)%nat < Z.of_nat ns)%Z.
Notation sfv := (sfv nx nu nb ng DC mask dv). Notation sprod := (sprod nx nu nb ng DC mask dv rev).
Variable sc : vecR.
Hypothesis Hsc : forall j, (j < ng)%nat -> sc j = sfv j.
Variables lam0 ux0 : vecR.
Definition back_low (n m : nat) : R :=
  if (nb <=? m)%nat && (m <? nb + n)%nat then sfv (m - nb) * lam0 m
  else if (2 * nb + ng <=? m)%nat && (m <? 2 * nb + ng + n)%nat then sfv (m - (2 * nb + ng)) * lam0 m else lam0 m.
Definition binv (n : nat) (s : vecR * vecR) : Prop :=
  (forall m, (m < 2 * (nb + ng))%nat -> fst s m = back_low n m) /\
  (forall k up, (k < ns)%nat -> fst s (2 * (nb + ng) + (sd ns up + k))%nat = sprod n k * lam0 (2 * (nb + ng) + (sd ns up + k))%nat) /\
  (forall r, (r < nu + nx)%nat -> snd s r = ux0 r) /\
  (forall k up, (k < ns)%nat -> snd s (nu + nx + (sd ns up + k))%nat = ux0 (nu + nx + (sd ns up + k))%nat / sprod n k).
Ltac eqs := repeat match goal with |- context [(?a =? ?b)%nat] => destruct (Nat.eqb_spec a b); [try lia|try lia] end.
Lemma back_step n (l1 : vecR) : (n < ng)%nat -> (forall m, (m < 2 * (nb + ng))%nat -> l1 m = back_low n m) ->
  let l3 := vmul (A := real) (2 * nb + ng + n) (sfv n) (vmul (A := real) (nb + n) (sfv n) l1) in
  (forall m, (m < 2 * (nb + ng))%nat -> l3 m = back_low (S n) m) /\ (forall m, (2 * (nb + ng) <= m)%nat -> l3 m = l1 m).
Proof.
  intros Hn H l3. unfold l3. split; intros m Hm; rewrite !vmul_eq.
  - destruct (Nat.eqb_spec m (nb + n)) as [N1|N1]; destruct (Nat.eqb_spec m (2 * nb + ng + n)) as [N2|N2]; try lia; subst; eqs; rewrite (H _ Hm); unfold back_low;
    repeat match goal with |- context [(?a <? ?b)%nat] => destruct (Nat.ltb_spec a b); try lia | |- context [(?a <=? ?b)%nat] => destruct (Nat.leb_spec a b); try lia end;
    cbn [andb]; try reflexivity.
    + replace (nb + n - nb)%nat with n by lia. apply Rmult_comm.
    + replace (2 * nb + ng + n - (2 * nb + ng))%nat with n by lia. apply Rmult_comm.
  - eqs; reflexivity.
Qed.
Lemma back_inv n s : (n < ng)%nat -> binv n s -> binv (S n) (rescale_row (A := real) nx nu nb ng ns rev sc n s).
Proof.
  intros Hn (I1 & I2 & I3 & I4). unfold rescale_row. cbv zeta. rewrite (Hsc n Hn). pose proof (sfv_pos nx nu nb ng DC mask dv n) as Sp.
  destruct (back_step n (fst s) Hn I1) as [L1 L2]. destruct (Rv n Hn) as [E|E].
  - rewrite E. change (0 <=? -1)%Z with false. cbv iota.
    assert (P1 : forall k, sprod (S n) k = sprod n k).
    { intros k. cbn [QpsTop.sprod]. rewrite E. destruct (Z.eqb_spec (-1) (Z.of_nat k)); [lia|lra]. }
    unfold binv. cbn [fst snd]. repeat apply conj.
    + exact L1.
    + intros k up Hk. rewrite P1, <- (I2 k up Hk). apply L2. lia.
    + exact I3.
    + intros k up Hk. rewrite P1. apply I4, Hk.
  - destruct (Z.leb_spec 0 (rev (nb + n)%nat)) as [_|?]; [|lia].
    set (e := Z.to_nat (rev (nb + n)%nat)). assert (He : (e < ns)%nat) by (unfold e; lia).
    assert (P1 : forall k, sprod (S n) k = sprod n k * (if (k =? e)%nat then sfv n else 1)).
    { intros k. cbn [QpsTop.sprod]. destruct (Z.eqb_spec (rev (nb + n)%nat) (Z.of_nat k)), (Nat.eqb_spec k e); unfold e in *; try lia; reflexivity. }
    set (l3 := vmul (A := real) (2 * nb + ng + n) (sfv n) (vmul (A := real) (nb + n) (sfv n) (fst s))) in L1, L2.
    repeat match goal with |- context [vmul (2 * nb + ng + n) ?a ?b] => change (vmul (2 * nb + ng + n) a b) with l3 end. clearbody l3.
    unfold binv. cbn [fst snd]. repeat apply conj.
    + intros m Hm. rewrite !vmul_eq. eqs. apply L1, Hm.
    + intros k up Hk. rewrite P1, !vmul_eq. pose proof (I2 k up Hk) as G. rewrite <- L2 in G by lia. unfold sd in *. destruct up; cbn [Nat.add] in *; eqs; subst.
      all: try (replace (2 * nb + 2 * ng + ns + e)%nat with (2 * (nb + ng) + (ns + e))%nat by lia).
      all: try (replace (2 * nb + 2 * ng + e)%nat with (2 * (nb + ng) + e)%nat by lia).
      all: rewrite ?G; rng.
    + intros r Hr. rewrite !vdiv_eq. eqs. apply I3, Hr.
    + intros k up Hk. rewrite P1, !vdiv_eq. pose proof (I4 k up Hk) as G. pose proof (sprod_pos nx nu nb ng DC mask dv rev n k). unfold sd in *. destruct up; cbn [Nat.add] in *; eqs; subst.
      all: try (replace (nx + nu + ns + e)%nat with (nu + nx + (ns + e))%nat by lia).
      all: try (replace (nx + nu + e)%nat with (nu + nx + e)%nat by lia).
      all: rR; rewrite ?G; fld; lra.
Qed.
Lemma backs_inv n : (n <= ng)%nat -> binv n (loop n (rescale_row (A := real) nx nu nb ng ns rev sc) (lam0, ux0)).
Proof.
  induction n as [|n IH]; intros Hn; cbn [loop]; [|apply back_inv; [lia|apply IH; lia]].
  unfold binv. cbn [fst snd]. repeat apply conj; try (intros; reflexivity).
  - intros m Hm. unfold back_low. repeat match goal with |- context [(?a <? ?b)%nat] => destruct (Nat.ltb_spec a b); try lia | |- context [(?a <=? ?b)%nat] => destruct (Nat.leb_spec a b); try lia end; reflexivity.
  - intros. cbn [QpsTop.sprod]. rng.
  - intros. cbn [QpsTop.sprod]. rR. fld.
Qed.
End Back.
