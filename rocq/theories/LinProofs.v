(** The LU solver of math.c in exact arithmetic. *)
From Coq Require Import ZArith List Bool Lia Reals Lra Psatz.
From Verif Require Import Arith Vec LinModel.
Import ListNotations.
Open Scope R_scope.

Notation sum := (vsum (A := real)).
Notation matR := (nat -> nat -> R).

Ltac nb := repeat match goal with
  | |- context [Nat.eqb ?a ?b] => destruct (Nat.eqb_spec a b)
  | |- context [Nat.ltb ?a ?b] => destruct (Nat.ltb_spec a b)
  | |- context [Nat.leb ?a ?b] => destruct (Nat.leb_spec a b)
  end; cbn [andb orb negb].

Lemma nonzero_real x : nonzero (A := real) x = true <-> x <> 0.
Proof. unfold nonzero; cbn. destruct (Rleb_spec x 0), (Rleb_spec 0 x); cbn; split; intros; try lra; try reflexivity; discriminate. Qed.
Lemma nonzero_real_f x : nonzero (A := real) x = false <-> x = 0.
Proof. unfold nonzero; cbn. destruct (Rleb_spec x 0), (Rleb_spec 0 x); cbn; split; intros; try lra; try reflexivity; discriminate. Qed.
Lemma cabs_real x : cabs (A := real) x = Rabs x.
Proof. unfold cabs; cbn. destruct (Rltb_spec 0 x); [rewrite Rabs_pos_eq|rewrite Rabs_left1]; lra. Qed.

(** *** idamax *)
Lemma idamax_spec (n : nat) (x : nat -> R) : (0 < n)%nat ->
  (idamax (A := real) n x < n)%nat /\ (forall k, (k < n)%nat -> Rabs (x k) <= Rabs (x (idamax (A := real) n x))) /\
  (idamax (A := real) n x <> 0%nat -> Rabs (x 0%nat) < Rabs (x (idamax (A := real) n x))).
Proof.
  intros Hn. unfold idamax. destruct (Nat.leb_spec n 1) as [H1|H1].
  - split; [lia|]. split; [|congruence]. intros k Hk. replace k with 0%nat by lia. lra.
  - set (f := fun k (s : R * nat) => let d := cabs (A := real) (x (S k)) in if Rltb (fst s) d then (d, S k) else s).
    assert (I : forall m, (S m <= n)%nat -> let s := loop m f (Rabs (x 0%nat), 0%nat) in
      fst s = Rabs (x (snd s)) /\ (snd s < S m)%nat /\ (forall k, (k <= m)%nat -> Rabs (x k) <= fst s) /\ (snd s <> 0%nat -> Rabs (x 0%nat) < fst s)).
    { induction m as [|m IH]; intros Hm; cbn [loop].
      - cbn [fst snd]. split; [reflexivity|]. split; [lia|]. split; [|congruence]. intros k Hk. replace k with 0%nat by lia. apply Rle_refl.
      - cbv zeta. specialize (IH ltac:(lia)). cbv zeta in IH. destruct (loop m f (Rabs (x 0%nat), 0%nat)) as [v i]. cbn [fst snd] in IH.
        destruct IH as (E & B & G & Z). unfold f. cbv zeta. cbn [fst snd]. rewrite cabs_real. pose proof (G 0%nat ltac:(lia)) as G0.
        destruct (Rltb_spec v (Rabs (x (S m)))) as [L|L]; cbn [fst snd].
        + split; [reflexivity|]. split; [lia|]. split; [|intros _; lra]. intros k Hk. destruct (Nat.eq_dec k (S m)) as [->|N]; [lra|]. specialize (G k ltac:(lia)). lra.
        + split; [exact E|]. split; [lia|]. split; [|exact Z]. intros k Hk. destruct (Nat.eq_dec k (S m)) as [->|N]; [lra|]. apply G. lia. }
    specialize (I (n - 1)%nat ltac:(lia)). cbv zeta in I. destruct I as (E & B & G & Z).
    change (fun k (s : num real * nat) => let d := cabs (x (S k)) in if nltb (fst s) d then (d, S k) else s) with f.
    change (num real) with R in *. rewrite (cabs_real (x 0%nat)). rewrite E in G, Z.
    replace (S (n - 1)) with n in B by lia. split; [exact B|]. split; [|exact Z]. intros k Hk. apply G. lia.
Qed.
Lemma idamax_first (n : nat) (x : nat -> R) : (0 < n)%nat -> x (idamax (A := real) n x) = 0 -> idamax (A := real) n x = 0%nat.
Proof.
  intros Hn H. destruct (idamax_spec n x Hn) as (_ & _ & Z). destruct (Nat.eq_dec (idamax (A := real) n x) 0) as [E|E]; [exact E|].
  specialize (Z E). rewrite H, Rabs_R0 in Z. pose proof (Rabs_pos (x 0%nat)). lra.
Qed.
Lemma idamax_zero (n : nat) (x : nat -> R) : (0 < n)%nat -> x (idamax (A := real) n x) = 0 -> forall k, (k < n)%nat -> x k = 0.
Proof.
  intros Hn H k Hk. destruct (idamax_spec n x Hn) as (_ & M & _). specialize (M k Hk). rewrite H, Rabs_R0 in M.
  assert (Rabs (x k) = 0) by (pose proof (Rabs_pos (x k)); lra). destruct (Req_dec (x k) 0); [assumption|]. pose proof (Rabs_no_R0 _ H1). lra.
Qed.

(** *** row interchanges *)
Definition tau (i p r : nat) : nat := if (r =? i)%nat then p else if (r =? p)%nat then i else r.
Fixpoint sigma (piv : nat -> nat) (k r : nat) : nat := match k with O => r | S j => sigma piv j (tau j (piv j) r) end.
Lemma if_swap_eq {A : arith} c0 c1 i p (X : nat -> nat -> num A) r c :
  if_swap c0 c1 i p X r c = if (c0 <=? c)%nat && (c <? c1)%nat then X (tau i p r) c else X r c.
Proof.
  unfold if_swap, swap_rows, tau. destruct (Nat.eqb_spec p i) as [->|N].
  - destruct (_ && _); [|reflexivity]. destruct (Nat.eqb_spec r i) as [->|]; reflexivity.
  - destruct (_ && _); [|reflexivity]. nb; reflexivity.
Qed.
Lemma tau_lt n i p r : (i < n)%nat -> (p < n)%nat -> (r < n)%nat -> (tau i p r < n)%nat.
Proof. unfold tau. nb; auto. Qed.
Lemma tau_tau i p r : tau i p (tau i p r) = r.
Proof. unfold tau. destruct (Nat.eqb_spec r i) as [->|N1]; [nb; subst; congruence|]. destruct (Nat.eqb_spec r p) as [->|N2]; nb; subst; try congruence; lia. Qed.
Lemma sigma_ext piv piv' k : (forall j, (j < k)%nat -> piv j = piv' j) -> forall r, sigma piv k r = sigma piv' k r.
Proof. induction k as [|k IH]; intros H r; [reflexivity|]. cbn. rewrite (H k) by lia. apply IH. intros; apply H; lia. Qed.
Lemma sigma_lt n piv k : (k <= n)%nat -> (forall j, (j < k)%nat -> (piv j < n)%nat) -> forall r, (r < n)%nat -> (sigma piv k r < n)%nat.
Proof.
  induction k as [|k IH]; intros Hk H r Hr; [exact Hr|]. cbn. apply IH; [lia|intros; apply H; lia|]. apply tau_lt; [lia|apply H; lia|exact Hr].
Qed.
Lemma sigma_onto n piv k : (k <= n)%nat -> (forall j, (j < k)%nat -> (piv j < n)%nat) -> forall r, (r < n)%nat -> exists r', (r' < n)%nat /\ sigma piv k r' = r.
Proof.
  induction k as [|k IH]; intros Hk H r Hr; [exists r; auto|].
  destruct (IH ltac:(lia) ltac:(intros; apply H; lia) r Hr) as (r' & L & E). exists (tau k (piv k) r'). split.
  - apply tau_lt; [lia|apply H; lia|exact L].
  - cbn. rewrite tau_tau. exact E.
Qed.
Lemma laswp_block_eq {A : arith} c0 c1 piv (X : nat -> nat -> num A) : forall n r c,
  laswp_block c0 c1 n piv X r c = if (c0 <=? c)%nat && (c <? c1)%nat then X (sigma piv n r) c else X r c.
Proof.
  unfold laswp_block. induction n as [|n IH]; intros r c; cbn [loop sigma]; [destruct (_ && _); reflexivity|].
  rewrite if_swap_eq. rewrite !IH. destruct (_ && _); reflexivity.
Qed.
Lemma dlaswp_eq {A : arith} nrhs n piv (X : nat -> nat -> num A) r c : (c < nrhs)%nat -> dlaswp nrhs n piv X r c = X (sigma piv n r) c.
Proof.
  intros Hc. unfold dlaswp.
  set (X1 := loop (nrhs / 32) _ X).
  assert (E : forall b r c, loop b (fun b X => laswp_block (b * 32) (b * 32 + 32) n piv X) X r c = if (c <? b * 32)%nat then X (sigma piv n r) c else X r c).
  { induction b as [|b IH]; intros r' c'; cbn [loop]; [destruct (Nat.ltb_spec c' (0 * 32)); [lia|reflexivity]|].
    rewrite laswp_block_eq, !IH. destruct (Nat.leb_spec (b * 32) c'), (Nat.ltb_spec c' (b * 32 + 32)), (Nat.ltb_spec c' (S b * 32)), (Nat.ltb_spec c' (b * 32)); cbn [andb]; try lia; reflexivity. }
  cbv zeta. pose proof (Nat.div_mod nrhs 32 ltac:(lia)). pose proof (Nat.mod_upper_bound nrhs 32 ltac:(lia)).
  destruct (Nat.eqb_spec (nrhs / 32 * 32) nrhs) as [Q|Q].
  - unfold X1. rewrite E. destruct (Nat.ltb_spec c (nrhs / 32 * 32)); [reflexivity|lia].
  - rewrite laswp_block_eq. unfold X1. rewrite !E.
    destruct (Nat.leb_spec (nrhs / 32 * 32) c), (Nat.ltb_spec c nrhs), (Nat.ltb_spec c (nrhs / 32 * 32)); cbn [andb]; try lia; reflexivity.
Qed.

(** *** the factorisation *)
Definition Lof (S : matR) (r l : nat) : R := if (r =? l)%nat then 1 else if (l <? r)%nat then S r l else 0.
Definition Uof (S : matR) (l c : nat) : R := if (l <=? c)%nat then S l c else 0.

Lemma scale_col_eq n j (X : matR) r c : X j j <> 0 ->
  scale_col (A := real) n j X r c = if (c =? j)%nat && (j <? r)%nat && (r <? n)%nat then X r c / X j j else X r c.
Proof.
  intros D. unfold scale_col. destruct (Nat.ltb_spec (j + 1) n) as [H|H].
  - cbv zeta. destruct (nleb _ _); destruct (_ && _); cbn; try reflexivity. field. exact D.
  - nb; try reflexivity. lia.
Qed.
Section LU.
Variable n : nat.
Variable A0 : matR.
Record Inv (j : nat) (s : lu real) : Prop := {
  inv_piv : forall k, (k < j)%nat -> (k <= lu_piv s k < n)%nat;
  inv_fac : forall r c, (r < n)%nat -> (c < n)%nat ->
    A0 (sigma (lu_piv s) j r) c =
    sum j (fun l => Lof (lu_A s) r l * Uof (lu_A s) l c) + (if (j <=? r)%nat && (j <=? c)%nat then lu_A s r c else 0);
  inv_ok : lu_info s = 0%Z -> forall l, (l < j)%nat -> lu_A s l l <> 0;
  inv_bad : lu_info s <> 0%Z -> exists l, (l < j)%nat /\ lu_A s l l = 0 /\ lu_info s = Z.of_nat (l + 1) /\ forall k, (k < l)%nat -> lu_A s k k <> 0 }.
Lemma inv_init piv : Inv 0 (mkLu A0 piv 0).
Proof.
  constructor; cbn; intros; try lia; try congruence. lra.
Qed.
Lemma inv_step j s : (j < n)%nat -> Inv j s -> Inv (S j) (lu_step n j s).
Proof.
  intros Hj I. unfold lu_step. set (X := lu_A s). set (jp := (j + idamax (A := real) (n - j) (fun i => X (j + i)%nat j))%nat).
  destruct (idamax_spec (n - j) (fun i => X (j + i)%nat j) ltac:(lia)) as (B1 & B2 & _).
  assert (Hjp : (j <= jp < n)%nat) by (unfold jp; lia).
  set (piv := fun k => if (k =? j)%nat then jp else lu_piv s k).
  assert (Sg : forall r, sigma piv j r = sigma (lu_piv s) j r).
  { apply sigma_ext. intros k Hk. unfold piv. destruct (Nat.eqb_spec k j); [lia|reflexivity]. }
  assert (Pv : forall k, (k < S j)%nat -> (k <= piv k < n)%nat).
  { intros k Hk. unfold piv. destruct (Nat.eqb_spec k j) as [->|N]; [exact Hjp|]. apply I. lia. }
  (* the state after the interchange *)
  set (X1 := if_swap (A := real) 0 n j jp X).
  assert (EX1 : forall r c, (c < n)%nat -> X1 r c = X (tau j jp r) c).
  { intros r c Hc. unfold X1. rewrite if_swap_eq. nb; try lia. reflexivity. }
  assert (F1 : forall r c, (r < n)%nat -> (c < n)%nat -> A0 (sigma piv (S j) r) c =
      sum j (fun l => Lof X1 r l * Uof X1 l c) + (if (j <=? r)%nat && (j <=? c)%nat then X1 r c else 0)).
  { intros r c Hr Hc. cbn [sigma]. replace (piv j) with jp by (unfold piv; rewrite Nat.eqb_refl; reflexivity). rewrite Sg.
    rewrite (inv_fac j s I) by (try apply tau_lt; lia). fold X. f_equal.
    - apply vsum_ext. intros l Hl. f_equal.
      + unfold Lof. rewrite EX1 by lia. unfold tau. nb; subst; try lia; reflexivity.
      + unfold Uof. rewrite EX1 by lia. unfold tau. nb; subst; try lia; reflexivity.
    - rewrite EX1 by lia. unfold tau. nb; subst; try lia; reflexivity. }
  destruct (nonzero (X jp j)) eqn:NZ.
  - apply nonzero_real in NZ.
    assert (D : X1 j j <> 0) by (rewrite EX1 by lia; unfold tau; rewrite Nat.eqb_refl; exact NZ).
    set (X2 := scale_col (A := real) n j X1). set (X3 := trail (A := real) n j X2).
    assert (E2 : forall r c, X2 r c = if (c =? j)%nat && (j <? r)%nat && (r <? n)%nat then X1 r c / X1 j j else X1 r c)
      by (intros; apply scale_col_eq, D).
    assert (E3 : forall r c, (r < n)%nat -> (c < n)%nat -> X3 r c =
      if (j <? r)%nat && (j <? c)%nat then X1 r c - X1 r j / X1 j j * X1 j c else if (j <? r)%nat && (c =? j)%nat then X1 r c / X1 j j else X1 r c).
    { intros r c Hr Hc. unfold X3, trail. rewrite !E2. nb; try lia; try reflexivity. change (@nadd real) with Rplus; change (@nmul real) with Rmult; change (@nopp real) with Ropp; change (@n1 real) with 1. lra. }
    constructor; cbn [lu_A lu_piv lu_info]; fold X1 X2 X3.
    + exact Pv.
    + intros r c Hr Hc. rewrite F1 by assumption. cbn [vsum]. change (@nadd real) with Rplus.
      rewrite (vsum_ext j (fun l => Lof X3 r l * Uof X3 l c) (fun l => Lof X1 r l * Uof X1 l c)).
      2:{ intros l Hl. unfold Lof, Uof. rewrite !E3 by lia. nb; subst; try lia; try reflexivity; lra. }
      generalize (sum j (fun l => Lof X1 r l * Uof X1 l c)); intros sm. unfold Lof, Uof. rewrite !E3 by lia. nb; subst; try lia; try lra. field. exact D.
    + intros H l Hl. rewrite E3 by lia. destruct (Nat.eq_dec l j) as [->|N].
      * nb; try lia; assumption.
      * nb; try lia. rewrite EX1 by lia. unfold tau. nb; try lia. apply (inv_ok j s I H). lia.
    + intros H. destruct (inv_bad j s I H) as (l & L1 & L2 & L3 & L4). exists l. split; [lia|].
      assert (Q : forall k, (k < j)%nat -> X3 k k = X k k) by (intros k Hk; rewrite E3 by lia; nb; try lia; rewrite EX1 by lia; unfold tau; nb; try lia; reflexivity).
      rewrite Q by lia. split; [exact L2|]. split; [exact L3|]. intros k Hk. rewrite Q by lia. apply L4. exact Hk.
  - apply nonzero_real_f in NZ.
    assert (Z : forall r, (j <= r < n)%nat -> X r j = 0).
    { intros r Hr. pose proof (idamax_zero (n - j) (fun i => X (j + i)%nat j) ltac:(lia) NZ (r - j) ltac:(lia)) as Q. cbn beta in Q. replace (j + (r - j))%nat with r in Q by lia. exact Q. }
    set (X3 := trail (A := real) n j X).
    assert (E3 : forall r c, (r < n)%nat -> (c < n)%nat -> X3 r c = X r c).
    { intros r c Hr Hc. unfold X3, trail. nb; try lia; try reflexivity. rewrite (Z r) by lia. change (@nadd real) with Rplus; change (@nmul real) with Rmult. lra. }
    assert (J : jp = j).
    { pose proof (idamax_first (n - j) (fun i => X (j + i)%nat j) ltac:(lia) NZ). lia. }
    assert (EX : forall r c, (c < n)%nat -> X1 r c = X r c) by (intros r c Hc; rewrite EX1 by exact Hc; rewrite J; unfold tau; destruct (Nat.eqb_spec r j) as [->|]; reflexivity).
    constructor; cbn [lu_A lu_piv lu_info]; fold X3.
    + exact Pv.
    + intros r c Hr Hc. rewrite F1 by assumption. cbn [vsum]. change (@nadd real) with Rplus.
      rewrite (vsum_ext j (fun l => Lof X3 r l * Uof X3 l c) (fun l => Lof X1 r l * Uof X1 l c)).
      2:{ intros l Hl. unfold Lof, Uof. rewrite !E3, !EX by lia. reflexivity. }
      generalize (sum j (fun l => Lof X1 r l * Uof X1 l c)); intros sm. unfold Lof, Uof. rewrite !E3, !EX by lia. clear Sg Pv EX1 F1 EX. clearbody X1. clear J. nb; subst; try lia; try rewrite (Z r) by lia; try lra; replace c with j by lia; rewrite (Z r) by lia; lra.
    + intros H. exfalso. destruct (Z.eqb_spec (lu_info s) 0); lia.
    + intros _. destruct (Z.eqb_spec (lu_info s) 0) as [H|H].
      * exists j. split; [lia|]. rewrite E3 by lia. split; [apply Z; lia|]. split; [reflexivity|].
        intros k Hk. rewrite E3 by lia. apply (inv_ok j s I H). exact Hk.
      * destruct (inv_bad j s I H) as (l & L1 & L2 & L3 & L4). exists l. split; [lia|]. rewrite E3 by lia. split; [exact L2|]. split; [exact L3|].
        intros k Hk. rewrite E3 by lia. apply L4. exact Hk.
Qed.
Lemma inv_lu piv : Inv n (dgetf2 n (mkLu A0 piv 0)).
Proof.
  assert (G : forall j, (j <= n)%nat -> Inv j (loop j (lu_step n) (mkLu A0 piv 0))).
  { induction j as [|j IH]; intros Hj; cbn [loop]; [apply inv_init|]. apply inv_step; [lia|]. apply IH. lia. }
  apply G. lia.
Qed.
End LU.
