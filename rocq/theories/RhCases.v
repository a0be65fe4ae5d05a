From Coq Require Import ZArith List Bool Reals Lra Lia Arith.
From Flocq Require Import IEEE754.BinarySingleNaN.
From Verif Require Import FP Arith LinModel RSum RhModel RhProofs.
Import ListNotations.

(** a pivot below the bound is replaced by one of the opposite sign *)
Lemma opposite (minp p : R) : (0 < minp)%R -> (- minp < p < minp)%R -> p <> 0%R -> (bounded_pivot (A := real) minp p * p < 0)%R.
Proof.
  intros Hm Hp Hz. unfold bounded_pivot. cbn [nltb nopp n0 real].
  destruct (Rltb_spec p minp); [|lra]. destruct (Rltb_spec (- minp) p); [|lra]. cbn [andb].
  destruct (Rltb_spec p 0); nra.
Qed.
Definition half : matR := fun a b => match a, b with 0%nat, 0%nat => (- (1 / 2))%R | 1%nat, 0%nat => 1%R | _, _ => 0%R end.
Lemma wrong_sign : exists (minp : R) (M : matR), (0 < minp)%R /\ M 0%nat 0%nat <> 0%R /\ M 1%nat 1%nat = 0%R /\
  (true_schur (A := real) false minp 1 2 M 1%nat 1%nat < 0 < - (M 1%nat 0%nat * M 1%nat 0%nat / M 0%nat 0%nat))%R.
Proof.
  exists 1%R, half. split; [lra|]. split; [unfold half; lra|]. split; [reflexivity|].
  unfold true_schur. cbn [loop]. unfold schur_step. cbv zeta. rewrite eliminate_spec by lia. cbn [Nat.ltb Nat.leb andb].
  assert (E : bounded_pivot (A := real) 1%R (half 0%nat 0%nat) = 1%R).
  { change (half 0%nat 0%nat) with (- (1 / 2))%R. unfold bounded_pivot. cbn [nltb nopp n0 real].
    destruct (Rltb_spec (- (1 / 2))%R 1%R) as [_|N]; [|exfalso; lra]. destruct (Rltb_spec (- (1))%R (- (1 / 2))%R) as [_|N]; [|exfalso; lra]. cbn [andb]. destruct (Rltb_spec (- (1 / 2))%R 0%R) as [_|N]; [reflexivity|exfalso; lra]. }
  rewrite E. cbn [ndiv n1 real]. unfold half. replace (- (1 * 1 / - (1 / 2)))%R with 2%R by field. lra.
Qed.

(** binary64, with dyadic data so that nothing is rounded except 1e-12 *)
Definition z (k : Z) : double := fz2 k 0.
Definition matl (l : list (list Z)) : nat -> nat -> double := fun a b => z (nth b (nth a l []) 0%Z).
(** R = diag(-1, 4, 1), S = (0, 2, 0): one negative eigenvalue, so the Schur complement is computed; default options *)
Definition diag3 : nat -> nat -> double := matl [[-1]; [0; 4]; [0; 0; 1]; [0; 2; 0; 0]]%Z.
Lemma pivoting_wrong : exists M : nat -> nat -> double,
  B2SF (true_schur (A := dbl) false (dcst 1 (-12)) 3 4 M 3%nat 3%nat) = B2SF (z (-1)) /\
  B2SF (true_schur (A := dbl) true (dcst 1 (-12)) 3 4 M 3%nat 3%nat) = B2SF (z (-4)).
Proof. exists diag3. split; vm_compute; reflexivity. Qed.
(** the exchange as written does not move the diagonal element *)
Lemma exchange_wrong : exists M : nat -> nat -> double, snd (find_pivot (A := dbl) 3 1 M) = 2%nat /\
  B2SF (permute (A := dbl) 4 1 2 M 1%nat 1%nat) <> B2SF (M 2%nat 2%nat) /\ B2SF (permute (A := dbl) 4 1 2 M 3%nat 1%nat) = B2SF (M 3%nat 2%nat).
Proof. exists diag3. split; [vm_compute; reflexivity|]. split; [vm_compute; discriminate|vm_compute; reflexivity]. Qed.
(** the pivot of smallest magnitude is chosen *)
Lemma smallest : exists M : nat -> nat -> double, snd (find_pivot (A := dbl) 2 0 M) = 1%nat /\ flt (fabs (M 1%nat 1%nat)) (fabs (M 0%nat 0%nat)) = true.
Proof. exists (matl [[8]; [0; 1]]%Z). split; vm_compute; reflexivity. Qed.
(** case: R = [2 2; 2 4], S = (2, 4), Schur complement -4 *)
Definition two_inputs : nat -> nat -> double := matl [[2]; [2; 4]; [2; 4; 0]]%Z.
Example two_inputs_schur : B2SF (true_schur (A := dbl) false (dcst 1 (-12)) 2 3 two_inputs 2%nat 2%nat) = B2SF (z (-4)).
Proof. vm_compute. reflexivity. Qed.
Example two_inputs_pivoting : B2SF (true_schur (A := dbl) true (dcst 1 (-12)) 2 3 (matl [[4]; [2; 2]; [4; 2; 0]]%Z) 2%nat 2%nat) = B2SF (z (-4)).
Proof. vm_compute. reflexivity. Qed.
(** the hypothesis of the general theorem is met by real matrices with any pivots away from zero, for instance diagonal ones *)
Lemma diagonal_ok (minp : R) nu n (d : nat -> R) : (nu <= n)%nat -> (0 < minp)%R -> (forall j, (j < nu)%nat -> (minp <= Rabs (d j))%R) ->
  pivots_ok minp nu n (fun a b => if (a =? b)%nat then d a else 0%R).
Proof.
  intros Hn Hm Hd.
  assert (E : forall j, (j <= nu)%nat -> forall a b, steps minp nu n j (fun a b => if (a =? b)%nat then d a else 0%R) a b = if (a =? b)%nat then d a else 0%R).
  { induction j as [|j IH]; intros Hj a b; [reflexivity|]. unfold steps. rewrite loop_S. fold (steps minp nu n j (fun a b => if (a =? b)%nat then d a else 0%R)).
    unfold schur_step. cbv zeta. rewrite eliminate_spec by lia. rewrite !IH by lia.
    destruct (Nat.ltb_spec j b); [|reflexivity]. destruct (Nat.leb_spec b a); [|reflexivity]. destruct (Nat.ltb_spec a n); [|reflexivity]. cbn [andb].
    destruct (Nat.eqb_spec a j); [lia|]. rewrite Rmult_0_l, Rminus_0_r. reflexivity. }
  intros j Hj. rewrite E by lia. rewrite Nat.eqb_refl. apply Hd, Hj.
Qed.
(** every exchange makes the pivot strictly smaller in magnitude, and a pivot that is not positive is never exchanged *)
Lemma shrinks nu j (M : matR) : let s := find_pivot (A := real) nu j M in
  fst s = M (snd s) (snd s) /\ (snd s = j \/ (j < snd s < nu)%nat /\ (0 < M j j)%R /\ (Rabs (M (snd s) (snd s)) < Rabs (M j j))%R).
Proof.
  cbv zeta. unfold find_pivot.
  assert (H : forall c, (j + 1 + c <= nu)%nat \/ c = 0%nat -> let s := loop c (fun q (s : R * nat) => let k := (j + 1 + q)%nat in
    if (nltb (a := real) (M k k) (fst s) && nltb (a := real) (nopp (a := real) (fst s)) (M k k))%bool then (M k k, k) else s) (M j j, j) in
    fst s = M (snd s) (snd s) /\ (snd s = j \/ (j < snd s < j + 1 + c)%nat /\ (0 < M j j)%R /\ (Rabs (M (snd s) (snd s)) < Rabs (M j j))%R)).
  { induction c as [|c IH]; intros Hc; [split; [reflexivity|left; reflexivity]|].
    cbv zeta in *. rewrite loop_S. destruct (IH ltac:(lia)) as [H1 H2]. clear IH.
    set (s := loop c _ _) in *. cbn [nltb nopp real].
    destruct (Rltb_spec (M (j + 1 + c)%nat (j + 1 + c)%nat) (fst s)) as [L|L]; [|cbn [andb]; split; [exact H1|]; destruct H2 as [?|(? & ? & ?)]; [left; assumption|right; repeat split; try assumption; lia]].
    destruct (Rltb_spec (- fst s) (M (j + 1 + c)%nat (j + 1 + c)%nat)) as [G|G]; [|cbn [andb]; split; [exact H1|]; destruct H2 as [?|(? & ? & ?)]; [left; assumption|right; repeat split; try assumption; lia]].
    cbn [andb fst snd]. split; [reflexivity|]. right. split; [lia|].
    assert (B : (Rabs (M (j + 1 + c)%nat (j + 1 + c)%nat) < Rabs (fst s))%R).
    { rewrite (Rabs_pos_eq (fst s)) by lra. apply Rabs_def1; lra. }
    destruct H2 as [E|(_ & P & Q)].
    - rewrite E in H1. rewrite H1 in L, G, B. split; [lra|exact B].
    - rewrite H1 in B. split; [exact P|lra]. }
  destruct (H (nu - (j + 1))%nat ltac:(lia)) as [H1 H2]. split; [exact H1|].
  destruct H2 as [E|(A & B & C)]; [left; exact E|right]. split; [|split; assumption].
  destruct (Nat.le_gt_cases (j + 1) nu) as [L|L]; [|exfalso; lia]. destruct A as [A1 A2]. split; [exact A1|]. eapply Nat.lt_le_trans; [exact A2|lia].
Qed.
