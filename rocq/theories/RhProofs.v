From Coq Require Import ZArith List Bool Reals Lra Lia Arith.
From Verif Require Import FP Arith LinModel RSum RhModel.
Open Scope R_scope.
Notation matR := (nat -> nat -> R).
Lemma loop_S {B} n (f : nat -> B -> B) x : loop (S n) f x = f n (loop n f x).
Proof. reflexivity. Qed.

Lemma inner_spec (j k : nat) (t : R) c : forall M : matR, (j < k)%nat -> forall a b,
  loop c (fun r (M : matR) => let l := (k + r)%nat in put (A := real) l k (M l k - M l j * t)%R M) M a b =
  if ((b =? k)%nat && (k <=? a)%nat && (a <? k + c)%nat)%bool then M a b - M a j * t else M a b.
Proof.
  induction c as [|c IH]; intros M Hj a b.
  - cbn [loop]. destruct (Nat.eqb_spec b k), (Nat.leb_spec k a), (Nat.ltb_spec a (k + 0)); cbn; try reflexivity; lia.
  - rewrite loop_S. cbv zeta. unfold put at 1. rewrite !IH by exact Hj.
    destruct (Nat.eqb_spec a (k + c)) as [->|Ha]; destruct (Nat.eqb_spec b k) as [->|Hb]; cbn [andb].
    + rewrite Nat.eqb_refl. destruct (Nat.ltb_spec (k + c) (k + c)); [lia|]. destruct (Nat.leb_spec k (k + c)); [|lia].
      destruct (Nat.ltb_spec (k + c) (k + S c)); [|lia]. destruct (Nat.eqb_spec j k); [lia|]. cbn. reflexivity.
    + reflexivity.
    + destruct (Nat.ltb_spec a (k + c)), (Nat.ltb_spec a (k + S c)), (Nat.leb_spec k a); cbn; try reflexivity; lia.
    + reflexivity.
Qed.
Lemma outer_spec (n j : nat) (ip : R) c : forall M : matR, (j + 1 + c <= n)%nat -> forall a b,
  loop c (fun q (M : matR) => let k := (j + 1 + q)%nat in let t := (ip * M k j)%R in
    loop (n - k) (fun r (M : matR) => let l := (k + r)%nat in put (A := real) l k (M l k - M l j * t)%R M) M) M a b =
  if ((j <? b)%nat && (b <? j + 1 + c)%nat && (b <=? a)%nat && (a <? n)%nat)%bool then M a b - M a j * (ip * M b j) else M a b.
Proof.
  induction c as [|c IH]; intros M Hc a b.
  - cbn [loop]. destruct (Nat.ltb_spec j b), (Nat.ltb_spec b (j + 1 + 0)); cbn; try reflexivity; lia.
  - rewrite loop_S. cbv zeta. rewrite inner_spec by lia. rewrite !IH by lia.
    destruct (Nat.ltb_spec j j); [lia|]. cbn [andb].
    destruct (Nat.eqb_spec b (j + 1 + c)) as [->|Hb]; cbn [andb].
    + replace (j + 1 + c + (n - (j + 1 + c)))%nat with n by lia.
      destruct (Nat.ltb_spec (j + 1 + c) (j + 1 + c)); [lia|]. destruct (Nat.ltb_spec (j + 1 + c) (j + 1 + S c)); [|lia].
      destruct (Nat.ltb_spec j (j + 1 + c)); [|lia]. cbn [andb]. reflexivity.
    + destruct (Nat.ltb_spec b (j + 1 + c)), (Nat.ltb_spec b (j + 1 + S c)); try reflexivity; lia.
Qed.
Lemma eliminate_spec (n j : nat) (ip : R) (M : matR) a b : (j < n)%nat ->
  eliminate (A := real) n j ip M a b = if ((j <? b)%nat && (b <=? a)%nat && (a <? n)%nat)%bool then M a b - M a j * (ip * M b j) else M a b.
Proof.
  intros H. unfold eliminate. etransitivity; [apply (outer_spec n j ip (n - (j + 1)) M); lia|].
  destruct (Nat.ltb_spec j b), (Nat.leb_spec b a), (Nat.ltb_spec a n), (Nat.ltb_spec b (j + 1 + (n - (j + 1)))); cbn; try reflexivity; lia.
Qed.

(** symmetric matrix of a lower triangle, and its bilinear form on the indices j, ..., n-1 *)
Definition symm (M : matR) : matR := fun a b => if (b <=? a)%nat then M a b else M b a.
Definition form (n j : nat) (M : matR) (v z : nat -> R) : R :=
  sum (n - j) (fun a => sum (n - j) (fun b => v (j + a)%nat * symm M (j + a)%nat (j + b)%nat * z (j + b)%nat)).

Lemma sum_first m f : sum (S m) f = f 0%nat + sum m (fun k => f (S k)).
Proof. change (S m) with (1 + m)%nat. rewrite sum_split. cbn. rewrite Rplus_0_l. reflexivity. Qed.

Definition lin (n j : nat) (M : matR) (v : nat -> R) : R := v j + sum (n - (j + 1)) (fun a => M (j + 1 + a)%nat j * v (j + 1 + a)%nat) / M j j.

Lemma form_step n j (M : matR) v z : (j < n)%nat -> M j j <> 0 ->
  form n j M v z = M j j * lin n j M v * lin n j M z + form n (j + 1) (eliminate (A := real) n j (1 / M j j) M) v z.
Proof.
  intros Hj Hp. unfold form. replace (n - j)%nat with (S (n - (j + 1))) by lia. set (m := (n - (j + 1))%nat).
  rewrite sum_first. cbv beta. rewrite (sum_first m). cbv beta. rewrite (sum_ext m (fun k => sum (S m) _) (fun a => v (j + 1 + a)%nat * M (j + 1 + a)%nat j * z j +
     sum m (fun b => v (j + 1 + a)%nat * symm M (j + 1 + a)%nat (j + 1 + b)%nat * z (j + 1 + b)%nat))).
  2:{ intros a Ha. rewrite sum_first. cbv beta. rewrite Nat.add_0_r. replace (j + S a)%nat with (j + 1 + a)%nat by lia. f_equal.
      - unfold symm. destruct (Nat.leb_spec j (j + 1 + a)); [reflexivity|lia].
      - apply sum_ext. intros b Hb. replace (j + S b)%nat with (j + 1 + b)%nat by lia. reflexivity. }
  rewrite sum_plus. rewrite Nat.add_0_r.
  rewrite (sum_ext m (fun k => v j * symm M j (j + S k)%nat * z (j + S k)%nat) (fun b => v j * (M (j + 1 + b)%nat j * z (j + 1 + b)%nat))).
  2:{ intros b Hb. replace (j + S b)%nat with (j + 1 + b)%nat by lia. unfold symm. destruct (Nat.leb_spec (j + 1 + b) j); [lia|]. ring. }
  rewrite sum_scal.
  rewrite (sum_ext m (fun a => v (j + 1 + a)%nat * M (j + 1 + a)%nat j * z j) (fun a => z j * (M (j + 1 + a)%nat j * v (j + 1 + a)%nat))) by (intros; ring).
  rewrite sum_scal.
  set (sv := sum m (fun a => M (j + 1 + a)%nat j * v (j + 1 + a)%nat)).
  set (sz := sum m (fun a => M (j + 1 + a)%nat j * z (j + 1 + a)%nat)).
  assert (E : sum m (fun a => sum m (fun b => v (j + 1 + a)%nat * symm (eliminate (A := real) n j (1 / M j j)%R M) (j + 1 + a)%nat (j + 1 + b)%nat * z (j + 1 + b)%nat)) =
     sum m (fun a => sum m (fun b => v (j + 1 + a)%nat * symm M (j + 1 + a)%nat (j + 1 + b)%nat * z (j + 1 + b)%nat)) - sv * sz / M j j).
  { assert (P : sv * sz / M j j = sum m (fun a => sum m (fun b => (M (j + 1 + a)%nat j * v (j + 1 + a)%nat) * ((M (j + 1 + b)%nat j * z (j + 1 + b)%nat) / M j j)))).
    { unfold Rdiv. rewrite (sum_ext m _ (fun a => (M (j + 1 + a)%nat j * v (j + 1 + a)%nat) * (sz * / M j j))).
      - rewrite sum_scal_r. unfold sv. ring.
      - intros a Ha. rewrite sum_scal, sum_scal_r. reflexivity. }
    rewrite P, <- sum_minus. apply sum_ext. intros a Ha. rewrite <- sum_minus. apply sum_ext. intros b Hb. unfold symm.
    destruct (Nat.leb_spec (j + 1 + b) (j + 1 + a)); rewrite eliminate_spec by exact Hj;
      (destruct (Nat.ltb_spec j (j + 1 + b)); [|lia]); (destruct (Nat.ltb_spec j (j + 1 + a)); [|lia]);
      (destruct (Nat.leb_spec (j + 1 + b) (j + 1 + a)); try lia); (destruct (Nat.leb_spec (j + 1 + a) (j + 1 + b)); try lia);
      (destruct (Nat.ltb_spec (j + 1 + a) n); [|unfold m in *; lia]); (destruct (Nat.ltb_spec (j + 1 + b) n); [|unfold m in *; lia]); cbn [andb]; field; exact Hp. }
  etransitivity; [|apply f_equal2; [reflexivity|symmetry; exact E]].
  unfold lin. fold m sv sz. unfold symm at 1. rewrite Nat.leb_refl. field. exact Hp.
Qed.

(** pivots of the elimination without exchanges, not touched by the bound *)
Definition steps (minp : R) (nu n j : nat) (M : matR) : matR := loop j (fun j M => schur_step (A := real) false minp nu n j M) M.
Definition pivots_ok (minp : R) (nu n : nat) (M : matR) : Prop := forall j, (j < nu)%nat -> minp <= Rabs (steps minp nu n j M j j).

Lemma bounded_id minp p : 0 < minp -> minp <= Rabs p -> bounded_pivot (A := real) minp p = p.
Proof.
  intros Hm H. unfold bounded_pivot. cbn [nltb nopp real].
  destruct (Rltb_spec p minp), (Rltb_spec (- minp) p); cbn [andb]; try reflexivity.
  exfalso. unfold Rabs in H. destruct (Rcase_abs p); lra.
Qed.
Lemma form_high n j M v v' z : (forall k, (j <= k)%nat -> v k = v' k) -> form n j M v z = form n j M v' z.
Proof. intros H. unfold form. apply sum_ext. intros a Ha. apply sum_ext. intros b Hb. rewrite H by lia. reflexivity. Qed.

Lemma schur_ind minp nu n (M : matR) : 0 < minp -> (nu <= n)%nat -> pivots_ok minp nu n M -> forall j, (j <= nu)%nat -> forall v, exists w,
  (forall k, (j <= k)%nat -> w k = v k) /\ forall z, form n 0 M w z = form n j (steps minp nu n j M) v z.
Proof.
  intros Hm Hn Hp. induction j as [|j IH]; intros Hj v.
  - exists v. split; reflexivity.
  - set (Mj := steps minp nu n j M). pose proof (Hp j ltac:(lia)) as Pj. fold Mj in Pj.
    assert (Nz : Mj j j <> 0) by (intros E; rewrite E, Rabs_R0 in Pj; lra).
    set (v' := fun k => if (k =? j)%nat then - (sum (n - (j + 1)) (fun a => Mj (j + 1 + a)%nat j * v (j + 1 + a)%nat) / Mj j j) else v k).
    destruct (IH ltac:(lia) v') as (w & Hw & Hz). exists w. split.
    + intros k Hk. rewrite Hw by lia. unfold v'. destruct (Nat.eqb_spec k j); [lia|reflexivity].
    + intros z. rewrite Hz. fold Mj. rewrite form_step by (assumption || lia).
      assert (L : lin n j Mj v' = 0).
      { unfold lin. unfold v' at 1. rewrite Nat.eqb_refl. rewrite (sum_ext _ (fun a => Mj (j + 1 + a)%nat j * v' (j + 1 + a)%nat) (fun a => Mj (j + 1 + a)%nat j * v (j + 1 + a)%nat)); [ring|].
        intros a Ha. unfold v'. destruct (Nat.eqb_spec (j + 1 + a) j); [lia|reflexivity]. }
      rewrite L. unfold steps. rewrite loop_S. fold (steps minp nu n j M). fold Mj.
      unfold schur_step. cbv zeta. rewrite bounded_id by assumption. rewrite Rmult_0_r, Rmult_0_l, Rplus_0_l.
      replace (S j) with (j + 1)%nat by lia. apply form_high. intros k Hk. unfold v'. destruct (Nat.eqb_spec k j); [lia|reflexivity].
Qed.

Theorem schur_complement minp nu n (M : matR) : 0 < minp -> (nu <= n)%nat -> pivots_ok minp nu n M -> forall x, exists w,
  (forall k, (nu <= k)%nat -> w k = x k) /\ forall z, form n 0 M w z = form n nu (true_schur (A := real) false minp nu n M) x z.
Proof. intros H1 H2 H3 x. exact (schur_ind minp nu n M H1 H2 H3 nu (Nat.le_refl _) x). Qed.
