(** The exchange of the reduced Hessian regularisation is right for the first two inputs: with at most two inputs pivoting keeps the
    Schur complement. *)
From Coq Require Import ZArith List Bool Reals Lra Lia Arith.
From Verif Require Import FP Arith LinModel RSum RhModel RhProofs.
Open Scope R_scope.

Lemma rows_spec c : forall (M : matR) a b,
  loop c (fun q (M : matR) => let k := (1 + 1 + q)%nat in let t := M k 0%nat in put (A := real) k 1 t (put (A := real) k 0 (M k 1%nat) M)) M a b =
  if ((2 <=? a)%nat && (a <? 2 + c)%nat)%bool then match b with 0%nat => M a 1%nat | 1%nat => M a 0%nat | _ => M a b end else M a b.
Proof.
  induction c as [|c IH]; intros M a b.
  - cbn [loop]. destruct (Nat.leb_spec 2 a), (Nat.ltb_spec a (2 + 0)); cbn [andb]; try reflexivity; lia.
  - rewrite loop_S. cbv zeta. unfold put. rewrite !IH.
    destruct (Nat.eqb_spec a (1 + 1 + c)) as [->|Ha].
    + destruct (Nat.leb_spec 2 (1 + 1 + c)); [|lia]. destruct (Nat.ltb_spec (1 + 1 + c) (2 + c)); [lia|]. destruct (Nat.ltb_spec (1 + 1 + c) (2 + S c)); [|lia].
      cbn [andb]. destruct b as [|[|b]]; reflexivity.
    + cbn [andb]. destruct (Nat.ltb_spec a (2 + c)), (Nat.ltb_spec a (2 + S c)), (Nat.leb_spec 2 a); cbn [andb]; try reflexivity; lia.
Qed.
Definition swap (a : nat) : nat := match a with 0%nat => 1%nat | 1%nat => 0%nat | _ => a end.
Lemma permute_symm n (M : matR) a b : (a < n)%nat -> (b < n)%nat -> (2 <= n)%nat ->
  symm (permute (A := real) n 0 1 M) a b = symm M (swap a) (swap b).
Proof.
  intros Ha Hb Hn.
  assert (P : forall a b, (b <= a < n)%nat -> permute (A := real) n 0 1 M a b = symm M (swap a) (swap b)).
  { intros x y H. unfold permute. cbn [Nat.eqb]. change (1 - 0)%nat with 1%nat. cbv zeta.
    etransitivity; [apply (rows_spec (n - (1 + 1)) _ x y)|].
    cbn [loop]. unfold put, symm. cbn [Nat.sub Nat.add].
    destruct x as [|[|x]]; [destruct y as [|y]; [reflexivity|lia]|destruct y as [|[|y]]; [reflexivity|reflexivity|lia]|].
    destruct (Nat.leb_spec 2 (S (S x))); [|lia]. destruct (Nat.ltb_spec (S (S x)) (S (S (n - 2)))); [|lia]. cbn [andb].
    destruct y as [|[|y]]; cbn [swap]; cbn [Nat.eqb andb Nat.leb]; try reflexivity.
    destruct (Nat.leb_spec y x); [reflexivity|lia]. }
  unfold symm at 1. destruct (Nat.leb_spec b a) as [H|H].
  - apply P. lia.
  - rewrite P by lia. unfold symm. destruct (Nat.leb_spec (swap a) (swap b)), (Nat.leb_spec (swap b) (swap a)); try reflexivity; try lia.
    assert (swap a = swap b) as -> by lia. reflexivity.
Qed.

Lemma sum_swap2 n (f : nat -> R) : (2 <= n)%nat -> sum n (fun a => f (swap a)) = sum n f.
Proof.
  intros H. replace n with (2 + (n - 2))%nat by lia. rewrite !sum_split. f_equal. rewrite !sum_S. cbn. lra.
Qed.
Lemma form_swap n (M : matR) v z : (2 <= n)%nat -> form n 0 (permute (A := real) n 0 1 M) v z = form n 0 M (fun k => v (swap k)) (fun k => z (swap k)).
Proof.
  intros H. unfold form. rewrite Nat.sub_0_r.
  rewrite <- (sum_swap2 n (fun a => sum n (fun b => v (swap (0 + a)%nat) * symm M (0 + a)%nat (0 + b)%nat * z (swap (0 + b)%nat)))) by exact H.
  apply sum_ext. intros a Ha.
  rewrite <- (sum_swap2 n (fun b => v (swap (0 + swap a)%nat) * symm M (0 + swap a)%nat (0 + b)%nat * z (swap (0 + b)%nat))) by exact H.
  apply sum_ext. intros b Hb. cbn [Nat.add]. rewrite permute_symm by assumption.
  assert (I : forall k, swap (swap k) = k) by (intros [|[|k]]; reflexivity). rewrite !I. reflexivity.
Qed.

(** the matrix that is eliminated: inputs exchanged or not *)
Definition chosen (n : nat) (M : matR) : matR := if (snd (find_pivot (A := real) 2 0 M) =? 1)%nat then permute (A := real) n 0 1 M else M.
Lemma pivot_two (M : matR) : snd (find_pivot (A := real) 2 0 M) = 0%nat \/ snd (find_pivot (A := real) 2 0 M) = 1%nat.
Proof. unfold find_pivot. cbn [Nat.sub Nat.add loop]. cbv zeta. destruct (_ && _)%bool; [right|left]; reflexivity. Qed.
Lemma two_steps minp n (M : matR) : true_schur (A := real) true minp 2 n M = true_schur (A := real) false minp 2 n (chosen n M).
Proof.
  assert (E1 : forall X : matR, schur_step (A := real) true minp 2 n 1 X = schur_step (A := real) false minp 2 n 1 X) by reflexivity.
  assert (E0 : schur_step (A := real) true minp 2 n 0 M = schur_step (A := real) false minp 2 n 0 (chosen n M)).
  { unfold chosen, schur_step. cbv zeta. destruct (pivot_two M) as [E|E]; rewrite E; reflexivity. }
  unfold true_schur. cbn [loop]. rewrite E1, E0. reflexivity.
Qed.
Theorem pivoting_two minp n (M : matR) : 0 < minp -> (2 <= n)%nat -> pivots_ok minp 2 n (chosen n M) -> forall x, exists w,
  (forall k, (2 <= k)%nat -> w k = x k) /\ forall z, form n 0 M w z = form n 2 (true_schur (A := real) true minp 2 n M) x z.
Proof.
  intros Hm Hn Hp x. rewrite two_steps. destruct (schur_complement minp 2 n (chosen n M) Hm Hn Hp x) as (w & Hw & Hz).
  set (R0 := true_schur (A := real) false minp 2 n (chosen n M)) in *. unfold chosen in Hz. destruct (_ =? 1)%nat.
  - exists (fun k => w (swap k)). split.
    + intros [|[|k]] Hk; [lia|lia|]. cbn. apply Hw. exact Hk.
    + intros z. specialize (Hz (fun k => z (swap k))). rewrite form_swap in Hz by exact Hn.
      assert (I : forall (f : nat -> R) k, f (swap (swap k)) = f k) by (intros f [|[|k]]; reflexivity).
      etransitivity; [|etransitivity; [exact Hz|]].
      * unfold form. apply sum_ext. intros a Ha. apply sum_ext. intros b Hb. rewrite I. reflexivity.
      * unfold form. apply sum_ext. intros a Ha. apply sum_ext. intros b Hb. reflexivity.
  - exists w. split; assumption.
Qed.
(** a case with an exchange: R = diag(4, 1), one state coupled to both inputs *)
Definition four_one : matR := fun a b => match a, b with 0%nat, 0%nat => 4 | 1%nat, 1%nat => 1 | 2%nat, 0%nat => 3 | 2%nat, 1%nat => 5 | _, _ => 0 end.
Lemma four_one_pivot : snd (find_pivot (A := real) 2 0 four_one) = 1%nat.
Proof.
  unfold find_pivot. cbn [Nat.sub Nat.add loop fst]. cbv zeta. unfold four_one. cbn [fst nltb nopp real].
  destruct (Rltb_spec 1 4); [|lra]. destruct (Rltb_spec (- (4)) 1); [reflexivity|lra].
Qed.
Lemma four_one_ok : pivots_ok (1 / 2) 2 3 (chosen 3 four_one).
Proof.
  unfold chosen. rewrite four_one_pivot. cbn [Nat.eqb].
  assert (E00 : permute (A := real) 3 0 1 four_one 0%nat 0%nat = 1) by reflexivity.
  assert (E10 : permute (A := real) 3 0 1 four_one 1%nat 0%nat = 0) by reflexivity.
  assert (E11 : permute (A := real) 3 0 1 four_one 1%nat 1%nat = 4) by reflexivity.
  intros j Hj. destruct j as [|[|j]]; [| |lia].
  - unfold steps. cbn [loop]. rewrite E00, Rabs_pos_eq; lra.
  - unfold steps. cbn [loop]. unfold schur_step. cbv zeta. rewrite eliminate_spec by lia. cbn [Nat.ltb Nat.leb andb].
    rewrite E10, E11, Rmult_0_l, Rminus_0_r, Rabs_pos_eq; lra.
Qed.
