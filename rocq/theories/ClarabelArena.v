(** The array behind b, P_nzval and A_nzval after update_bounds. *)
From Coq Require Import ZArith List Bool Lia Reals Lra Arith.
From Verif Require Import Arr Arith QpsModel CscModel RSum QpsSpec OsqpModel OsqpSpec CscProofs OsqpProofs OsqpRows OsqpKkt OsqpCsc ClarabelModel ClarabelSpec ClarabelProofs.
Import ListNotations.
Open Scope R_scope.

(** a fold that fills consecutive blocks *)
Lemma fold_blocks (step : (nat -> R) -> nat -> nat -> R) (w : nat -> nat) o (v : nat -> nat -> R) n :
  (forall a k i, (k < n)%nat -> step a k i = if ((o + nsum k w <=? i) && (i <? o + nsum k w + w k))%nat then v k (i - (o + nsum k w))%nat else a i) ->
  forall a, (forall k i, (k < n)%nat -> (i < w k)%nat -> fold_left step (seq 0 n) a (o + nsum k w + i)%nat = v k i) /\
    (forall i, (i < o \/ o + nsum n w <= i)%nat -> fold_left step (seq 0 n) a i = a i).
Proof.
  induction n as [|n IH]; intros HS a; [split; [intros; lia|reflexivity]|].
  destruct (IH ltac:(intros; apply HS; lia) a) as [IH1 IH2]. rewrite seq_S, fold_left_app. cbn [fold_left]. cbn [Nat.add]. split.
  - intros k i Hk Hi. rewrite HS by lia. destruct (Nat.eq_dec k n) as [->|Ne].
    + destruct (Nat.leb_spec (o + nsum n w) (o + nsum n w + i)); [|lia]. destruct (Nat.ltb_spec (o + nsum n w + i) (o + nsum n w + w n)); [|lia]. cbn [andb]. f_equal. lia.
    + pose proof (nsum_block w n k i ltac:(lia) Hi). destruct (Nat.leb_spec (o + nsum n w) (o + nsum k w + i)); [lia|]. cbn [andb]. apply IH1; [lia|exact Hi].
  - intros i Hi. cbn [nsum] in Hi. rewrite HS by lia. destruct (Nat.leb_spec (o + nsum n w) i); [destruct (Nat.ltb_spec i (o + nsum n w + w n)); [lia|]|]; cbn [andb]; apply IH2; lia.
Qed.

Section A.
Variable d : qdims.
Variable q : rqp.
Notation N := (qN d). Notation nx := (qnx d). Notation nu := (qnu d). Notation nb := (qnb d). Notation ng := (qng d). Notation ns := (qns d).
Notation nrow := (nrow d). Notation nall := (nall d). Notation rall := (rall d). Notation rdyn := (rdyn d).

Ltac bb := repeat match goal with
  | |- context [(?x <=? ?y)%nat] => destruct (Nat.leb_spec x y); cbn [andb]
  | |- context [(?x <? ?y)%nat] => destruct (Nat.ltb_spec x y); cbn [andb] end; try lia; try reflexivity.

Lemma con_step a k i :
  (let a1 := unpack a (c_base d k) (nb k + ng k) (q_d q k) in
   let a2 := unpack a1 (c_base d k + (nb k + ng k)) (nb k + ng k) (fun i => q_d q k (nb k + ng k + i)%nat) in
   flip (A := real) a2 (c_base d k) (2 * nb k + 2 * ng k)) i =
  if ((con_start d + nsum k (fun k => 2 * nb k + 2 * ng k) <=? i) && (i <? con_start d + nsum k (fun k => 2 * nb k + 2 * ng k) + (2 * nb k + 2 * ng k)))%nat
  then - q_d q k (i - (con_start d + nsum k (fun k => 2 * nb k + 2 * ng k)))%nat else a i.
Proof.
  cbv zeta. change (con_start d + nsum k (fun k => 2 * nb k + 2 * ng k))%nat with (c_base d k). unfold flip, unpack. change (@nopp real) with Ropp. generalize (c_base d k). intros b.
  bb; f_equal; f_equal; lia.
Qed.
Lemma slk_step a k i :
  flip (A := real) (unpack a (c_slk d + off_slk d k) (2 * ns k) (fun i => q_d q k (2 * nb k + 2 * ng k + i)%nat)) (c_slk d + off_slk d k) (2 * ns k) i =
  if ((c_slk d + nsum k (fun k => 2 * ns k) <=? i) && (i <? c_slk d + nsum k (fun k => 2 * ns k) + 2 * ns k))%nat
  then - q_d q k (2 * nb k + 2 * ng k + (i - (c_slk d + nsum k (fun k => 2 * ns k))))%nat else a i.
Proof. unfold off_slk, flip, unpack. change (@nopp real) with Ropp. bb. Qed.

(** how often the sign loop passes over entry i in the first n stages *)
Definition hits (n i : nat) : nat := nsum n (fun k => if (off_dyn d k <=? i) && (i <? off_dyn d k + 2 * nx (S k)) then 1 else 0)%nat.
Lemma off_nsum k : (k <= N)%nat -> off_dyn d k = nsum k (fun k => nx (S k)).
Proof. intros Hk. unfold off_dyn. apply nsum_ext. intros j Hj. destruct (Nat.ltb_spec j N); [reflexivity|lia]. Qed.
Lemma dyn_fold n : (n <= N)%nat -> forall a,
  (forall k i, (k < n)%nat -> (i < nx (S k))%nat -> bounds_dyn d q n a (rdyn k i) = - q_b q k i) /\
  (forall i, (off_dyn d n <= i)%nat -> bounds_dyn d q n a i = Nat.iter (hits n i) Ropp (a i)).
Proof.
  intros Hn a. induction n as [|n IH]; [split; [intros; lia|reflexivity]|]. destruct (IH ltac:(lia)) as [IH1 IH2]. clear IH.
  assert (E : forall i, bounds_dyn d q (S n) a i = flip (A := real) (unpack (bounds_dyn d q n a) (off_dyn d n) (nx (S n)) (q_b q n)) (off_dyn d n) (2 * nx (S n)) i).
  { intros i. unfold bounds_dyn. rewrite seq_S, fold_left_app. reflexivity. }
  assert (ES : off_dyn d (S n) = (off_dyn d n + nx (S n))%nat) by (rewrite !off_nsum by lia; reflexivity). split.
  - intros k i Hk Hi. rewrite E. unfold flip, unpack. change (@nopp real) with Ropp. unfold OsqpProofs.rdyn. destruct (Nat.eq_dec k n) as [->|Ne].
    + bb. do 2 f_equal. lia.
    + pose proof (nsum_block (fun k => nx (S k)) n k i ltac:(lia) Hi) as B. rewrite <- !off_nsum in B by lia. bb. apply IH1; [lia|exact Hi].
  - intros i Hi. rewrite E. unfold flip, unpack. change (@nopp real) with Ropp. unfold hits. cbn [nsum]. fold (hits n i). specialize (IH2 i ltac:(lia)).
    bb; rewrite IH2, ?Nat.add_0_r; [|reflexivity]. rewrite Nat.add_1_r. reflexivity.
Qed.
Lemma arena_dyn a k i : (k < N)%nat -> (i < nx (S k))%nat -> update_bounds d q a (rdyn k i) = - q_b q k i.
Proof.
  intros Hk Hi. pose proof (dyn_lt d k i Hk Hi) as L. unfold update_bounds.
  unfold bounds_slk. rewrite (proj2 (fold_blocks _ _ (c_slk d) (fun k i => - q_d q k (2 * nb k + 2 * ng k + i)%nat) (S N) (fun a k i _ => slk_step a k i) _)) by (left; unfold c_slk; lia).
  unfold bounds_con. rewrite (proj2 (fold_blocks _ _ (con_start d) (fun k i => - q_d q k i) (S N) (fun a k i _ => con_step a k i) _)) by (left; lia).
  apply (proj1 (dyn_fold N (le_n _) a)); assumption.
Qed.
Lemma arena_in a k m : (k <= N)%nat -> (m < nall k)%nat -> update_bounds d q a (rall k m) = - q_d q k m.
Proof.
  intros Hk Hm. unfold update_bounds, ClarabelProofs.rall. unfold bounds_slk.
  pose proof (fold_blocks _ _ (c_slk d) (fun k i => - q_d q k (2 * nb k + 2 * ng k + i)%nat) (S N) (fun a k i _ => slk_step a k i) (bounds_con d q (S N) (bounds_dyn d q N a))) as [S1 S2].
  destruct (Nat.ltb_spec m (2 * nrow k)) as [L|L].
  - rewrite S2 by (left; pose proof (base_le d (S k) (S N) ltac:(lia)) as B; rewrite base_S, <- slk_base in B; lia).
    unfold bounds_con. apply (proj1 (fold_blocks _ _ (con_start d) (fun k i => - q_d q k i) (S N) (fun a k i _ => con_step a k i) _)); [lia|]. unfold QpsSpec.nrow in L. lia.
  - unfold off_slk. rewrite S1 by (unfold QpsSpec.nrow in *; unfold QpsSpec.nall in Hm; lia). do 2 f_equal. unfold QpsSpec.nrow in *. lia.
Qed.
Lemma off_end k : (k <= N)%nat -> (off_dyn d k <= con_start d)%nat.
Proof. intros Hk. rewrite con_start_sum, off_nsum by exact Hk. apply nsum_mono. exact Hk. Qed.
Lemma arena_out a i : (c_constr d <= i)%nat -> update_bounds d q a i = Nat.iter (flips d (i - c_constr d)) Ropp (a i).
Proof.
  intros Hi. pose proof (constr_slk d) as E. unfold update_bounds. unfold bounds_slk.
  rewrite (proj2 (fold_blocks _ _ (c_slk d) (fun k i => - q_d q k (2 * nb k + 2 * ng k + i)%nat) (S N) (fun a k i _ => slk_step a k i) _)) by (right; unfold off_slk in E; lia).
  unfold bounds_con. rewrite (proj2 (fold_blocks _ _ (con_start d) (fun k i => - q_d q k i) (S N) (fun a k i _ => con_step a k i) _)) by (right; unfold c_slk, c_off_con in E; lia).
  pose proof (starts d) as SS. pose proof (off_end N (le_n _)) as OE. rewrite (proj2 (dyn_fold N (le_n _) a)) by lia. f_equal. unfold hits, flips. apply nsum_ext. intros k Hk.
  pose proof (off_end k ltac:(lia)). replace (c_constr d + (i - c_constr d))%nat with i by lia. bb.
Qed.
(** P_nzval is large enough to take what the loop reads beyond b *)
Lemma hess_exact : length (concat (hess_rows d)) = c_nnzmax_P d.
Proof.
  rewrite concat_len, hrows_len. unfold num_vars, c_nnzmax_P. rewrite nsum_blocks. apply nsum_ext. intros k Hk.
  rewrite (nsum_ext _ (fun t => length (hrow d k t))) by (intros t Ht; f_equal; apply hrows_nth; [lia|exact Ht]).
  replace (nx k + nu k + 2 * ns k)%nat with (nv d k + 2 * ns k)%nat by (unfold QpsSpec.nv; lia). rewrite nsum_add.
  assert (T : forall n, (nsum n (fun t => S t) = n * (n + 1) / 2)%nat).
  { intros n. rewrite <- (Nat.div_mul (nsum n (fun t => S t)) 2) by lia. f_equal. induction n as [|n IH]; [reflexivity|]. cbn [nsum]. lia. }
  f_equal.
  - change (nu k + nx k)%nat with (nv d k). rewrite <- T. apply nsum_ext. intros t Ht. unfold hrow. destruct (Nat.ltb_spec t (nv d k)); [|lia]. rewrite map_length, seq_length. reflexivity.
  - apply (eq_trans (y := nsum (2 * ns k) (fun _ => 1%nat))); [|rewrite nsum_const; lia]. apply nsum_ext. intros t Ht. unfold hrow. destruct (Nat.ltb_spec (nv d k + t) (nv d k)); [lia|reflexivity].
Qed.
Lemma hess_vals_exact : length (concat (hess_vals d q)) = c_nnzmax_P d.
Proof. rewrite <- hess_exact, !concat_len, hrows_len, hvals_len. apply nsum_ext. intros c _. symmetry. apply hess_same. Qed.
Lemma flips_beyond i : (c_nnzmax_P d <= i)%nat -> flips d i = 0%nat.
Proof.
  intros Hi. unfold flips. rewrite (nsum_ext _ (fun _ => 0%nat)); [rewrite nsum_const; lia|]. intros k Hk. destruct (Nat.ltb_spec (c_constr d + i) (off_dyn d k + 2 * nx (S k))) as [L|L]; [|reflexivity].
  exfalso. pose proof (starts d) as SS. pose proof (off_end (S k) ltac:(lia)) as OE. rewrite off_nsum in OE by lia. cbn [nsum] in OE. rewrite <- off_nsum in OE by lia.
  assert (nx (S k) <= c_nnzmax_P d)%nat; [|lia]. unfold c_nnzmax_P. pose proof (nsum_next (fun k => (nu k + nx k) * (nu k + nx k + 1) / 2 + 2 * ns k)%nat (S k) (S N) ltac:(lia)) as X. cbv beta in X.
  assert (nx (S k) <= (nu (S k) + nx (S k)) * (nu (S k) + nx (S k) + 1) / 2)%nat; [|lia]. apply Nat.div_le_lower_bound; [lia|]. nia.
Qed.
Lemma roomy_flips i : roomy d -> flips d i = 0%nat.
Proof.
  intros H. unfold flips. rewrite (nsum_ext _ (fun _ => 0%nat)); [rewrite nsum_const; lia|]. intros k Hk. specialize (H k Hk). destruct (Nat.ltb_spec (c_constr d + i) (off_dyn d k + 2 * nx (S k))); [lia|reflexivity].
Qed.
Variable first : bool.
Variable m : cmem real.
Lemma A_kept i : (i < length (concat (c_vals d q)))%nat -> A_nzval d (c_update d q first m) i = nth i (concat (c_vals d q)) 0.
Proof.
  intros Hi. unfold A_nzval, c_update. cbv zeta. cbn [arena]. rewrite arena_out by lia. rewrite flips_beyond by lia. change (Nat.iter 0 Ropp ?x) with x. unfold put at 1. change (num real) with R in *. bb. f_equal. lia.
Qed.
Lemma P_flipped i : (i < length (concat (hess_vals d q)))%nat -> P_nzval d (c_update d q first m) i = Nat.iter (flips d i) Ropp (nth i (concat (hess_vals d q)) 0).
Proof.
  intros Hi. unfold P_nzval, c_update. cbv zeta. cbn [arena]. rewrite arena_out by lia. replace (c_constr d + i - c_constr d)%nat with i by lia. f_equal.
  pose proof hess_vals_exact. unfold put. change (num real) with R in *. bb. f_equal. lia.
Qed.
End A.
