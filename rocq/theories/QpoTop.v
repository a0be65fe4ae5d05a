(** KKT points of the QP handed to qpOASES give KKT points of the dense QP. *)
From Coq Require Import ZArith List Bool Lia Reals Lra Arith.
From Verif Require Import Arith Vec LinModel RSum DenseModel QpoModel DenseSpec DenseProofs StackProofs QpoProofs.
Open Scope R_scope.

Lemma sum_cnt p n (f : nat -> R) : sum (cnt p n) f = sum n (fun i => if p i then f (cnt p i) else 0).
Proof. induction n as [|n IH]; [reflexivity|]. cbn [cnt]. rewrite sum_S. destruct (p n); [rewrite sum_S, IH; reflexivity|rewrite IH; lra]. Qed.

(** what the two constructions of the solver's QP have in common *)
Record rep (inf : R) (d : ddims) (q : rdqp) (B : box real) (x y : vecR) : Prop := mkRep {
  rp_nv : bx_nv B = stk_nv d;
  rp_H : forall r, (r < dnv d)%nat -> sum (bx_nv B) (fun c => bx_H B r c * x c) = sum (dnv d) (fun c => dsym q r c * x c);
  rp_Hs : forall e, (e < 2 * dns d)%nat -> sum (bx_nv B) (fun c => bx_H B (dnv d + e)%nat c * x c) = dq_Z q e * x (dnv d + e)%nat;
  rp_g : forall r, (r < stk_nv d)%nat -> bx_g B r = dq_g q r;
  rp_C : forall r, (r < dnv d)%nat -> sum (bx_ng B) (fun j => bx_C B j r * y (bx_nv B + j)%nat) = sum (drows d) (fun k => if (k <? dnb d)%nat && hard q k then 0 else dcoef d q k r * yrow d q y k);
  rp_Cs : forall k, (k < drows d)%nat -> soft q k = true ->
    sum (bx_ng B) (fun j => bx_C B j (dnv d + sl q k)%nat * y (bx_nv B + j)%nat) = yrow d q y k /\
    sum (bx_ng B) (fun j => bx_C B j (dnv d + (dns d + sl q k))%nat * y (bx_nv B + j)%nat) = - yrow d q y k;
  rp_hard : forall k, (k < dnb d)%nat -> hard q k = true -> bx_lb B (dq_idxb q k) = dq_d q k /\ bx_ub B (dq_idxb q k) = - dq_d q (drows d + k)%nat;
  rp_free : forall r, (r < dnv d)%nat -> (forall k, (k < dnb d)%nat -> hard q k = true -> dq_idxb q k <> r) -> bx_lb B r = - inf /\ bx_ub B r = inf;
  rp_slack : forall e, (e < 2 * dns d)%nat -> bx_lb B (dnv d + e)%nat = dq_d q (2 * drows d + e)%nat /\ bx_ub B (dnv d + e)%nat = 1000000;
  rp_row : forall k, (k < drows d)%nat -> (dnb d <= k)%nat \/ soft q k = true -> exists j, (j < bx_ng B)%nat /\ y (bx_nv B + j)%nat = yrow d q y k /\
    bx_lg B j = dq_d q k /\ bx_ug B j = - dq_d q (drows d + k)%nat /\
    sum (bx_nv B) (fun r => bx_C B j r * x r) = dlin d q x k + dslack d q x k false - dslack d q x k true }.

Section M.
Variables (inf : R) (d : ddims) (q o : rdqp) (x y : vecR).
Hypothesis Hb : own_bounds d q.
Hypothesis Hs : one_row_each d q.
Hypothesis Hk : stackable d q.

Lemma full_sym r c : (r < dnv d)%nat -> (c < dnv d)%nat -> full_H (A := real) (dnv d) (dq_H q) r c = dsym q r c.
Proof.
  intros Hr Hc. unfold full_H, dsym. apply Nat.ltb_lt in Hr, Hc. rewrite Hr, Hc. cbn [andb]. destruct (Nat.ltb_spec r c), (Nat.leb_spec c r); try lia; reflexivity.
Qed.
Lemma dslack_hard v k : hard q k = true -> dslack d q v k false = 0 /\ dslack d q v k true = 0.
Proof. unfold hard, dslack. intros E. apply Z.eqb_eq in E. rewrite E. auto. Qed.
Lemma dslack_soft v k : (k < drows d)%nat -> soft q k = true -> dslack d q v k false = v (dnv d + sl q k)%nat /\ dslack d q v k true = v (dnv d + (dns d + sl q k))%nat.
Proof.
  intros H E. destruct (soft_rev d q Hs k H E) as [_ A]. unfold dslack. destruct (Z.leb_spec 0 (dq_rev q k)); [|lia]. unfold sl. split; f_equal; lia.
Qed.

Lemma rep0 : dns d = 0%nat -> rep inf d q (qpo_in inf d q o) x y.
Proof.
  intros N0. assert (AH : forall k, (k < drows d)%nat -> hard q k = true).
  { intros k H. unfold hard. destruct (proj1 Hs k H) as [E|E]; [rewrite E; reflexivity|rewrite N0 in E; lia]. }
  assert (NS : forall k, (k < drows d)%nat -> soft q k = true -> False) by (intros k H E; unfold soft in E; rewrite (AH k H) in E; discriminate).
  assert (N2 : stk_nv d = dnv d) by (unfold stk_nv; lia).
  unfold qpo_in. rewrite N0. cbn [Nat.ltb Nat.leb]. constructor; cbn [bx_nv bx_ng bx_H bx_g bx_C bx_lb bx_ub bx_lg bx_ug dq_H dq_g dq_C dq_d dq_idxb].
  - symmetry. exact N2.
  - intros r Hr. apply sum_ext. intros c Hc. rewrite full_sym by assumption. reflexivity.
  - rewrite N0. lia.
  - reflexivity.
  - intros r Hr. unfold drows. rewrite sum_split. rewrite (sum_zero (dnb d)).
    + rewrite Rplus_0_l. apply sum_ext. intros j Hj. destruct (Nat.ltb_spec (dnb d + j) (dnb d)); [lia|]. cbn [andb]. unfold dcoef, yrow. destruct (Nat.ltb_spec (dnb d + j) (dnb d)); [lia|].
      replace (dnb d + j - dnb d)%nat with j by lia. rewrite N2. reflexivity.
    + intros k H. rewrite AH by (unfold drows; lia). apply Nat.ltb_lt in H. rewrite H. reflexivity.
  - intros k H E. destruct (NS k H E).
  - intros k H E. rewrite !(scatter_at (dnb d) (dq_idxb q)); try exact H; try (intros j Hj Ej; symmetry; apply (proj2 (Hb k H) j Hj); symmetry; exact Ej). unfold get_lb, get_ub, drows. cbn [dq_d]. auto.
  - intros r Hr F. rewrite !scatter_none; [auto| |]; intros i Hi; apply F; try assumption; apply AH; unfold drows; lia.
  - rewrite N0. lia.
  - intros k H [L|E]; [|destruct (NS k H E)]. exists (k - dnb d)%nat. unfold drows in *. destruct (dslack_hard x k (AH k H)) as [-> ->]. unfold yrow, get_lg, get_ug. cbn [dq_d num nopp real]. destruct (Nat.ltb_spec k (dnb d)); [lia|].
    replace (dnb d + (k - dnb d))%nat with k by lia. replace (2 * dnb d + dng d + (k - dnb d))%nat with (dnb d + dng d + k)%nat by lia. rewrite N2. split; [lia|split; [reflexivity|split; [reflexivity|split; [reflexivity|]]]].
    assert (DL : dlin d q x k = sum (dnv d) (fun r => dq_C q r (k - dnb d)%nat * x r)) by (rewrite <- dlin_gen; f_equal; lia). rewrite DL. lra.
Qed.

Let q' : rdqp := mkDq (full_H (A := real) (dnv d) (dq_H q)) (dq_g q) (dq_Z q) (dq_A q) (dq_b q) (dq_C q) (dq_d q) (dq_m q) (dq_mask q) (dq_idxb q) (dq_rev q).
Lemma two_sum n a (f : nat -> R) : (a < n)%nat -> sum (2 * n) (fun e => (if (e =? n + a)%nat then -1 else if (e =? a)%nat then 1 else 0) * f e) = f a - f (n + a)%nat.
Proof.
  intros H. replace (2 * n)%nat with (n + n)%nat by lia. rewrite sum_split. rewrite (sum_one n a), (sum_one n a); try exact H.
  - rewrite Nat.eqb_refl. destruct (Nat.eqb_spec a (n + a)); [lia|]. rewrite Nat.eqb_refl. lra.
  - intros k Lk N. destruct (Nat.eqb_spec (n + k) (n + a)); [lia|]. destruct (Nat.eqb_spec (n + k) a); [lia|]. lra.
  - intros k Lk N. destruct (Nat.eqb_spec k (n + a)); [lia|]. destruct (Nat.eqb_spec k a); [lia|]. lra.
Qed.
Lemma rep1 : (0 < dns d)%nat -> rep inf d q (qpo_in inf d q o) x y.
Proof.
  intros Hn. assert (Hb' : own_bounds d q') by exact Hb. assert (Hs' : one_row_each d q') by exact Hs.
  unfold qpo_in. fold q'. apply Nat.ltb_lt in Hn as En. rewrite En. fold (sk d q' o).
  pose proof (ng2_eq d q' Hs' Hn) as G2. pose proof (nb2_eq d q' Hs' Hn) as B2.
  change (cnt (soft q') (dnb d)) with (cnt (soft q) (dnb d)) in G2. change (cnt (hard q') (dnb d)) with (cnt (hard q) (dnb d)) in B2.
  set (nb2 := stk_nb d q') in *. set (ng2 := stk_ng d q') in *.
  assert (N2 : stk_nv d = (dnv d + 2 * dns d)%nat) by reflexivity.
  (* the general form of a sum over the rows of the solver's QP *)
  assert (RS : forall r, (r < stk_nv d)%nat -> sum ng2 (fun j => dq_C (sk d q' o) r j * y (stk_nv d + j)%nat) =
     sum (drows d) (fun k => if (k <? dnb d)%nat && hard q k then 0 else
        (if (r <? dnv d)%nat then dcoef d q k r else if hard q k then 0 else if (r =? dnv d + dns d + sl q k)%nat then -1 else if (r =? dnv d + sl q k)%nat then 1 else 0) * yrow d q y k)).
  { intros r Hr. rewrite G2. unfold drows. rewrite !sum_split, sum_cnt. rewrite Rplus_comm. f_equal.
    - apply sum_ext. intros k Lk. unfold soft. destruct (hard q k) eqn:Eh; cbn [negb]; [rewrite (proj2 (Nat.ltb_lt k (dnb d)) Lk); reflexivity|]. rewrite andb_false_r.
      assert (Sk : soft q' k = true) by (unfold soft; change (hard q' k) with (hard q k); rewrite Eh; reflexivity).
      change (cnt (fun js : nat => negb (hard q js)) k) with (rk q' k). rewrite (sk_Cb d q' o Hs' Hn r k Hr Lk Sk). unfold yrow, dcoef. rewrite (proj2 (Nat.ltb_lt k (dnb d)) Lk). rewrite Eh.
      change (rk q' k) with (rk q k). change (sl q' k) with (sl q k). change (dq_idxb q' k) with (dq_idxb q k). rewrite Nat.add_assoc. apply (f_equal2 Rmult); [|reflexivity].
      pose proof (proj1 (Hb k Lk)) as Ib. destruct (Nat.ltb_spec r (dnv d)) as [Lr|Lr].
      + destruct (Nat.eqb_spec r (dnv d + dns d + sl q k)); [lia|]. destruct (Nat.eqb_spec r (dnv d + sl q k)); [lia|]. rewrite Nat.eqb_sym. reflexivity.
      + destruct (r =? dnv d + dns d + sl q k)%nat; [reflexivity|]. destruct (r =? dnv d + sl q k)%nat; [reflexivity|]. destruct (Nat.eqb_spec r (dq_idxb q k)); [lia|reflexivity].
    - apply sum_ext. intros j Hj. rewrite (sk_Cg d q' o Hs' Hn r j Hr Hj). destruct (Nat.ltb_spec (dnb d + j) (dnb d)); [lia|]. cbn [andb]. unfold yrow, dcoef. destruct (Nat.ltb_spec (dnb d + j) (dnb d)); [lia|].
      replace (dnb d + j - dnb d)%nat with j by lia. change (dq_C q' r j) with (dq_C q r j). change (sl q' (dnb d + j)) with (sl q (dnb d + j)). unfold soft. change (hard q' (dnb d + j)) with (hard q (dnb d + j)).
      destruct (r <? dnv d)%nat; [reflexivity|]. destruct (hard q (dnb d + j)); reflexivity. }
  (* the value of a row *)
  assert (RV : forall k j, (k < drows d)%nat -> (j < ng2)%nat -> (forall r, (r < stk_nv d)%nat -> dq_C (sk d q' o) r j =
       if (r <? dnv d)%nat then dcoef d q k r else if hard q k then 0 else if (r =? dnv d + dns d + sl q k)%nat then -1 else if (r =? dnv d + sl q k)%nat then 1 else 0) ->
     sum (stk_nv d) (fun r => dq_C (sk d q' o) r j * x r) = dlin d q x k + dslack d q x k false - dslack d q x k true).
  { intros k j Lk Lj HC. rewrite (sum_ext _ _ (fun r => (if (r <? dnv d)%nat then dcoef d q k r else if hard q k then 0 else if (r =? dnv d + dns d + sl q k)%nat then -1 else if (r =? dnv d + sl q k)%nat then 1 else 0) * x r)) by (intros r Hr; rewrite HC by exact Hr; reflexivity).
    rewrite N2, sum_split. replace (sum (dnv d) _) with (dlin d q x k) by (apply sum_ext; intros r Hr; apply Nat.ltb_lt in Hr; rewrite Hr; reflexivity).
    destruct (hard q k) eqn:Eh.
    - destruct (dslack_hard x k Eh) as [-> ->]. rewrite sum_zero; [lra|]. intros e He. destruct (Nat.ltb_spec (dnv d + e) (dnv d)); [lia|]. lra.
    - assert (Sk : soft q k = true) by (unfold soft; rewrite Eh; reflexivity). destruct (dslack_soft x k Lk Sk) as [-> ->]. destruct (soft_rev d q Hs k Lk Sk) as [Ls _].
      pose proof (two_sum (dns d) (sl q k) (fun e => x (dnv d + e)%nat) Ls) as TS. cbv beta in TS. rewrite (sum_ext (2 * dns d) _ (fun e => (if (e =? dns d + sl q k)%nat then -1 else if (e =? sl q k)%nat then 1 else 0) * x (dnv d + e)%nat)); [rewrite TS; lra|].
      intros e He. destruct (Nat.ltb_spec (dnv d + e) (dnv d)); [lia|].
      assert (Q1 : (dnv d + e =? dnv d + dns d + sl q k)%nat = (e =? dns d + sl q k)%nat) by (destruct (Nat.eqb_spec (dnv d + e) (dnv d + dns d + sl q k)), (Nat.eqb_spec e (dns d + sl q k)); try lia; reflexivity).
      assert (Q2 : (dnv d + e =? dnv d + sl q k)%nat = (e =? sl q k)%nat) by (destruct (Nat.eqb_spec (dnv d + e) (dnv d + sl q k)), (Nat.eqb_spec e (sl q k)); try lia; reflexivity).
      rewrite Q1, Q2. reflexivity. }
  (* distinct positions *)
  assert (IP : forall p, (p < nb2)%nat -> (exists k, (k < dnb d)%nat /\ hard q k = true /\ p = cnt (hard q) k /\ dq_idxb (sk d q' o) p = k /\ dq_idxb q k = k) \/
     (exists e, (e < 2 * dns d)%nat /\ p = (cnt (hard q) (dnb d) + e)%nat /\ dq_idxb (sk d q' o) p = (dnv d + e)%nat)).
  { intros p Hp. destruct (Nat.ltb_spec p (cnt (hard q) (dnb d))) as [L|L].
    - left. destruct (cnt_surj _ _ _ L) as (k & K1 & K2 & K3). exists k. destruct (sk_lb_hard d q' o Hs' Hn k K1 K2) as (_ & _ & E). change (cnt (hard q') k) with (cnt (hard q) k) in E. rewrite K3 in E.
      split; [exact K1|split; [exact K2|split; [symmetry; exact K3|split; [exact E|]]]]. apply (sk_idxb d q Hk Hn k K1). unfold hard in K2. apply Z.eqb_eq in K2. exact K2.
    - right. exists (p - cnt (hard q) (dnb d))%nat. destruct (sk_lb_slack d q' o Hs' Hn (p - cnt (hard q) (dnb d))%nat ltac:(lia)) as (_ & _ & E). change (cnt (hard q') (dnb d)) with (cnt (hard q) (dnb d)) in E.
      replace (cnt (hard q) (dnb d) + (p - cnt (hard q) (dnb d)))%nat with p in E by lia. split; [lia|split; [lia|exact E]]. }
  assert (INJ : forall p p', (p < nb2)%nat -> (p' < nb2)%nat -> dq_idxb (sk d q' o) p' = dq_idxb (sk d q' o) p -> p' = p).
  { intros p p' Hp Hp' E. destruct (IP p Hp) as [(k & K1 & K2 & K3 & K4 & K5)|(e & K1 & K2 & K3)]; destruct (IP p' Hp') as [(k' & K1' & K2' & K3' & K4' & K5')|(e' & K1' & K2' & K3')].
    - rewrite K3, K3'. f_equal. congruence.
    - pose proof (proj1 (Hb k K1)). lia.
    - pose proof (proj1 (Hb k' K1')). lia.
    - lia. }
  constructor; cbn [bx_nv bx_ng bx_H bx_g bx_C bx_lb bx_ub bx_lg bx_ug].
  - reflexivity.
  - intros r Hr. rewrite N2, sum_split. rewrite (sum_zero (2 * dns d)).
    + rewrite Rplus_0_r. apply sum_ext. intros c Hc. rewrite (sk_H d q' o Hn). destruct (Nat.leb_spec (dnv d) r); [lia|]. rewrite andb_false_r. cbn [andb]. unfold mwr at 1. apply Nat.ltb_lt in Hr as Er. apply Nat.ltb_lt in Hc as Ec. rewrite Er, Ec. cbn [andb].
      change (dq_H q' r c) with (full_H (A := real) (dnv d) (dq_H q) r c). rewrite full_sym by assumption. reflexivity.
    + intros e He. rewrite (sk_H d q' o Hn). destruct (Nat.leb_spec (dnv d) r); [lia|]. rewrite andb_false_r. cbn [andb]. unfold mwr. destruct (Nat.ltb_spec (dnv d + e) (dnv d)); [lia|]. rewrite andb_false_r.
      destruct (Nat.ltb_spec r (stk_nv d)); [|lia]. destruct (Nat.ltb_spec (dnv d + e) (stk_nv d)); [|lia]. cbn [andb]. lra.
  - intros e He. rewrite (sum_one (stk_nv d) (dnv d + e)%nat).
    + rewrite (sk_H d q' o Hn). rewrite Nat.eqb_refl. destruct (Nat.leb_spec (dnv d) (dnv d + e)); [|lia]. destruct (Nat.ltb_spec (dnv d + e) (dnv d + 2 * dns d)); [|lia]. cbn [andb]. replace (dnv d + e - dnv d)%nat with e by lia. reflexivity.
    + lia.
    + intros c Hc N. rewrite (sk_H d q' o Hn). destruct (Nat.eqb_spec (dnv d + e) c); [congruence|]. cbn [andb]. unfold mwr. destruct (Nat.ltb_spec (dnv d + e) (dnv d)); [lia|]. cbn [andb].
      destruct (Nat.ltb_spec (dnv d + e) (stk_nv d)); [|lia]. destruct (Nat.ltb_spec c (stk_nv d)); [|lia]. cbn [andb]. lra.
  - intros r Hr. destruct (sk_parts d q' o Hn) as (_ & _ & ->). rewrite wr_in by lia. replace (r - 0)%nat with r by lia. reflexivity.
  - intros r Hr. rewrite RS by lia. apply sum_ext. intros k Lk. apply Nat.ltb_lt in Hr. rewrite Hr. reflexivity.
  - intros k Lk Sk. destruct (soft_rev d q Hs k Lk Sk) as [Ls _].
    assert (Eh : hard q k = false) by (unfold soft in Sk; apply negb_true_iff in Sk; exact Sk).
    assert (OO : forall l, (l < drows d)%nat -> l <> k -> hard q l = false -> (sl q l < dns d)%nat /\ sl q l <> sl q k).
    { intros l Ll N E. assert (Sl : soft q l = true) by (unfold soft; rewrite E; reflexivity). split; [apply (soft_rev d q Hs l Ll Sl)|]. intros C. apply N. exact (sl_inj d q Hs l k Ll Lk Sl Sk C). }
    split; (rewrite RS by lia; rewrite (sum_one _ k); [|exact Lk|]).
    + rewrite Eh, andb_false_r. destruct (Nat.ltb_spec (dnv d + sl q k) (dnv d)); [lia|]. destruct (Nat.eqb_spec (dnv d + sl q k) (dnv d + dns d + sl q k)); [lia|]. rewrite Nat.eqb_refl. lra.
    + intros l Ll N. destruct (Nat.ltb_spec (dnv d + sl q k) (dnv d)); [lia|]. destruct (hard q l) eqn:El; [destruct (l <? dnb d)%nat; cbn [andb]; lra|]. rewrite andb_false_r. destruct (OO l Ll N El).
      destruct (Nat.eqb_spec (dnv d + sl q k) (dnv d + dns d + sl q l)); [lia|]. destruct (Nat.eqb_spec (dnv d + sl q k) (dnv d + sl q l)); [lia|]. lra.
    + rewrite Eh, andb_false_r. destruct (Nat.ltb_spec (dnv d + (dns d + sl q k)) (dnv d)); [lia|]. destruct (Nat.eqb_spec (dnv d + (dns d + sl q k)) (dnv d + dns d + sl q k)); [|lia]. lra.
    + intros l Ll N. destruct (Nat.ltb_spec (dnv d + (dns d + sl q k)) (dnv d)); [lia|]. destruct (hard q l) eqn:El; [destruct (l <? dnb d)%nat; cbn [andb]; lra|]. rewrite andb_false_r. destruct (OO l Ll N El).
      destruct (Nat.eqb_spec (dnv d + (dns d + sl q k)) (dnv d + dns d + sl q l)); [lia|]. destruct (Nat.eqb_spec (dnv d + (dns d + sl q k)) (dnv d + sl q l)); [lia|]. lra.
  - intros k Lk Eh. destruct (sk_lb_hard d q' o Hs' Hn k Lk Eh) as (E1 & E2 & E3). change (cnt (hard q') k) with (cnt (hard q) k) in *. pose proof (cnt_lt (hard q) k (dnb d) Lk Eh).
    assert (Ik : dq_idxb q k = k) by (apply (sk_idxb d q Hk Hn k Lk); unfold hard in Eh; apply Z.eqb_eq in Eh; exact Eh). rewrite Ik. rewrite <- E3 at 1 3.
    rewrite !scatter_at; try lia; try (intros j Hj; apply INJ; lia). unfold drows. split; [exact E1|exact E2].
  - intros r Hr Fr. rewrite !scatter_none; [auto| |]; intros p Hp E; destruct (IP p Hp) as [(k & K1 & K2 & K3 & K4 & K5)|(e & K1 & K2 & K3)]; try lia; apply (Fr k K1 K2); congruence.
  - intros e He. destruct (sk_lb_slack d q' o Hs' Hn e He) as (E1 & E2 & E3). change (cnt (hard q') (dnb d)) with (cnt (hard q) (dnb d)) in *. rewrite <- E3.
    rewrite !scatter_at; try lia; try (intros j Hj; apply INJ; lia). unfold drows. replace (2 * (dnb d + dng d) + e)%nat with (2 * dnb d + 2 * dng d + e)%nat by lia. split; [exact E1|exact E2].
  - intros k Lk Ck. destruct (Nat.ltb_spec k (dnb d)) as [L|L].
    + destruct Ck as [Ck|Sk]; [lia|]. assert (Sk' : soft q' k = true) by exact Sk. exists (dng d + rk q k)%nat. pose proof (rk_lt d q k L Sk). change (cnt (soft q) (dnb d)) with (cnt (soft q) (dnb d)) in *.
      assert (Eh : hard q k = false) by (unfold soft in Sk; apply negb_true_iff in Sk; exact Sk).
      destruct (sk_lg_soft d q' o Hs' Hn k L Sk') as [E1 E2]. change (rk q' k) with (rk q k) in *. split; [lia|]. split; [|split; [exact E1|split; [exact E2|]]].
      * unfold yrow. apply Nat.ltb_lt in L. rewrite L, Eh. f_equal. lia.
      * apply (RV k); [exact Lk|lia|]. intros r Hr. change (rk q k) with (rk q' k). rewrite (sk_Cb d q' o Hs' Hn r k Hr L Sk'). unfold dcoef. rewrite (proj2 (Nat.ltb_lt _ _) L), Eh. change (sl q' k) with (sl q k). change (dq_idxb q' k) with (dq_idxb q k).
        pose proof (proj1 (Hb k L)) as Ib. destruct (Nat.ltb_spec r (dnv d)) as [Lr|Lr].
        -- destruct (Nat.eqb_spec r (dnv d + dns d + sl q k)); [lia|]. destruct (Nat.eqb_spec r (dnv d + sl q k)); [lia|]. rewrite Nat.eqb_sym. reflexivity.
        -- destruct (r =? dnv d + dns d + sl q k)%nat; [reflexivity|]. destruct (r =? dnv d + sl q k)%nat; [reflexivity|]. destruct (Nat.eqb_spec r (dq_idxb q k)); [lia|reflexivity].
    + exists (k - dnb d)%nat. unfold drows in Lk. destruct (sk_lg d q' o Hs' Hn (k - dnb d) ltac:(lia)) as [E1 E2]. replace (dnb d + (k - dnb d))%nat with k in E1 by lia. replace (2 * dnb d + dng d + (k - dnb d))%nat with (dnb d + dng d + k)%nat in E2 by lia.
      split; [lia|]. split; [|split; [exact E1|split; [exact E2|]]].
      * unfold yrow. destruct (Nat.ltb_spec k (dnb d)); [lia|]. reflexivity.
      * apply (RV k); [exact Lk|lia|]. intros r Hr. rewrite (sk_Cg d q' o Hs' Hn r (k - dnb d) Hr ltac:(lia)). unfold dcoef. destruct (Nat.ltb_spec k (dnb d)); [lia|]. replace (dnb d + (k - dnb d))%nat with k by lia.
        change (dq_C q' r (k - dnb d)%nat) with (dq_C q r (k - dnb d)%nat). change (sl q' k) with (sl q k). unfold soft. change (hard q' k) with (hard q k). destruct (r <? dnv d)%nat; [reflexivity|]. destruct (hard q k); reflexivity.
Qed.
Lemma rep_in : rep inf d q (qpo_in inf d q o) x y.
Proof. destruct (Nat.eq_dec (dns d) 0) as [E|N]; [apply rep0; exact E|apply rep1; lia]. Qed.
End M.
