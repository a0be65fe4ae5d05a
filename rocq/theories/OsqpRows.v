(** The rows of the QP given to OSQP: their numbering and their meaning. *)
From Coq Require Import ZArith List Bool Lia Reals Lra Arith.
From Verif Require Import Arith QpsModel CscModel RSum QpsSpec OsqpModel OsqpSpec CscProofs OsqpProofs.
Import ListNotations.
Open Scope R_scope.

Section O.
Variable d : qdims.
Variable q : rqp.
Notation N := (qN d). Notation nx := (qnx d). Notation nu := (qnu d). Notation nb := (qnb d). Notation ng := (qng d). Notation ns := (qns d).
Notation rev := (q_rev q).
Notation nv := (nv d). Notation nrow := (nrow d).
Notation rdyn := (rdyn d). Notation rcon := (rcon d). Notation rrep := (rrep d q). Notation rslk := (rslk d). Notation width := (width d).
Hypothesis WB : wf_bounds d q.
Hypothesis WS : wf_soft d q.

Lemma soft_cases k i : (k <= N)%nat -> (i < nrow k)%nat -> (soft q k i = false /\ rev k i = (-1)%Z) \/ (soft q k i = true /\ exists j, (j < ns k)%nat /\ rev k i = Z.of_nat j).
Proof.
  intros Hk Hi. destruct (WS k Hk) as [A _]. unfold soft. destruct (A i Hi) as [->|B]; [left; split; reflexivity|].
  right. split; [apply Z.leb_le; lia|]. exists (Z.to_nat (rev k i)). lia.
Qed.
Lemma packed_all k : (k <= N)%nat -> packed q k (nrow k) = ns k.
Proof. intros Hk. rewrite packed_filter. apply (WS k Hk). Qed.
Lemma packed_ns k i : (k <= N)%nat -> (i < nrow k)%nat -> soft q k i = true -> (packed q k i < ns k)%nat.
Proof. intros Hk Hi S. rewrite <- (packed_all k Hk). apply packed_lt; assumption. Qed.

(** numbering *)
Lemma dyn_lt k i : (k < N)%nat -> (i < nx (S k))%nat -> (rdyn k i < con_start d)%nat.
Proof.
  intros Hk Hi. unfold OsqpProofs.rdyn, con_start, off_dyn. apply nsum_block; [lia|]. destruct (Nat.ltb_spec k N); lia.
Qed.
Lemma dyn_inj k i k' i' : (k < N)%nat -> (i < nx (S k))%nat -> (k' < N)%nat -> (i' < nx (S k'))%nat -> rdyn k i = rdyn k' i' -> k = k' /\ i = i'.
Proof.
  intros A B C D E. unfold OsqpProofs.rdyn, off_dyn in E. refine (nsum_inj _ k i k' i' _ _ E).
  - destruct (Nat.ltb_spec k N); lia.
  - destruct (Nat.ltb_spec k' N); lia.
Qed.
Lemma con_ge k i : (con_start d <= rcon k i)%nat.
Proof. unfold OsqpProofs.rcon, base. lia. Qed.
Lemma rep_ge k i : (con_start d <= rrep k i)%nat.
Proof. unfold OsqpProofs.rrep, base. lia. Qed.
Lemma con_lt k i : (k <= N)%nat -> (i < nrow k)%nat -> (rcon k i < slk_start d)%nat.
Proof.
  intros Hk Hi. unfold OsqpProofs.rcon, base, slk_start. unfold QpsSpec.nrow in Hi.
  pose proof (nsum_block (fun k => nb k + ng k + ns k)%nat (S N) k i ltac:(lia) ltac:(cbv beta; lia)). unfold off_con. lia.
Qed.
Lemma rep_lt k i : (k <= N)%nat -> (i < nrow k)%nat -> soft q k i = true -> (rrep k i < slk_start d)%nat.
Proof.
  intros Hk Hi S. pose proof (packed_ns k i Hk Hi S). unfold OsqpProofs.rrep, base, slk_start.
  pose proof (nsum_block (fun k => nb k + ng k + ns k)%nat (Datatypes.S N) k (nb k + ng k + packed q k i) ltac:(lia) ltac:(cbv beta; lia)). unfold off_con. lia.
Qed.
Lemma con_inj k i k' i' : (i < nrow k)%nat -> (i' < nrow k')%nat -> rcon k i = rcon k' i' -> k = k' /\ i = i'.
Proof.
  intros A B E. unfold OsqpProofs.rcon, base, off_con, QpsSpec.nrow in *.
  apply (nsum_inj (fun k => nb k + ng k + ns k)%nat k i k' i'); lia.
Qed.
Lemma rep_inj k i k' i' : (k <= N)%nat -> (k' <= N)%nat -> (i < nrow k)%nat -> (i' < nrow k')%nat -> soft q k i = true -> soft q k' i' = true ->
  rrep k i = rrep k' i' -> k = k' /\ i = i'.
Proof.
  intros Hk Hk' A B S S' E. pose proof (packed_ns k i Hk A S). pose proof (packed_ns k' i' Hk' B S'). unfold OsqpProofs.rrep, base, off_con in E.
  destruct (nsum_inj (fun k => nb k + ng k + ns k)%nat k (nb k + ng k + packed q k i) k' (nb k' + ng k' + packed q k' i')) as [-> E2]; [lia..|].
  split; [reflexivity|]. apply (packed_inj q k'); [assumption..|lia].
Qed.
Lemma con_rep k i k' i' : (k <= N)%nat -> (k' <= N)%nat -> (i < nrow k)%nat -> (i' < nrow k')%nat -> soft q k' i' = true -> rcon k i <> rrep k' i'.
Proof.
  intros Hk Hk' A B S' E. pose proof (packed_ns k' i' Hk' B S'). unfold OsqpProofs.rrep, OsqpProofs.rcon, base, off_con, QpsSpec.nrow in *.
  destruct (nsum_inj (fun k => nb k + ng k + ns k)%nat k i k' (nb k' + ng k' + packed q k' i')) as [-> E2]; lia.
Qed.
Lemma slk_ge k e : (slk_start d <= rslk k e)%nat.
Proof. unfold OsqpProofs.rslk. lia. Qed.
Lemma slk_inj k e k' e' : (e < 2 * ns k)%nat -> (e' < 2 * ns k')%nat -> rslk k e = rslk k' e' -> k = k' /\ e = e'.
Proof. intros A B E. unfold OsqpProofs.rslk, off_slk in E. apply (nsum_inj (fun k => 2 * ns k)%nat k e k' e'); lia. Qed.
Lemma con_start_sum : con_start d = nsum N (fun k => nx (S k)).
Proof.
  unfold con_start, off_dyn. cbn [nsum]. rewrite Nat.ltb_irrefl, Nat.add_0_r. apply nsum_ext. intros k Hk. destruct (Nat.ltb_spec k N); lia.
Qed.
Lemma num_constr_split : num_constr d = (slk_start d + off_slk d (S N))%nat.
Proof.
  unfold num_constr, slk_start, off_con, off_slk. rewrite con_start_sum. rewrite (nsum_plus (fun k => nb k + ng k + ns k)%nat (fun k => 2 * ns k)%nat). lia.
Qed.
Lemma slk_lt k e : (k <= N)%nat -> (e < 2 * ns k)%nat -> (rslk k e < num_constr d)%nat.
Proof.
  intros Hk He. rewrite num_constr_split. unfold OsqpProofs.rslk, off_slk.
  pose proof (nsum_block (fun k => 2 * ns k)%nat (S N) k e ltac:(lia) He). lia.
Qed.
Lemma starts_le : (con_start d <= slk_start d)%nat /\ (slk_start d <= num_constr d)%nat.
Proof. rewrite num_constr_split. unfold slk_start. lia. Qed.
(** every row is one of these *)
Lemma row_cases r : (r < num_constr d)%nat ->
  (exists k i, (k < N)%nat /\ (i < nx (S k))%nat /\ r = rdyn k i) \/
  (exists k i, (k <= N)%nat /\ (i < nrow k)%nat /\ r = rcon k i) \/
  (exists k i, (k <= N)%nat /\ (i < nrow k)%nat /\ soft q k i = true /\ r = rrep k i) \/
  (exists k e, (k <= N)%nat /\ (e < 2 * ns k)%nat /\ r = rslk k e).
Proof.
  intros H. rewrite num_constr_split in H. destruct (lt_dec r (con_start d)) as [L|L].
  - left. destruct (nsum_find _ _ _ L) as (k & i & A & B & C). exists k, i. destruct (Nat.ltb_spec k N) as [Hk|]; [|lia]. repeat split; assumption.
  - right. destruct (lt_dec r (slk_start d)) as [L1|L1].
    + assert (L2 : (r - con_start d < nsum (S N) (fun k => nb k + ng k + ns k))%nat) by (unfold slk_start, off_con in L1; lia).
      destruct (nsum_find _ _ _ L2) as (k & i & A & B & C). destruct (lt_dec i (nrow k)) as [Li|Li].
      * left. exists k, i. repeat split; [lia|exact Li|]. unfold OsqpProofs.rcon, base, off_con. lia.
      * right. left. unfold QpsSpec.nrow in Li. assert (Hk : (k <= N)%nat) by lia.
        destruct (packed_find q k (nrow k) (i - (nb k + ng k))) as (j & J1 & J2 & J3); [rewrite packed_all by exact Hk; lia|].
        exists k, j. repeat split; [exact Hk|exact J1|exact J2|]. unfold OsqpProofs.rrep, base, off_con. lia.
    + right. right. destruct (nsum_find (fun k => 2 * ns k)%nat (S N) (r - slk_start d)) as (k & e & A & B & C); [unfold off_slk in H; lia|].
      exists k, e. repeat split; [lia|exact B|]. unfold OsqpProofs.rslk, off_slk. lia.
Qed.

(** rows of a column are rows of the matrix *)
Lemma off_back k : (0 < k)%nat -> (k <= N)%nat -> forall j, (j < nx k)%nat -> (rdyn (k - 1) j < con_start d)%nat.
Proof. intros H Hk j Hj. apply dyn_lt; [lia|]. replace (S (k - 1)) with k by lia. exact Hj. Qed.

Lemma in_cond {X} (p : nat -> bool) (f : nat -> X) n x : In x (flat_map (fun i => if p i then [f i] else []) (seq 0 n)) -> exists i, (i < n)%nat /\ p i = true /\ x = f i.
Proof.
  intros H. apply in_flat_map in H. destruct H as (i & I & J). apply in_seq in I. exists i. destruct (p i); [|contradiction].
  destruct J as [J|[]]. repeat split; [lia|symmetry; exact J].
Qed.
Lemma in_mapseq {X} (f : nat -> X) n x : In x (map f (seq 0 n)) -> exists i, (i < n)%nat /\ x = f i.
Proof. intros H. apply in_map_iff in H. destruct H as (i & E & I). apply in_seq in I. exists i. split; [lia|symmetry; exact E]. Qed.
Lemma con_row_lt k v r : (k <= N)%nat -> In r (con_rows d q k v) -> (con_start d <= r < slk_start d)%nat.
Proof.
  intros Hk. unfold con_rows. cbv zeta. rewrite repl_flat by (unfold nsb; rewrite !Nat.add_0_r; reflexivity).
  intros H. repeat (apply in_app_or in H; destruct H as [H|H]).
  - destruct (Nat.ltb_spec (bound_of d q k v) (nb k)) as [L|L]; [|contradiction]. destruct H as [<-|[]]. fold (rcon k (bound_of d q k v)).
    split; [apply con_ge|]. apply con_lt; [exact Hk|unfold QpsSpec.nrow; lia].
  - apply in_mapseq in H. destruct H as (i & Hi & ->). replace (base d k + nb k + i)%nat with (rcon k (nb k + i)) by (unfold OsqpProofs.rcon; lia).
    split; [apply con_ge|]. apply con_lt; [exact Hk|unfold QpsSpec.nrow; lia].
  - destruct (Nat.ltb_spec (bound_of d q k v) (nb k)) as [L|L]; [|contradiction]. destruct (soft q k (bound_of d q k v)) eqn:S; [|contradiction].
    destruct H as [<-|[]]. fold (rrep k (bound_of d q k v)). split; [apply rep_ge|]. apply rep_lt; [exact Hk|unfold QpsSpec.nrow; lia|exact S].
  - apply (in_cond (fun i => soft q k (nb k + i)) (fun i => rrep k (nb k + i))) in H. destruct H as (i & Hi & S & ->).
    split; [apply rep_ge|]. apply rep_lt; [exact Hk|unfold QpsSpec.nrow; lia|exact S].
Qed.
Lemma dyn_row_lt k r : (k <= N)%nat -> In r (dyn_rows d k) -> (r < con_start d)%nat.
Proof. intros Hk. unfold dyn_rows. destruct (Nat.ltb_spec k N); [|contradiction]. intros H1. apply in_mapseq in H1. destruct H1 as (i & Hi & ->). apply dyn_lt; assumption. Qed.
Lemma eye_row_lt k j r : (k <= N)%nat -> (j < nx k)%nat -> In r (eye_rows d k j) -> (r < con_start d)%nat.
Proof.
  intros Hk Hj. unfold eye_rows. destruct (Nat.ltb_spec 0 k); [|contradiction]. intros [<-|[]]. rewrite off_dyn_back by assumption. apply off_back; assumption.
Qed.
Lemma crow_lt k t r : (k <= N)%nat -> (t < width k)%nat -> In r (crow d q k t) -> (r < num_constr d)%nat.
Proof.
  intros Hk Ht. pose proof starts_le as [S1 S2]. unfold OsqpProofs.width in Ht. unfold crow.
  assert (Ens : nrow k = (nb k + ng k)%nat) by reflexivity. assert (Env : nv k = (nu k + nx k)%nat) by reflexivity.
  destruct (Nat.ltb_spec t (nu k)).
  - unfold u_rows. intros H1. apply in_app_or in H1. destruct H1 as [H1|H1]; [apply dyn_row_lt in H1; [lia|exact Hk]|apply con_row_lt in H1; [lia|exact Hk]].
  - destruct (Nat.ltb_spec t (nv k)).
    + unfold x_rows. intros H1. apply in_app_or in H1; destruct H1 as [H1|H1]; [|apply in_app_or in H1; destruct H1 as [H1|H1]].
      * apply eye_row_lt in H1; [lia|exact Hk|lia].
      * apply dyn_row_lt in H1; [lia|exact Hk].
      * apply con_row_lt in H1; [lia|exact Hk].
    + destruct (Nat.ltb_spec t (nv k + ns k)).
      * unfold sl_rows. intros H3. apply in_app_or in H3. destruct H3 as [H3|[<-|[]]].
        -- apply (in_cond (fun i => (rev k i =? Z.of_nat (t - nv k))%Z) (fun i => (base d k + i)%nat)) in H3. destruct H3 as (i & Hi & _ & ->).
           fold (rcon k i). pose proof (con_lt k i Hk ltac:(lia)). lia.
        -- apply (slk_lt k (t - nv k) Hk). lia.
      * unfold su_rows. rewrite (up_flat d q k _ _ 0). intros H3. apply in_app_or in H3. destruct H3 as [H3|[<-|[]]].
        -- apply (in_cond (fun i => (rev k i =? Z.of_nat (t - nv k - ns k))%Z) (rrep k)) in H3. destruct H3 as (i & Hi & E & ->).
           assert (S : soft q k i = true) by (unfold soft; apply Z.leb_le; apply Z.eqb_eq in E; lia). pose proof (rep_lt k i Hk ltac:(lia) S). lia.
        -- pose proof (slk_lt k (ns k + (t - nv k - ns k)) Hk ltac:(lia)) as G. unfold OsqpProofs.rslk in G. lia.
Qed.

(** a matrix whose columns are the ones written *)
Variable M : nat -> nat -> R.
Hypothesis HM : forall r c, (c < num_vars d)%nat -> M r c = ldot (nth c (con_cols_rows d q) []) (nth c (con_cols_vals d q) []) (unit_at r).
Lemma var_lt k t : (k <= N)%nat -> (t < width k)%nat -> (hess_off d k + t < num_vars d)%nat.
Proof. intros Hk Ht. unfold hess_off, num_vars. apply nsum_block; [lia|exact Ht]. Qed.
Lemma M_col k t r : (k <= N)%nat -> (t < width k)%nat -> M r (hess_off d k + t) = colform d q k t (unit_at r).
Proof.
  intros Hk Ht. rewrite HM by (apply var_lt; assumption). rewrite rows_nth, vals_nth by assumption. apply col_ldot; assumption.
Qed.
Lemma M_stat k t y : (k <= N)%nat -> (t < width k)%nat -> sum (num_constr d) (fun r => M r (hess_off d k + t) * y r) = colform d q k t y.
Proof.
  intros Hk Ht. rewrite <- (col_ldot d q WB k t y Hk Ht). rewrite <- (ldot_rows (num_constr d)) by (intros r; apply crow_lt; assumption).
  apply sum_ext. intros r _. rewrite HM by (apply var_lt; assumption). rewrite rows_nth, vals_nth by assumption. reflexivity.
Qed.

Section Z.
Variable z : nat -> R.
Definition stg (k t : nat) : R := z (hess_off d k + t)%nat.
(** the value of a row as a weighted sum over all rows *)
Definition rowform (w : nat -> R) : R :=
  sum N (fun k => sum (nx (S k)) (fun i => w (rdyn k i) * (sum (nv k) (fun t => q_BA q k t i * stg k t) - stg (S k) (nu (S k) + i)%nat)))
  + sum (S N) (fun k =>
      sum (nrow k) (fun i => w (rcon k i) * (lin d q stg k i + slack d q stg k i false))
      + sum (nrow k) (fun i => if soft q k i then w (rrep k i) * (lin d q stg k i - slack d q stg k i true) else 0)
      + sum (2 * ns k) (fun e => w (rslk k e) * stg k (nv k + e)%nat)).

Lemma slack_sum k (up : bool) (F : nat -> R) : (k <= N)%nat ->
  sum (ns k) (fun j => sum (nrow k) (fun i => if (rev k i =? Z.of_nat j)%Z then F i else 0) * stg k (nv k + (if up then ns k else 0) + j)%nat)
  = sum (nrow k) (fun i => F i * slack d q stg k i up).
Proof.
  intros Hk. rewrite (sum_ext (ns k) _ (fun j => sum (nrow k) (fun i => (if (rev k i =? Z.of_nat j)%Z then F i else 0) * stg k (nv k + (if up then ns k else 0) + j)%nat)))
    by (intros j _; rewrite sum_scal_r; reflexivity).
  rewrite sum_swap. apply sum_ext. intros i Hi. unfold slack. destruct (soft_cases k i Hk Hi) as [[_ E]|[_ [j [Hj E]]]]; rewrite E.
  - change (0 <=? -1)%Z with false. cbv iota. rewrite sum_zero; [lra|]. intros j Hj. destruct (Z.eqb_spec (-1) (Z.of_nat j)); [lia|lra].
  - replace (0 <=? Z.of_nat j)%Z with true by (symmetry; apply Z.leb_le; lia). rewrite Nat2Z.id.
    rewrite (sum_one (ns k) j); [rewrite Z.eqb_refl; reflexivity|exact Hj|]. intros j' _ Ne. destruct (Z.eqb_spec (Z.of_nat j) (Z.of_nat j')); [lia|lra].
Qed.
Lemma rows_form w : sum (S N) (fun k => sum (width k) (fun t => colform d q k t w * stg k t)) = rowform w.
Proof.
  unfold rowform.
  set (E := fun k => sum (nv k) (fun t => (if (0 <? k)%nat && (nu k <=? t)%nat then - w (rdyn (k - 1) (t - nu k)) else 0) * stg k t)).
  set (D := fun k => if (k <? N)%nat then sum (nx (S k)) (fun i => w (rdyn k i) * sum (nv k) (fun t => q_BA q k t i * stg k t)) else 0).
  set (C := fun k => sum (nrow k) (fun i => w (rcon k i) * (lin d q stg k i + slack d q stg k i false))
      + sum (nrow k) (fun i => if soft q k i then w (rrep k i) * (lin d q stg k i - slack d q stg k i true) else 0)
      + sum (2 * ns k) (fun e => w (rslk k e) * stg k (nv k + e)%nat)).
  rewrite (sum_ext (S N) _ (fun k => (E k + D k) + C k)).
  - rewrite !sum_plus. apply (f_equal2 Rplus); [|reflexivity].
    assert (ES : sum (S N) E = - sum N (fun k => sum (nx (S k)) (fun i => w (rdyn k i) * stg (S k) (nu (S k) + i)%nat))).
    { replace (S N) with (1 + N)%nat by lia. rewrite sum_split. cbn [sum]. replace (E 0%nat) with 0.
      2:{ symmetry. unfold E. apply sum_zero. intros t _. cbn [Nat.ltb Nat.leb andb]. lra. }
      rewrite <- sum_opp, !Rplus_0_l. apply sum_ext. intros k Hk. unfold E. cbn [Nat.add]. replace (S k - 1)%nat with k by lia.
      change (0 <? S k)%nat with true. cbn [andb]. unfold QpsSpec.nv. rewrite sum_split. rewrite sum_zero.
      2:{ intros t Ht. destruct (Nat.leb_spec (nu (S k)) t); [lia|lra]. }
      rewrite <- sum_opp, Rplus_0_l. apply sum_ext. intros i Hi. destruct (Nat.leb_spec (nu (S k)) (nu (S k) + i)); [|lia].
      replace (nu (S k) + i - nu (S k))%nat with i by lia. lra. }
    rewrite ES. rewrite sum_S. replace (D N) with 0 by (unfold D; rewrite Nat.ltb_irrefl; reflexivity).
    rewrite (sum_ext N D (fun k => sum (nx (S k)) (fun i => w (rdyn k i) * sum (nv k) (fun t => q_BA q k t i * stg k t)))).
    2:{ intros k Hk. unfold D. destruct (Nat.ltb_spec k N); [reflexivity|lia]. }
    rewrite <- sum_opp, Rplus_0_r, <- sum_plus. apply sum_ext. intros k Hk. rewrite <- sum_opp, <- sum_plus. apply sum_ext. intros i Hi. lra.
  - intros k HkN. assert (Hk : (k <= N)%nat) by lia.
    replace (width k) with (nv k + (ns k + ns k))%nat by (unfold OsqpProofs.width, QpsSpec.nv; lia). rewrite !sum_split.
    set (c1 := fun t => sum (nrow k) (fun i => coef d q k i t * w (rcon k i))).
    set (c2 := fun t => sum (nrow k) (fun i => if soft q k i then coef d q k i t * w (rrep k i) else 0)).
    set (dd := fun t => if (k <? N)%nat then sum (nx (S k)) (fun i => q_BA q k t i * w (rdyn k i)) else 0).
    assert (H1 : sum (nv k) (fun t => colform d q k t w * stg k t) =
      E k + D k + sum (nrow k) (fun i => w (rcon k i) * lin d q stg k i) + sum (nrow k) (fun i => if soft q k i then w (rrep k i) * lin d q stg k i else 0)).
    { rewrite (sum_ext (nv k) _ (fun t => (if (0 <? k)%nat && (nu k <=? t)%nat then - w (rdyn (k - 1) (t - nu k)) else 0) * stg k t + dd t * stg k t + c1 t * stg k t + c2 t * stg k t)).
      2:{ intros t Ht. unfold colform. destruct (Nat.ltb_spec t (nv k)); [|lia]. fold (c1 t) (c2 t) (dd t). lra. }
      rewrite !sum_plus. apply (f_equal2 Rplus); [apply (f_equal2 Rplus); [apply (f_equal2 Rplus); [reflexivity|]|]|].
      - unfold D, dd. destruct (Nat.ltb_spec k N); [|apply sum_zero; intros; lra].
        rewrite (sum_ext (nv k) _ (fun t => sum (nx (S k)) (fun i => q_BA q k t i * w (rdyn k i) * stg k t))) by (intros t _; rewrite <- sum_scal_r; reflexivity).
        rewrite sum_swap. apply sum_ext. intros i _. rewrite <- sum_scal. apply sum_ext. intros t _. lra.
      - unfold c1. rewrite (sum_ext (nv k) _ (fun t => sum (nrow k) (fun i => coef d q k i t * w (rcon k i) * stg k t))) by (intros t _; rewrite <- sum_scal_r; reflexivity).
        rewrite sum_swap. apply sum_ext. intros i _. unfold lin. rewrite <- sum_scal. apply sum_ext. intros t _. lra.
      - unfold c2. rewrite (sum_ext (nv k) _ (fun t => sum (nrow k) (fun i => (if soft q k i then coef d q k i t * w (rrep k i) else 0) * stg k t))) by (intros t _; rewrite <- sum_scal_r; reflexivity).
        rewrite sum_swap. apply sum_ext. intros i _. destruct (soft q k i).
        + unfold lin. rewrite <- sum_scal. apply sum_ext. intros t _. lra.
        + apply sum_zero. intros. lra. }
    assert (H2 : sum (ns k) (fun j => colform d q k (nv k + j) w * stg k (nv k + j)%nat) =
      sum (nrow k) (fun i => w (rcon k i) * slack d q stg k i false) + sum (ns k) (fun e => w (rslk k e) * stg k (nv k + e)%nat)).
    { rewrite <- (slack_sum k false (fun i => w (rcon k i)) Hk). rewrite <- sum_plus. apply sum_ext. intros j Hj. unfold colform.
      destruct (Nat.ltb_spec (nv k + j) (nv k)); [lia|]. destruct (Nat.ltb_spec (nv k + j) (nv k + ns k)); [|lia].
      replace (nv k + j - nv k)%nat with j by lia. rewrite Nat.add_0_r. lra. }
    assert (H3 : sum (ns k) (fun j => colform d q k (nv k + (ns k + j)) w * stg k (nv k + (ns k + j))%nat) =
      - sum (nrow k) (fun i => (if soft q k i then w (rrep k i) else 0) * slack d q stg k i true) + sum (ns k) (fun e => w (rslk k (ns k + e)) * stg k (nv k + (ns k + e))%nat)).
    { rewrite <- (slack_sum k true (fun i => if soft q k i then w (rrep k i) else 0) Hk). rewrite <- sum_opp, <- sum_plus. apply sum_ext. intros j Hj. unfold colform.
      destruct (Nat.ltb_spec (nv k + (ns k + j)) (nv k)); [lia|]. destruct (Nat.ltb_spec (nv k + (ns k + j)) (nv k + ns k)); [lia|].
      replace (nv k + (ns k + j) - nv k)%nat with (ns k + j)%nat by lia. replace (ns k + j - ns k)%nat with j by lia. rewrite (Nat.add_assoc (nv k)).
      assert (EQ : sum (nrow k) (fun i => if (rev k i =? Z.of_nat j)%Z then w (rrep k i) else 0) = sum (nrow k) (fun i => if (rev k i =? Z.of_nat j)%Z then if soft q k i then w (rrep k i) else 0 else 0)).
      { apply sum_ext. intros i Hi. destruct (Z.eqb_spec (rev k i) (Z.of_nat j)) as [Ej|]; [|reflexivity]. unfold soft. rewrite Ej.
        replace (0 <=? Z.of_nat j)%Z with true by (symmetry; apply Z.leb_le; lia). reflexivity. }
      rewrite EQ. lra. }
    unfold C. rewrite H1, H2, H3. replace (2 * ns k)%nat with (ns k + ns k)%nat by lia. rewrite sum_split.
    rewrite (sum_ext (nrow k) (fun i => w (rcon k i) * (lin d q stg k i + slack d q stg k i false)) (fun i => w (rcon k i) * lin d q stg k i + w (rcon k i) * slack d q stg k i false)) by (intros; lra).
    rewrite (sum_ext (nrow k) (fun i => if soft q k i then w (rrep k i) * (lin d q stg k i - slack d q stg k i true) else 0)
      (fun i => (if soft q k i then w (rrep k i) * lin d q stg k i else 0) - (if soft q k i then w (rrep k i) else 0) * slack d q stg k i true)) by (intros i _; destruct (soft q k i); lra).
    rewrite sum_plus, sum_minus. lra.
Qed.
Lemma M_rows r : sum (num_vars d) (fun c => M r c * z c) = rowform (unit_at r).
Proof.
  rewrite <- rows_form. unfold num_vars. rewrite sum_stages. apply sum_ext. intros k Hk. apply sum_ext. intros t Ht.
  change (nsum k (fun k0 : nat => (nx k0 + nu k0 + 2 * ns k0)%nat)) with (hess_off d k). rewrite M_col by (try exact Ht; lia). reflexivity.
Qed.

Lemma unit_ne r i : i <> r -> unit_at r i = 0.
Proof. intros H. unfold unit_at. destruct (Nat.eqb_spec i r); [contradiction|reflexivity]. Qed.
Lemma unit_eq r : unit_at r r = 1.
Proof. unfold unit_at. rewrite Nat.eqb_refl. reflexivity. Qed.
Lemma dyn_zero r : (con_start d <= r)%nat ->
  sum N (fun k => sum (nx (S k)) (fun i => unit_at r (rdyn k i) * (sum (nv k) (fun t => q_BA q k t i * stg k t) - stg (S k) (nu (S k) + i)%nat))) = 0.
Proof. intros H. apply sum_zero. intros k Hk. apply sum_zero. intros i Hi. pose proof (dyn_lt k i Hk Hi). rewrite unit_ne by lia. lra. Qed.
Lemma con_zero k r : (k <= N)%nat -> (forall i, (i < nrow k)%nat -> rcon k i <> r) ->
  sum (nrow k) (fun i => unit_at r (rcon k i) * (lin d q stg k i + slack d q stg k i false)) = 0.
Proof. intros Hk H. apply sum_zero. intros i Hi. rewrite unit_ne by (apply H; exact Hi). lra. Qed.
Lemma rep_zero k r : (k <= N)%nat -> (forall i, (i < nrow k)%nat -> soft q k i = true -> rrep k i <> r) ->
  sum (nrow k) (fun i => if soft q k i then unit_at r (rrep k i) * (lin d q stg k i - slack d q stg k i true) else 0) = 0.
Proof. intros Hk H. apply sum_zero. intros i Hi. destruct (soft q k i) eqn:S; [|reflexivity]. rewrite unit_ne by (apply H; assumption). lra. Qed.
Lemma slk_zero k r : (forall e, (e < 2 * ns k)%nat -> rslk k e <> r) -> sum (2 * ns k) (fun e => unit_at r (rslk k e) * stg k (nv k + e)%nat) = 0.
Proof. intros H. apply sum_zero. intros e He. rewrite unit_ne by (apply H; exact He). lra. Qed.

(** the rows *)
Lemma row_dyn k0 i0 : (k0 < N)%nat -> (i0 < nx (S k0))%nat ->
  sum (num_vars d) (fun c => M (rdyn k0 i0) c * z c) = sum (nv k0) (fun t => q_BA q k0 t i0 * stg k0 t) - stg (S k0) (nu (S k0) + i0)%nat.
Proof.
  intros Hk Hi. rewrite M_rows. unfold rowform. pose proof (dyn_lt k0 i0 Hk Hi) as L.
  rewrite (sum_zero (S N)).
  2:{ intros k HkN. rewrite con_zero, rep_zero, slk_zero; [lra|..].
      - intros e He. pose proof (slk_ge k e). pose proof starts_le. lia.
      - lia.
      - intros i _ _. pose proof (rep_ge k i). lia.
      - lia.
      - intros i _. pose proof (con_ge k i). lia. }
  rewrite (sum_one N k0); [|exact Hk|].
  - rewrite (sum_one (nx (S k0)) i0); [rewrite unit_eq; lra|exact Hi|]. intros i Hi' Ne. rewrite unit_ne; [lra|]. intros E. apply dyn_inj in E; try assumption. lia.
  - intros k HkN Ne. apply sum_zero. intros i Hi'. rewrite unit_ne; [lra|]. intros E. apply dyn_inj in E; try assumption. lia.
Qed.
Lemma row_con k0 i0 : (k0 <= N)%nat -> (i0 < nrow k0)%nat -> sum (num_vars d) (fun c => M (rcon k0 i0) c * z c) = lin d q stg k0 i0 + slack d q stg k0 i0 false.
Proof.
  intros Hk Hi. rewrite M_rows. unfold rowform. rewrite dyn_zero by apply con_ge. pose proof (con_lt k0 i0 Hk Hi) as L.
  assert (Z1 : forall k, (k <= N)%nat -> sum (nrow k) (fun i => if soft q k i then unit_at (rcon k0 i0) (rrep k i) * (lin d q stg k i - slack d q stg k i true) else 0) = 0).
  { intros k HkN. apply rep_zero; [exact HkN|]. intros i Hi' S E. symmetry in E. revert E. apply con_rep; assumption. }
  assert (Z2 : forall k, sum (2 * ns k) (fun e => unit_at (rcon k0 i0) (rslk k e) * stg k (nv k + e)%nat) = 0).
  { intros k. apply slk_zero. intros e _. pose proof (slk_ge k e). lia. }
  rewrite (sum_one (S N) k0); [|lia|].
  - rewrite Z1, Z2 by exact Hk. rewrite (sum_one (nrow k0) i0); [rewrite unit_eq; lra|exact Hi|].
    intros i Hi' Ne. rewrite unit_ne; [lra|]. intros E. apply con_inj in E; try assumption. lia.
  - intros k HkN Ne. rewrite Z1, Z2, con_zero; [lra|lia| |lia]. intros i Hi' E. apply con_inj in E; try assumption. lia.
Qed.
Lemma row_rep k0 i0 : (k0 <= N)%nat -> (i0 < nrow k0)%nat -> soft q k0 i0 = true ->
  sum (num_vars d) (fun c => M (rrep k0 i0) c * z c) = lin d q stg k0 i0 - slack d q stg k0 i0 true.
Proof.
  intros Hk Hi Hs. rewrite M_rows. unfold rowform. rewrite dyn_zero by apply rep_ge. pose proof (rep_lt k0 i0 Hk Hi Hs) as L.
  assert (Z1 : forall k, (k <= N)%nat -> sum (nrow k) (fun i => unit_at (rrep k0 i0) (rcon k i) * (lin d q stg k i + slack d q stg k i false)) = 0).
  { intros k HkN. apply con_zero; [exact HkN|]. intros i Hi'. apply con_rep; assumption. }
  assert (Z2 : forall k, sum (2 * ns k) (fun e => unit_at (rrep k0 i0) (rslk k e) * stg k (nv k + e)%nat) = 0).
  { intros k. apply slk_zero. intros e _. pose proof (slk_ge k e). lia. }
  rewrite (sum_one (S N) k0); [|lia|].
  - rewrite Z1, Z2 by exact Hk. rewrite (sum_one (nrow k0) i0); [rewrite Hs, unit_eq; lra|exact Hi|].
    intros i Hi' Ne. destruct (soft q k0 i) eqn:S; [|reflexivity]. rewrite unit_ne; [lra|]. intros E. apply rep_inj in E; try assumption. lia.
  - intros k HkN Ne. rewrite Z1, Z2, rep_zero; [lra|lia| |lia]. intros i Hi' S E. apply rep_inj in E; try assumption; lia.
Qed.
Lemma row_slk k0 e0 : (k0 <= N)%nat -> (e0 < 2 * ns k0)%nat -> sum (num_vars d) (fun c => M (rslk k0 e0) c * z c) = stg k0 (nv k0 + e0)%nat.
Proof.
  intros Hk He. rewrite M_rows. unfold rowform. pose proof (slk_ge k0 e0) as L. pose proof starts_le. rewrite dyn_zero by lia.
  assert (Z1 : forall k, (k <= N)%nat -> sum (nrow k) (fun i => unit_at (rslk k0 e0) (rcon k i) * (lin d q stg k i + slack d q stg k i false)) = 0).
  { intros k HkN. apply con_zero; [exact HkN|]. intros i Hi'. pose proof (con_lt k i HkN Hi'). lia. }
  assert (Z2 : forall k, (k <= N)%nat -> sum (nrow k) (fun i => if soft q k i then unit_at (rslk k0 e0) (rrep k i) * (lin d q stg k i - slack d q stg k i true) else 0) = 0).
  { intros k HkN. apply rep_zero; [exact HkN|]. intros i Hi' S. pose proof (rep_lt k i HkN Hi' S). lia. }
  rewrite (sum_one (S N) k0); [|lia|].
  - rewrite Z1, Z2 by exact Hk. rewrite (sum_one (2 * ns k0) e0); [rewrite unit_eq; lra|exact He|].
    intros e He' Ne. rewrite unit_ne; [lra|]. intros E. apply slk_inj in E; try assumption. lia.
  - intros k HkN Ne. rewrite Z1, Z2, slk_zero; [lra| |lia|lia]. intros e He' E. apply slk_inj in E; try assumption. lia.
Qed.
End Z.
End O.
