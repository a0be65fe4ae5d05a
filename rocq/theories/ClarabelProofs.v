(** The matrices and vectors written by the Clarabel interface. *)
From Coq Require Import ZArith List Bool Lia Reals Lra Arith.
From Verif Require Import Arr Arith QpsModel CscModel RSum QpsSpec OsqpModel OsqpSpec CscProofs OsqpProofs OsqpRows OsqpKkt OsqpCsc ClarabelModel ClarabelSpec.
Import ListNotations.
Open Scope R_scope.

Lemma entry_col cr cv t1 t2 x r c : (forall e, length (nth e cr []) = length (nth e cv [])) -> length cr = length cv -> (c < length cr)%nat ->
  (forall e, (e < length (concat cv))%nat -> x e = nth e (concat cv) 0) ->
  entry (ptrs 0 cr ++ t1) (concat cr ++ t2) x r c = ldot (nth c cr []) (nth c cv []) (unit_at r).
Proof.
  intros Hl Hn Hc Hx. rewrite <- (cent_col cr cv t1 t2 [] r c Hl Hn Hc). unfold entry, cent. cbv zeta. apply sum_ext. intros e He.
  rewrite app_nil_r. rewrite (app_nth1 (ptrs 0 cr) t1 0%nat (n := c)) in He |- * by (rewrite ptrs_len; lia). rewrite (app_nth1 (ptrs 0 cr) t1 0%nat (n := S c)) in He by (rewrite ptrs_len; lia).
  rewrite ptrs_step in He by exact Hc. rewrite (ptrs_nth cr 0 c) in He |- * by lia.
  rewrite Hx; [reflexivity|]. cbn [Nat.add] in *.
  assert (F : length (concat (firstn c cr)) = length (concat (firstn c cv))).
  { clear -Hl Hn. revert cv Hl Hn. revert c. induction cr as [|a cr IH]; intros c [|b cv] Hl Hn; try discriminate; [destruct c; reflexivity|].
    destruct c; [reflexivity|]. cbn. rewrite !app_length. rewrite (IH c cv); [pose proof (Hl 0%nat) as E; cbn in E; lia|intros e; apply (Hl (S e))|cbn in Hn; lia]. }
  destruct (concat_nth cv c e 0 ltac:(lia) ltac:(rewrite <- Hl; lia)) as [_ L]. rewrite F. exact L.
Qed.

Section C.
Variable d : qdims.
Variable q : rqp.
Notation N := (qN d). Notation nx := (qnx d). Notation nu := (qnu d). Notation nb := (qnb d). Notation ng := (qng d). Notation ns := (qns d).
Notation rev := (q_rev q).
Notation nv := (nv d). Notation nrow := (nrow d). Notation nall := (nall d).
Notation rdyn := (rdyn d). Notation width := (width d).
Hypothesis WB : wf_bounds d q.
Hypothesis WR : wf_rev d q.

(** row of inequality m of stage k *)
Definition rall (k m : nat) : nat := if (m <? 2 * nrow k)%nat then (c_base d k + m)%nat else (c_slk d + off_slk d k + (m - 2 * nrow k))%nat.
Lemma rall_low k i : (i < nrow k)%nat -> rall k i = (c_base d k + i)%nat.
Proof. intros H. unfold rall. destruct (Nat.ltb_spec i (2 * nrow k)); [reflexivity|lia]. Qed.
Lemma rall_up k i : (i < nrow k)%nat -> rall k (nrow k + i) = (c_base d k + nb k + ng k + i)%nat.
Proof. intros H. unfold rall. destruct (Nat.ltb_spec (nrow k + i) (2 * nrow k)); [unfold QpsSpec.nrow; lia|lia]. Qed.
Lemma rall_slk k e : rall k (2 * nrow k + e) = (c_slk d + off_slk d k + e)%nat.
Proof. unfold rall. destruct (Nat.ltb_spec (2 * nrow k + e) (2 * nrow k)); [lia|]. f_equal. lia. Qed.
Lemma slk_base : c_slk d = c_base d (S N).
Proof. unfold c_slk, c_base. lia. Qed.
Lemma base_S k : c_base d (S k) = (c_base d k + 2 * nrow k)%nat.
Proof. unfold c_base, c_off_con, QpsSpec.nrow. cbn [nsum]. lia. Qed.
Lemma base_le a b : (a <= b)%nat -> (c_base d a <= c_base d b)%nat.
Proof. intros H. unfold c_base, c_off_con. pose proof (nsum_mono (fun k => 2 * nb k + 2 * ng k)%nat a b H). lia. Qed.
Lemma constr_slk : c_constr d = (c_slk d + off_slk d (S N))%nat.
Proof.
  unfold c_constr, c_slk, c_off_con, off_slk. rewrite con_start_sum.
  pose proof (nsum_plus (fun k => 2 * nb k + 2 * ng k)%nat (fun k => 2 * ns k)%nat (S N)) as E. cbv beta in E. lia.
Qed.
Lemma slk_le a b : (a <= b)%nat -> (off_slk d a <= off_slk d b)%nat.
Proof. intros H. unfold off_slk. apply nsum_mono. exact H. Qed.
Lemma rall_range k m : (k <= N)%nat -> (m < nall k)%nat -> (con_start d <= rall k m < c_constr d)%nat.
Proof.
  intros Hk Hm. unfold rall. pose proof constr_slk as E. pose proof (base_le (S k) (S N) ltac:(lia)) as B. rewrite base_S in B. rewrite <- slk_base in B.
  pose proof (slk_le (S k) (S N) ltac:(lia)) as L. unfold off_slk in L at 1. cbn [nsum] in L. fold (off_slk d k) in L. unfold QpsSpec.nall in Hm.
  assert (con_start d <= c_base d k)%nat by (unfold c_base; lia). destruct (Nat.ltb_spec m (2 * nrow k)); [lia|]. unfold QpsSpec.nrow in *. lia.
Qed.
Lemma rall_inj k m k' m' : (k <= N)%nat -> (k' <= N)%nat -> (m < nall k)%nat -> (m' < nall k')%nat -> rall k m = rall k' m' -> k = k' /\ m = m'.
Proof.
  intros Hk Hk' Hm Hm' E. unfold QpsSpec.nall in *. unfold rall in E.
  pose proof (base_le (S k) (S N) ltac:(lia)) as B. rewrite base_S, <- slk_base in B. pose proof (base_le (S k') (S N) ltac:(lia)) as B'. rewrite base_S, <- slk_base in B'.
  destruct (Nat.ltb_spec m (2 * nrow k)) as [L|L], (Nat.ltb_spec m' (2 * nrow k')) as [L'|L']; try lia.
  - assert (E2 : (nsum k (fun k => 2 * nb k + 2 * ng k) + m = nsum k' (fun k => 2 * nb k + 2 * ng k) + m')%nat) by (unfold c_base, c_off_con in E; lia).
    apply nsum_inj in E2; [exact E2|cbv beta; unfold QpsSpec.nrow in L; lia|cbv beta; unfold QpsSpec.nrow in L'; lia].
  - assert (E2 : (nsum k (fun k => 2 * ns k) + (m - 2 * nrow k) = nsum k' (fun k => 2 * ns k) + (m' - 2 * nrow k'))%nat) by (unfold off_slk in E; lia).
    apply nsum_inj in E2; [|cbv beta; unfold QpsSpec.nrow in *; lia|cbv beta; unfold QpsSpec.nrow in *; lia]. destruct E2 as [-> E2]. split; [reflexivity|lia].
Qed.
Lemma row_split r : (con_start d <= r < c_constr d)%nat -> exists k m, (k <= N)%nat /\ (m < nall k)%nat /\ r = rall k m.
Proof.
  intros Hr. destruct (lt_dec r (c_slk d)) as [L|L].
  - destruct (nsum_find (fun k => 2 * nb k + 2 * ng k)%nat (S N) (r - con_start d)) as (k & m & A & B & C); [unfold c_slk, c_off_con in L; lia|].
    exists k, m. split; [lia|]. split; [unfold QpsSpec.nall; lia|]. unfold rall. destruct (Nat.ltb_spec m (2 * nrow k)) as [_|X]; [|unfold QpsSpec.nrow in X; lia]. unfold c_base, c_off_con. lia.
  - rewrite constr_slk in Hr. destruct (nsum_find (fun k => 2 * ns k)%nat (S N) (r - c_slk d)) as (k & e & A & B & C); [unfold off_slk in Hr; lia|].
    exists k, (2 * nrow k + e)%nat. split; [lia|]. split; [unfold QpsSpec.nall, QpsSpec.nrow; lia|]. rewrite rall_slk. unfold off_slk. lia.
Qed.

(** columns *)
Definition ccrow (k t : nat) : list nat :=
  if (t <? nu k)%nat then c_u_rows d q k t else if (t <? nv k)%nat then c_x_rows d q k (t - nu k)
  else if (t <? nv k + ns k)%nat then c_sl_rows d q k (t - nv k) else c_su_rows d q k (t - nv k - ns k).
Definition ccval (k t : nat) : list R :=
  if (t <? nu k)%nat then c_u_vals d q k t else if (t <? nv k)%nat then c_x_vals d q k (t - nu k)
  else if (t <? nv k + ns k)%nat then c_s_vals d q k (t - nv k) else c_s_vals d q k (t - nv k - ns k).
Lemma c_rows_len : length (c_rows d q) = num_vars d.
Proof. unfold c_rows, stages, num_vars. apply flat_len. intros k _. rewrite !app_length, !map_length, !seq_length. lia. Qed.
Lemma c_vals_len : length (c_vals d q) = num_vars d.
Proof. unfold c_vals, stages, num_vars. apply flat_len. intros k _. rewrite !app_length, !map_length, !seq_length. lia. Qed.
Lemma c_rows_nth k t : (k <= N)%nat -> (t < width k)%nat -> nth (hess_off d k + t) (c_rows d q) [] = ccrow k t.
Proof.
  intros Hk Ht. unfold c_rows, stages, hess_off. change (fun k0 => (nx k0 + nu k0 + 2 * ns k0)%nat) with width.
  rewrite flat_nth with (w := width); [|intros; rewrite !app_length, !map_length, !seq_length; unfold OsqpProofs.width; lia|lia|exact Ht].
  rewrite nth_four by (unfold OsqpProofs.width in Ht; lia). reflexivity.
Qed.
Lemma c_vals_nth k t : (k <= N)%nat -> (t < width k)%nat -> nth (hess_off d k + t) (c_vals d q) [] = ccval k t.
Proof.
  intros Hk Ht. unfold c_vals, stages, hess_off. change (fun k0 => (nx k0 + nu k0 + 2 * ns k0)%nat) with width.
  rewrite flat_nth with (w := width); [|intros; rewrite !app_length, !map_length, !seq_length; unfold OsqpProofs.width; lia|lia|exact Ht].
  rewrite nth_four by (unfold OsqpProofs.width in Ht; lia). reflexivity.
Qed.
Lemma c_con_len k v : length (c_con_rows d q k v) = length (c_con_vals d q k v).
Proof. unfold c_con_rows, c_con_vals. cbv zeta. rewrite !app_length, !map_length. destruct (_ <? _)%nat; reflexivity. Qed.
Lemma c_s_len k j (f : nat -> nat) e : length (flat_map (fun ii => if (rev k ii =? Z.of_nat j)%Z then [f ii] else []) (seq 0 (nb k + ng k)) ++ [e]) = length (c_s_vals d q k j).
Proof. unfold c_s_vals. rewrite !app_length. f_equal. apply (len_flat (fun i => (rev k i =? Z.of_nat j)%Z) f (fun _ => nopp (n1 (a := real)))). Qed.
Lemma ccrow_len k t : length (ccrow k t) = length (ccval k t).
Proof.
  unfold ccrow, ccval. destruct (_ <? _)%nat; [unfold c_u_rows, c_u_vals; rewrite !app_length, c_con_len, (dyn_len d q k t); reflexivity|].
  destruct (_ <? _)%nat; [unfold c_x_rows, c_x_vals; rewrite !app_length, c_con_len, (dyn_len d q k (nu k + (t - nu k))), eye_len; reflexivity|].
  destruct (_ <? _)%nat; apply c_s_len.
Qed.
Lemma c_cols_same c : length (nth c (c_rows d q) []) = length (nth c (c_vals d q) []).
Proof.
  destruct (lt_dec c (num_vars d)) as [L|L].
  - destruct (var_find d c L) as (k & t & A & B & ->). rewrite c_rows_nth, c_vals_nth by assumption. apply ccrow_len.
  - rewrite !nth_overflow by (rewrite ?c_rows_len, ?c_vals_len; lia). reflexivity.
Qed.
Definition ccolform (k t : nat) (w : nat -> R) : R :=
  if (t <? nv k)%nat then
    (if (k <? N)%nat then sum (nx (S k)) (fun i => q_BA q k t i * w (rdyn k i)) else 0)
    + (if (0 <? k)%nat && (nu k <=? t)%nat then - w (rdyn (k - 1) (t - nu k)) else 0)
    - sum (nrow k) (fun i => coef d q k i t * w (rall k i)) + sum (nrow k) (fun i => coef d q k i t * w (rall k (nrow k + i)%nat))
  else if (t <? nv k + ns k)%nat then
    - sum (nrow k) (fun i => if (rev k i =? Z.of_nat (t - nv k))%Z then w (rall k i) else 0) - w (rall k (2 * nrow k + (t - nv k))%nat)
  else
    - sum (nrow k) (fun i => if (rev k i =? Z.of_nat (t - nv k - ns k))%Z then w (rall k (nrow k + i)%nat) else 0) - w (rall k (2 * nrow k + (t - nv k))%nat).
Lemma c_con_ldot k v w : (k <= N)%nat -> ldot (c_con_rows d q k v) (c_con_vals d q k v) w =
  - sum (nrow k) (fun i => coef d q k i v * w (rall k i)) + sum (nrow k) (fun i => coef d q k i v * w (rall k (nrow k + i)%nat)).
Proof.
  intros Hk. unfold c_con_rows, c_con_vals. cbv zeta.
  assert (U : forall i j, (i < nb k)%nat -> (j < nb k)%nat -> q_idxb q k j = q_idxb q k i -> j = i) by (intros i j Hi Hj; apply (WB k i Hk Hi); exact Hj).
  pose proof (bound_sum d q k v (fun i => w (c_base d k + i)%nat) U) as B1. pose proof (bound_sum d q k v (fun i => w (c_base d k + nb k + ng k + i)%nat) U) as B2.
  assert (En : nrow k = (nb k + ng k)%nat) by reflexivity. rewrite En, !sum_split.
  rewrite (sum_ext (nb k) (fun i => coef d q k i v * w (rall k i)) (fun i => if (q_idxb q k i =? v)%nat then w (c_base d k + i)%nat else 0)).
  2:{ intros i Hi. rewrite rall_low by lia. unfold coef. destruct (Nat.ltb_spec i (nb k)); [|lia]. destruct (_ =? _)%nat; lra. }
  rewrite (sum_ext (nb k) (fun i => coef d q k i v * w (rall k (nb k + ng k + i))) (fun i => if (q_idxb q k i =? v)%nat then w (c_base d k + nb k + ng k + i)%nat else 0)).
  2:{ intros i Hi. rewrite <- En. rewrite rall_up by lia. unfold coef. destruct (Nat.ltb_spec i (nb k)); [|lia]. destruct (_ =? _)%nat; lra. }
  rewrite B1, B2.
  rewrite (sum_ext (ng k) (fun i => coef d q k (nb k + i) v * w (rall k (nb k + i))) (fun i => q_DC q k v i * w (c_base d k + nb k + i)%nat)).
  2:{ intros i Hi. rewrite rall_low by lia. unfold coef. destruct (Nat.ltb_spec (nb k + i) (nb k)); [lia|]. replace (nb k + i - nb k)%nat with i by lia. rewrite Nat.add_assoc. reflexivity. }
  rewrite (sum_ext (ng k) (fun i => coef d q k (nb k + i) v * w (rall k (nb k + ng k + (nb k + i)))) (fun i => q_DC q k v i * w (c_base d k + 2 * nb k + ng k + i)%nat)).
  2:{ intros i Hi. rewrite <- En. rewrite rall_up by lia. unfold coef. destruct (Nat.ltb_spec (nb k + i) (nb k)); [lia|]. replace (nb k + i - nb k)%nat with i by lia. f_equal. f_equal. lia. }
  rewrite ldot_app by (destruct (_ <? _)%nat; reflexivity). rewrite ldot_app by (rewrite !map_length; reflexivity).
  rewrite (ldot_map (ng k) (fun ii => (c_base d k + nb k + ii)%nat) (fun ii => - q_DC q k v ii)), (ldot_map (ng k) (fun ii => (c_base d k + 2 * nb k + ng k + ii)%nat) (fun ii => q_DC q k v ii)).
  rewrite (sum_ext (ng k) (fun i => - q_DC q k v i * w (c_base d k + nb k + i)%nat) (fun i => - (q_DC q k v i * w (c_base d k + nb k + i)%nat))) by (intros; lra). rewrite sum_opp.
  destruct (_ <? _)%nat; cbn [ldot]; cbn [num n1 nopp real]; lra.
Qed.
Lemma c_col_ldot k t w : (k <= N)%nat -> (t < width k)%nat -> ldot (ccrow k t) (ccval k t) w = ccolform k t w.
Proof.
  intros Hk Ht. unfold ccrow, ccval, ccolform. assert (En : nrow k = (nb k + ng k)%nat) by reflexivity. destruct (Nat.ltb_spec t (nu k)) as [L|L].
  - destruct (Nat.ltb_spec t (nv k)) as [L1|L1]; [|unfold QpsSpec.nv in L1; lia]. unfold c_u_rows, c_u_vals. rewrite ldot_app by apply dyn_len.
    rewrite dyn_ldot, c_con_ldot by exact Hk. destruct (Nat.leb_spec (nu k) t); [lia|]. rewrite andb_false_r. lra.
  - destruct (Nat.ltb_spec t (nv k)) as [L1|L1].
    + unfold c_x_rows, c_x_vals. replace (nu k + (t - nu k))%nat with t by lia. rewrite ldot_app by apply eye_len. rewrite ldot_app by apply dyn_len.
      rewrite dyn_ldot, c_con_ldot by exact Hk. destruct (Nat.leb_spec (nu k) t); [|lia]. rewrite andb_true_r.
      unfold eye_rows, eye_vals. destruct (Nat.ltb_spec 0 k) as [P|P]; cbn [ldot]; [rewrite off_dyn_back by assumption; change (@nopp real (@n1 real)) with (Ropp 1)|]; lra.
    + rewrite rall_slk. destruct (Nat.ltb_spec t (nv k + ns k)) as [L2|L2].
      * unfold c_sl_rows, c_s_vals. rewrite ldot_app by (apply (len_flat (fun i => (rev k i =? Z.of_nat (t - nv k))%Z) (fun i => (c_base d k + i)%nat) (fun _ => nopp (n1 (a := real))))).
        rewrite <- En. rewrite (ldot_cond (nrow k) (fun i => (rev k i =? Z.of_nat (t - nv k))%Z) (fun i => (c_base d k + i)%nat) (fun _ => nopp (n1 (a := real)))).
        cbn [ldot]. cbn [num n1 nopp real]. rewrite <- sum_opp. unfold Rminus. apply (f_equal2 Rplus); [|lra]. apply sum_ext. intros i Hi. rewrite rall_low by exact Hi. destruct (_ =? _)%Z; lra.
      * unfold c_su_rows, c_s_vals. rewrite ldot_app by (apply (len_flat (fun i => (rev k i =? Z.of_nat (t - nv k - ns k))%Z) (fun i => (c_base d k + nb k + ng k + i)%nat) (fun _ => nopp (n1 (a := real))))).
        rewrite <- En. rewrite (ldot_cond (nrow k) (fun i => (rev k i =? Z.of_nat (t - nv k - ns k))%Z) (fun i => (c_base d k + nb k + ng k + i)%nat) (fun _ => nopp (n1 (a := real)))).
        cbn [ldot]. cbn [num n1 nopp real]. rewrite <- sum_opp. replace (c_slk d + off_slk d k + ns k + (t - nv k - ns k))%nat with (c_slk d + off_slk d k + (t - nv k))%nat by lia.
        unfold Rminus. apply (f_equal2 Rplus); [|lra]. apply sum_ext. intros i Hi. rewrite rall_up by exact Hi. destruct (_ =? _)%Z; lra.
Qed.
Lemma starts : (con_start d <= c_constr d)%nat.
Proof. rewrite constr_slk. unfold c_slk. lia. Qed.
Lemma ccrow_lt k t r : (k <= N)%nat -> (t < width k)%nat -> In r (ccrow k t) -> (r < c_constr d)%nat.
Proof.
  intros Hk Ht. pose proof starts as SS. unfold OsqpProofs.width in Ht. assert (En : nrow k = (nb k + ng k)%nat) by reflexivity. assert (Env : nv k = (nu k + nx k)%nat) by reflexivity.
  assert (LO : forall i, (i < nrow k)%nat -> (c_base d k + i < c_constr d)%nat) by (intros i Hi; rewrite <- rall_low by exact Hi; apply rall_range; [exact Hk|unfold QpsSpec.nall; lia]).
  assert (UP : forall i, (i < nrow k)%nat -> (c_base d k + nb k + ng k + i < c_constr d)%nat) by (intros i Hi; rewrite <- rall_up by exact Hi; apply rall_range; [exact Hk|unfold QpsSpec.nall; lia]).
  assert (SL : forall e, (e < 2 * ns k)%nat -> (c_slk d + off_slk d k + e < c_constr d)%nat) by (intros e He; rewrite <- rall_slk; apply rall_range; [exact Hk|unfold QpsSpec.nall; lia]).
  assert (CR : forall v, In r (c_con_rows d q k v) -> (r < c_constr d)%nat).
  { intros v. unfold c_con_rows. cbv zeta. intros I. apply in_app_or in I. destruct I as [I|I]; [|apply in_app_or in I; destruct I as [I|I]].
    - destruct (Nat.ltb_spec (bound_of d q k v) (nb k)) as [L|L]; [|contradiction]. destruct I as [<-|[<-|[]]]; [apply LO|apply UP]; lia.
    - apply in_mapseq in I. destruct I as (i & Hi & ->). pose proof (LO (nb k + i)%nat ltac:(lia)). lia.
    - apply in_mapseq in I. destruct I as (i & Hi & ->). pose proof (UP (nb k + i)%nat ltac:(lia)). lia. }
  unfold ccrow. destruct (Nat.ltb_spec t (nu k)); [|destruct (Nat.ltb_spec t (nv k)); [|destruct (Nat.ltb_spec t (nv k + ns k))]].
  - unfold c_u_rows. intros I. apply in_app_or in I. destruct I as [I|I]; [apply dyn_row_lt in I; [lia|exact Hk]|exact (CR _ I)].
  - unfold c_x_rows. intros I. apply in_app_or in I; destruct I as [I|I]; [|apply in_app_or in I; destruct I as [I|I]].
    + apply eye_row_lt in I; [lia|exact Hk|lia].
    + apply dyn_row_lt in I; [lia|exact Hk].
    + exact (CR _ I).
  - unfold c_sl_rows. intros I. apply in_app_or in I. destruct I as [I|[<-|[]]].
    + apply (in_cond (fun i => (rev k i =? Z.of_nat (t - nv k))%Z) (fun i => (c_base d k + i)%nat)) in I. destruct I as (i & Hi & _ & ->). apply LO. lia.
    + apply SL. lia.
  - unfold c_su_rows. intros I. apply in_app_or in I. destruct I as [I|[<-|[]]].
    + apply (in_cond (fun i => (rev k i =? Z.of_nat (t - nv k - ns k))%Z) (fun i => (c_base d k + nb k + ng k + i)%nat)) in I. destruct I as (i & Hi & _ & ->). apply UP. lia.
    + pose proof (SL (ns k + (t - nv k - ns k))%nat ltac:(lia)). lia.
Qed.

(** a matrix with these columns *)
Variable M : nat -> nat -> R.
Hypothesis HM : forall r c, (c < num_vars d)%nat -> M r c = ldot (nth c (c_rows d q) []) (nth c (c_vals d q) []) (unit_at r).
Lemma cM_col k t r : (k <= N)%nat -> (t < width k)%nat -> M r (hess_off d k + t) = ccolform k t (unit_at r).
Proof. intros Hk Ht. rewrite HM by (apply var_lt; assumption). rewrite c_rows_nth, c_vals_nth by assumption. apply c_col_ldot; assumption. Qed.
Lemma cM_stat k t y : (k <= N)%nat -> (t < width k)%nat -> sum (c_constr d) (fun r => M r (hess_off d k + t) * y r) = ccolform k t y.
Proof.
  intros Hk Ht. rewrite <- (c_col_ldot k t y Hk Ht). rewrite <- (ldot_rows (c_constr d)) by (intros r; apply ccrow_lt; assumption).
  apply sum_ext. intros r _. rewrite HM by (apply var_lt; assumption). rewrite c_rows_nth, c_vals_nth by assumption. reflexivity.
Qed.
Section Z.
Variable z : nat -> R.
Notation stg := (stg d z).
Lemma c_slack_sum k (up : bool) (F : nat -> R) : (k <= N)%nat ->
  sum (ns k) (fun j => sum (nrow k) (fun i => if (rev k i =? Z.of_nat j)%Z then F i else 0) * stg k (nv k + (if up then ns k else 0) + j)%nat)
  = sum (nrow k) (fun i => F i * slack d q stg k i up).
Proof.
  intros Hk. rewrite (sum_ext (ns k) _ (fun j => sum (nrow k) (fun i => (if (rev k i =? Z.of_nat j)%Z then F i else 0) * stg k (nv k + (if up then ns k else 0) + j)%nat)))
    by (intros j _; rewrite sum_scal_r; reflexivity).
  rewrite sum_swap. apply sum_ext. intros i Hi. unfold slack. destruct (WR k i Hk Hi) as [E|E].
  - rewrite E. change (0 <=? -1)%Z with false. cbv iota. rewrite sum_zero; [lra|]. intros j Hj. destruct (Z.eqb_spec (-1) (Z.of_nat j)); [lia|lra].
  - replace (0 <=? rev k i)%Z with true by (symmetry; apply Z.leb_le; lia). set (j := Z.to_nat (rev k i)). assert (Ej : rev k i = Z.of_nat j) by (unfold j; lia). rewrite Ej.
    rewrite (sum_one (ns k) j); [rewrite Z.eqb_refl; reflexivity|lia|]. intros j' _ Ne. destruct (Z.eqb_spec (Z.of_nat j) (Z.of_nat j')); [lia|lra].
Qed.
(** value of an inequality row *)
Definition V (k m : nat) : R := - (ineq d q stg k m + q_d q k m).
Definition crowform (w : nat -> R) : R :=
  sum N (fun k => sum (nx (S k)) (fun i => w (rdyn k i) * (sum (nv k) (fun t => q_BA q k t i * stg k t) - stg (S k) (nu (S k) + i)%nat)))
  + sum (S N) (fun k => sum (nall k) (fun m => w (rall k m) * V k m)).
Lemma V_low k i : (i < nrow k)%nat -> V k i = - (lin d q stg k i + slack d q stg k i false).
Proof. intros H. unfold V, ineq. destruct (Nat.ltb_spec i (nrow k)); [lra|lia]. Qed.
Lemma V_up k i : (i < nrow k)%nat -> V k (nrow k + i) = lin d q stg k i - slack d q stg k i true.
Proof.
  intros H. unfold V, ineq. destruct (Nat.ltb_spec (nrow k + i) (nrow k)); [lia|]. destruct (Nat.ltb_spec (nrow k + i) (2 * nrow k)); [|lia]. replace (nrow k + i - nrow k)%nat with i by lia. lra.
Qed.
Lemma V_slk k e : V k (2 * nrow k + e) = - stg k (nv k + e)%nat.
Proof.
  unfold V, ineq. destruct (Nat.ltb_spec (2 * nrow k + e) (nrow k)); [lia|]. destruct (Nat.ltb_spec (2 * nrow k + e) (2 * nrow k)); [lia|]. replace (2 * nrow k + e - 2 * nrow k)%nat with e by lia. lra.
Qed.
Lemma c_rows_form w : sum (S N) (fun k => sum (width k) (fun t => ccolform k t w * stg k t)) = crowform w.
Proof.
  unfold crowform.
  set (E := fun k => sum (nv k) (fun t => (if (0 <? k)%nat && (nu k <=? t)%nat then - w (rdyn (k - 1) (t - nu k)) else 0) * stg k t)).
  set (D := fun k => if (k <? N)%nat then sum (nx (S k)) (fun i => w (rdyn k i) * sum (nv k) (fun t => q_BA q k t i * stg k t)) else 0).
  set (C := fun k => sum (nall k) (fun m => w (rall k m) * V k m)).
  rewrite (sum_ext (S N) _ (fun k => (E k + D k) + C k)).
  - rewrite !sum_plus. apply (f_equal2 Rplus); [|reflexivity].
    assert (ES : sum (S N) E = - sum N (fun k => sum (nx (S k)) (fun i => w (rdyn k i) * stg (S k) (nu (S k) + i)%nat))).
    { replace (S N) with (1 + N)%nat by lia. rewrite sum_split. cbn [sum]. replace (E 0%nat) with 0.
      2:{ symmetry. unfold E. apply sum_zero. intros t _. cbn [Nat.ltb Nat.leb andb]. lra. }
      rewrite <- sum_opp, !Rplus_0_l. apply sum_ext. intros k Hk. unfold E. cbn [Nat.add]. replace (S k - 1)%nat with k by lia.
      change (0 <? S k)%nat with true. cbn [andb]. unfold QpsSpec.nv. rewrite sum_split. rewrite sum_zero.
      2:{ intros t Ht. destruct (Nat.leb_spec (nu (S k)) t); [lia|lra]. }
      rewrite <- sum_opp, Rplus_0_l. apply sum_ext. intros i Hi. destruct (Nat.leb_spec (nu (S k)) (nu (S k) + i)); [|lia].
      replace (nu (S k) + i - nu (S k))%nat with i by lia. lra. }
    rewrite ES. rewrite sum_S. replace (D N) with 0 by (unfold D; rewrite Nat.ltb_irrefl; reflexivity).
    rewrite (sum_ext N D (fun k => sum (nx (S k)) (fun i => w (rdyn k i) * sum (nv k) (fun t => q_BA q k t i * stg k t)))).
    2:{ intros k Hk. unfold D. destruct (Nat.ltb_spec k N); [reflexivity|lia]. }
    rewrite <- sum_opp, Rplus_0_r, <- sum_plus. apply sum_ext. intros k Hk. rewrite <- sum_opp, <- sum_plus. apply sum_ext. intros i Hi. lra.
  - intros k HkN. assert (Hk : (k <= N)%nat) by lia.
    replace (width k) with (nv k + (ns k + ns k))%nat by (unfold OsqpProofs.width, QpsSpec.nv; lia). rewrite !sum_split.
    set (c1 := fun t => sum (nrow k) (fun i => coef d q k i t * w (rall k i))).
    set (c2 := fun t => sum (nrow k) (fun i => coef d q k i t * w (rall k (nrow k + i)%nat))).
    set (dd := fun t => if (k <? N)%nat then sum (nx (S k)) (fun i => q_BA q k t i * w (rdyn k i)) else 0).
    assert (H1 : sum (nv k) (fun t => ccolform k t w * stg k t) =
      E k + D k - sum (nrow k) (fun i => w (rall k i) * lin d q stg k i) + sum (nrow k) (fun i => w (rall k (nrow k + i)%nat) * lin d q stg k i)).
    { rewrite (sum_ext (nv k) _ (fun t => (if (0 <? k)%nat && (nu k <=? t)%nat then - w (rdyn (k - 1) (t - nu k)) else 0) * stg k t + dd t * stg k t - c1 t * stg k t + c2 t * stg k t)).
      2:{ intros t Ht. unfold ccolform. destruct (Nat.ltb_spec t (nv k)); [|lia]. fold (c1 t) (c2 t) (dd t). lra. }
      rewrite sum_plus, sum_minus, sum_plus. apply (f_equal2 Rplus); [apply (f_equal2 Rminus); [apply (f_equal2 Rplus); [reflexivity|]|]|].
      - unfold D, dd. destruct (Nat.ltb_spec k N); [|apply sum_zero; intros; lra].
        rewrite (sum_ext (nv k) _ (fun t => sum (nx (S k)) (fun i => q_BA q k t i * w (rdyn k i) * stg k t))) by (intros t _; rewrite <- sum_scal_r; reflexivity).
        rewrite sum_swap. apply sum_ext. intros i _. rewrite <- sum_scal. apply sum_ext. intros t _. lra.
      - unfold c1. rewrite (sum_ext (nv k) _ (fun t => sum (nrow k) (fun i => coef d q k i t * w (rall k i) * stg k t))) by (intros t _; rewrite <- sum_scal_r; reflexivity).
        rewrite sum_swap. apply sum_ext. intros i _. unfold lin. rewrite <- sum_scal. apply sum_ext. intros t _. lra.
      - unfold c2. rewrite (sum_ext (nv k) _ (fun t => sum (nrow k) (fun i => coef d q k i t * w (rall k (nrow k + i)%nat) * stg k t))) by (intros t _; rewrite <- sum_scal_r; reflexivity).
        rewrite sum_swap. apply sum_ext. intros i _. unfold lin. rewrite <- sum_scal. apply sum_ext. intros t _. lra. }
    assert (H2 : sum (ns k) (fun j => ccolform k (nv k + j) w * stg k (nv k + j)%nat) =
      - sum (nrow k) (fun i => w (rall k i) * slack d q stg k i false) - sum (ns k) (fun e => w (rall k (2 * nrow k + e)%nat) * stg k (nv k + e)%nat)).
    { rewrite <- (c_slack_sum k false (fun i => w (rall k i)) Hk). rewrite <- sum_opp, <- sum_minus. apply sum_ext. intros j Hj. unfold ccolform.
      destruct (Nat.ltb_spec (nv k + j) (nv k)); [lia|]. destruct (Nat.ltb_spec (nv k + j) (nv k + ns k)); [|lia].
      replace (nv k + j - nv k)%nat with j by lia. rewrite Nat.add_0_r. lra. }
    assert (H3 : sum (ns k) (fun j => ccolform k (nv k + (ns k + j)) w * stg k (nv k + (ns k + j))%nat) =
      - sum (nrow k) (fun i => w (rall k (nrow k + i)%nat) * slack d q stg k i true) - sum (ns k) (fun e => w (rall k (2 * nrow k + (ns k + e))%nat) * stg k (nv k + (ns k + e))%nat)).
    { rewrite <- (c_slack_sum k true (fun i => w (rall k (nrow k + i)%nat)) Hk). rewrite <- sum_opp, <- sum_minus. apply sum_ext. intros j Hj. unfold ccolform.
      destruct (Nat.ltb_spec (nv k + (ns k + j)) (nv k)); [lia|]. destruct (Nat.ltb_spec (nv k + (ns k + j)) (nv k + ns k)); [lia|].
      replace (nv k + (ns k + j) - nv k)%nat with (ns k + j)%nat by lia. replace (ns k + j - ns k)%nat with j by lia. rewrite (Nat.add_assoc (nv k)). lra. }
    rewrite H1, H2, H3. unfold C. replace (nall k) with (nrow k + nrow k + (ns k + ns k))%nat by (unfold QpsSpec.nall, QpsSpec.nrow; lia). rewrite !sum_split.
    rewrite (sum_ext (nrow k) (fun m => w (rall k m) * V k m) (fun i => - (w (rall k i) * lin d q stg k i + w (rall k i) * slack d q stg k i false))) by (intros i Hi; rewrite V_low by exact Hi; lra).
    rewrite (sum_ext (nrow k) (fun m => w (rall k (nrow k + m)%nat) * V k (nrow k + m)%nat) (fun i => w (rall k (nrow k + i)%nat) * lin d q stg k i - w (rall k (nrow k + i)%nat) * slack d q stg k i true)) by (intros i Hi; rewrite V_up by exact Hi; lra).
    rewrite (sum_ext (ns k) (fun m => w (rall k (nrow k + nrow k + m)%nat) * V k (nrow k + nrow k + m)%nat) (fun e => - (w (rall k (2 * nrow k + e)%nat) * stg k (nv k + e)%nat))).
    2:{ intros e He. replace (nrow k + nrow k + e)%nat with (2 * nrow k + e)%nat by lia. rewrite V_slk. lra. }
    rewrite (sum_ext (ns k) (fun m => w (rall k (nrow k + nrow k + (ns k + m))%nat) * V k (nrow k + nrow k + (ns k + m))%nat) (fun e => - (w (rall k (2 * nrow k + (ns k + e))%nat) * stg k (nv k + (ns k + e))%nat))).
    2:{ intros e He. replace (nrow k + nrow k + (ns k + e))%nat with (2 * nrow k + (ns k + e))%nat by lia. rewrite V_slk. lra. }
    rewrite !sum_opp, sum_plus, sum_minus. lra.
Qed.
Lemma cM_rows r : sum (num_vars d) (fun c => M r c * z c) = crowform (unit_at r).
Proof.
  rewrite <- c_rows_form. unfold num_vars. rewrite sum_stages. apply sum_ext. intros k Hk. apply sum_ext. intros t Ht.
  change (nsum k (fun k0 : nat => (nx k0 + nu k0 + 2 * ns k0)%nat)) with (hess_off d k). rewrite cM_col by (try exact Ht; lia). reflexivity.
Qed.
Lemma c_row_dyn k0 i0 : (k0 < N)%nat -> (i0 < nx (S k0))%nat -> sum (num_vars d) (fun c => M (rdyn k0 i0) c * z c) = dyn d q stg k0 i0 - q_b q k0 i0.
Proof.
  intros Hk Hi. rewrite cM_rows. unfold crowform. pose proof (dyn_lt d k0 i0 Hk Hi) as L.
  rewrite (sum_zero (S N)) by (intros k HkN; apply sum_zero; intros m Hm; pose proof (rall_range k m ltac:(lia) Hm); rewrite unit_ne by lia; lra).
  rewrite (sum_one N k0); [|exact Hk|].
  - rewrite (sum_one (nx (S k0)) i0); [rewrite unit_eq; unfold dyn; lra|exact Hi|]. intros i Hi' Ne. rewrite unit_ne; [lra|]. intros E. apply dyn_inj in E; try assumption. lia.
  - intros k HkN Ne. apply sum_zero. intros i Hi'. rewrite unit_ne; [lra|]. intros E. apply dyn_inj in E; try assumption. lia.
Qed.
Lemma c_row_in k0 m0 : (k0 <= N)%nat -> (m0 < nall k0)%nat -> sum (num_vars d) (fun c => M (rall k0 m0) c * z c) = V k0 m0.
Proof.
  intros Hk Hm. rewrite cM_rows. unfold crowform. pose proof (rall_range k0 m0 Hk Hm) as L.
  rewrite (sum_zero N) by (intros k HkN; apply sum_zero; intros i Hi; pose proof (dyn_lt d k i HkN Hi); rewrite unit_ne by lia; lra).
  rewrite (sum_one (S N) k0); [|lia|].
  - rewrite (sum_one (nall k0) m0); [rewrite unit_eq; lra|exact Hm|]. intros m Hm' Ne. rewrite unit_ne; [lra|]. intros E. apply rall_inj in E; try assumption. lia.
  - intros k HkN Ne. apply sum_zero. intros m Hm'. rewrite unit_ne; [lra|]. intros E. apply rall_inj in E; try assumption; lia.
Qed.
End Z.
End C.
