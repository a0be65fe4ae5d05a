(** The matrices written by the OSQP interface. *)
From Coq Require Import ZArith List Bool Lia Reals Lra Arith.
From Verif Require Import Arith QpsModel CscModel RSum QpsSpec OsqpModel OsqpSpec CscProofs.
Import ListNotations.
Open Scope R_scope.

Lemma nth_map_seq {X} (f : nat -> X) n i dflt : (i < n)%nat -> nth i (map f (seq 0 n)) dflt = f i.
Proof. intros H. rewrite (nth_indep _ dflt (f 0%nat)) by (rewrite map_length, seq_length; lia). rewrite map_nth, seq_nth by lia. reflexivity. Qed.

Section O.
Variable d : qdims.
Variable q : rqp.
Notation N := (qN d). Notation nx := (qnx d). Notation nu := (qnu d). Notation nb := (qnb d). Notation ng := (qng d). Notation ns := (qns d).
Notation rev := (q_rev q).
Notation nv := (nv d). Notation nrow := (nrow d).

Definition rdyn (k i : nat) : nat := (off_dyn d k + i)%nat.
Definition rcon (k i : nat) : nat := (base d k + i)%nat.
Definition rrep (k i : nat) : nat := (base d k + nb k + ng k + packed q k i)%nat.
Definition rslk (k e : nat) : nat := (slk_start d + off_slk d k + e)%nat.
Definition width (k : nat) : nat := (nx k + nu k + 2 * ns k)%nat.

(** packed positions *)
Lemma packed_filter k n : packed q k n = length (filter (fun i => 0 <=? rev k i)%Z (seq 0 n)).
Proof.
  induction n as [|n IH]; [reflexivity|]. rewrite seq_S, filter_app, app_length, <- IH. unfold packed. cbn. unfold soft. destruct (0 <=? rev k n)%Z; reflexivity.
Qed.
Lemma packed_S k n : packed q k (S n) = (packed q k n + if soft q k n then 1 else 0)%nat.
Proof. reflexivity. Qed.
Lemma packed_lt k i n : (i < n)%nat -> soft q k i = true -> (packed q k i < packed q k n)%nat.
Proof. intros H S. pose proof (nsum_block (fun ii => if soft q k ii then 1 else 0)%nat n i 0 H). cbn in H0. rewrite S in H0. unfold packed. lia. Qed.
Lemma packed_inj k i j : soft q k i = true -> soft q k j = true -> packed q k i = packed q k j -> i = j.
Proof.
  intros A B E. destruct (nsum_inj (fun ii => if soft q k ii then 1 else 0)%nat i 0 j 0) as [H _]; [rewrite A; lia|rewrite B; lia|unfold packed in E; lia|exact H].
Qed.
Lemma packed_find k n e : (e < packed q k n)%nat -> exists i, (i < n)%nat /\ soft q k i = true /\ packed q k i = e.
Proof.
  intros H. destruct (nsum_find _ _ _ H) as (i & z & A & B & C). exists i. destruct (soft q k i); [|lia]. repeat split; [exact A|]. unfold packed. lia.
Qed.

(** the first bound on a variable *)
Lemma scan_spec k v f : forall ii, let r := scan q k v ii f in
  (ii <= r <= ii + f)%nat /\ (forall j, (ii <= j < r)%nat -> q_idxb q k j <> v) /\ ((r < ii + f)%nat -> q_idxb q k r = v).
Proof.
  induction f as [|f IH]; intros ii; cbn; [repeat split; intros; lia|]. destruct (Nat.eqb_spec (q_idxb q k ii) v) as [E|E].
  - repeat split; intros; lia.
  - destruct (IH (S ii)) as (A & B & C). split; [lia|]. split.
    + intros j Hj. destruct (Nat.eq_dec j ii) as [->|]; [exact E|apply B; lia].
    + intros H. apply C. lia.
Qed.
Lemma bound_sum k v (F : nat -> R) : (forall i j, (i < nb k)%nat -> (j < nb k)%nat -> q_idxb q k j = q_idxb q k i -> j = i) ->
  sum (nb k) (fun i => if (q_idxb q k i =? v)%nat then F i else 0) = if (bound_of d q k v <? nb k)%nat then F (bound_of d q k v) else 0.
Proof.
  intros U. unfold bound_of. destruct (scan_spec k v (nb k) 0) as (A & B & C). set (r := scan q k v 0 (nb k)) in *. cbn in A.
  destruct (Nat.ltb_spec r (nb k)) as [L|L].
  - specialize (C L). rewrite (sum_one (nb k) r); [rewrite C, Nat.eqb_refl; reflexivity|exact L|].
    intros j Hj Ne. destruct (Nat.eqb_spec (q_idxb q k j) v) as [E|]; [|reflexivity]. exfalso. apply Ne. apply U; [exact L|exact Hj|congruence].
  - apply sum_zero. intros j Hj. destruct (Nat.eqb_spec (q_idxb q k j) v) as [E|]; [|reflexivity]. exfalso. apply (B j); [lia|exact E].
Qed.

(** loops with a packed index *)
Lemma repl_flat k f : forall ii itmp, (nsb d q k + itmp = packed q k (nb k + ii))%nat ->
  repl_rows d q k ii itmp f = flat_map (fun i => if soft q k (nb k + i) then [rrep k (nb k + i)] else []) (seq ii f).
Proof.
  induction f as [|f IH]; intros ii itmp H; [reflexivity|]. cbn. destruct (soft q k (nb k + ii)) eqn:S.
  - cbn. rewrite (IH (Datatypes.S ii) (Datatypes.S itmp)).
    + f_equal. unfold rrep. lia.
    + replace (nb k + Datatypes.S ii)%nat with (Datatypes.S (nb k + ii)) by lia. rewrite packed_S, S. lia.
  - cbn. apply IH. replace (nb k + Datatypes.S ii)%nat with (Datatypes.S (nb k + ii)) by lia. rewrite packed_S, S. lia.
Qed.
Lemma up_flat k jj f : forall ii, up_rows d q k jj ii (packed q k ii) f =
  flat_map (fun i => if (rev k i =? Z.of_nat jj)%Z then [rrep k i] else []) (seq ii f).
Proof.
  induction f as [|f IH]; intros ii; [reflexivity|]. cbn [up_rows seq flat_map]. rewrite <- IH. f_equal.
  rewrite packed_S. destruct (soft q k ii); [rewrite Nat.add_1_r|rewrite Nat.add_0_r]; reflexivity.
Qed.
Lemma len_flat {X Y} (p : nat -> bool) (f : nat -> X) (g : nat -> Y) l :
  length (flat_map (fun i => if p i then [f i] else []) l) = length (flat_map (fun i => if p i then [g i] else []) l).
Proof. induction l as [|a l IH]; [reflexivity|]. cbn. rewrite !app_length, IH. destruct (p a); reflexivity. Qed.

(** columns by number within the stage *)
Definition crow (k t : nat) : list nat :=
  if (t <? nu k)%nat then u_rows d q k t else if (t <? nv k)%nat then x_rows d q k (t - nu k)
  else if (t <? nv k + ns k)%nat then sl_rows d q k (t - nv k) else su_rows d q k (t - nv k - ns k).
Definition cval (k t : nat) : list R :=
  if (t <? nu k)%nat then u_vals d q k t else if (t <? nv k)%nat then x_vals d q k (t - nu k)
  else if (t <? nv k + ns k)%nat then sl_vals d q k (t - nv k) else su_vals d q k (t - nv k - ns k).
Lemma nth_four {X} (f1 f2 f3 f4 : nat -> list X) a b c e t : (t < a + b + c + e)%nat ->
  nth t (map f1 (seq 0 a) ++ map f2 (seq 0 b) ++ map f3 (seq 0 c) ++ map f4 (seq 0 e)) [] =
  if (t <? a)%nat then f1 t else if (t <? a + b)%nat then f2 (t - a)%nat else if (t <? a + b + c)%nat then f3 (t - (a + b))%nat else f4 (t - (a + b) - c)%nat.
Proof.
  intros H. destruct (Nat.ltb_spec t a); [rewrite app_nth1 by (rewrite map_length, seq_length; lia); apply nth_map_seq; lia|].
  rewrite app_nth2; rewrite map_length, seq_length; [|lia].
  destruct (Nat.ltb_spec t (a + b)); [rewrite app_nth1 by (rewrite map_length, seq_length; lia); apply nth_map_seq; lia|].
  rewrite app_nth2; rewrite map_length, seq_length; [|lia].
  destruct (Nat.ltb_spec t (a + b + c)).
  - rewrite app_nth1 by (rewrite map_length, seq_length; lia). rewrite nth_map_seq by lia. f_equal. lia.
  - rewrite app_nth2; rewrite map_length, seq_length; [|lia]. rewrite nth_map_seq by lia. f_equal. lia.
Qed.
Lemma rows_len : length (con_cols_rows d q) = num_vars d.
Proof.
  unfold con_cols_rows, stages, num_vars. apply flat_len. intros k _. rewrite !app_length, !map_length, !seq_length. lia.
Qed.
Lemma vals_len : length (con_cols_vals d q) = num_vars d.
Proof.
  unfold con_cols_vals, stages, num_vars. apply flat_len. intros k _. rewrite !app_length, !map_length, !seq_length. lia.
Qed.
Lemma rows_nth k t : (k <= N)%nat -> (t < width k)%nat -> nth (hess_off d k + t) (con_cols_rows d q) [] = crow k t.
Proof.
  intros Hk Ht. unfold con_cols_rows, stages, hess_off. change (fun k0 => (nx k0 + nu k0 + 2 * ns k0)%nat) with width.
  rewrite flat_nth with (w := width); [|intros; rewrite !app_length, !map_length, !seq_length; unfold width; lia|lia|exact Ht].
  rewrite nth_four by (unfold width in Ht; lia). reflexivity.
Qed.
Lemma vals_nth k t : (k <= N)%nat -> (t < width k)%nat -> nth (hess_off d k + t) (con_cols_vals d q) [] = cval k t.
Proof.
  intros Hk Ht. unfold con_cols_vals, stages, hess_off. change (fun k0 => (nx k0 + nu k0 + 2 * ns k0)%nat) with width.
  rewrite flat_nth with (w := width); [|intros; rewrite !app_length, !map_length, !seq_length; unfold width; lia|lia|exact Ht].
  rewrite nth_four by (unfold width in Ht; lia). reflexivity.
Qed.
Lemma con_len k v : length (con_rows d q k v) = length (con_vals d q k v).
Proof.
  unfold con_rows, con_vals. cbv zeta. rewrite repl_flat by (unfold nsb; rewrite !Nat.add_0_r; reflexivity).
  rewrite !app_length, !map_length, !seq_length. rewrite (len_flat (fun i => soft q k (nb k + i)) (fun i => rrep k (nb k + i)) (fun i => q_DC q k v i)).
  destruct (_ <? _)%nat; [destruct (soft _ _ _)|]; reflexivity.
Qed.
Lemma dyn_len k v : length (dyn_rows d k) = length (dyn_vals d q k v).
Proof. unfold dyn_rows, dyn_vals. destruct (_ <? _)%nat; rewrite ?map_length; reflexivity. Qed.
Lemma eye_len k v : length (eye_rows d k v) = length (eye_vals (A := real) k).
Proof. unfold eye_rows, eye_vals. destruct (_ <? _)%nat; reflexivity. Qed.
Lemma crow_len k t : length (crow k t) = length (cval k t).
Proof.
  unfold crow, cval. destruct (_ <? _)%nat; [unfold u_rows, u_vals; rewrite !app_length, con_len, (dyn_len k t); reflexivity|].
  destruct (_ <? _)%nat; [unfold x_rows, x_vals; rewrite !app_length, con_len, (dyn_len k (nu k + (t - nu k))), eye_len; reflexivity|].
  destruct (_ <? _)%nat.
  - unfold sl_rows, sl_vals. rewrite !app_length. f_equal. apply (len_flat (fun i => (rev k i =? Z.of_nat (t - nv k))%Z) (fun i => (base d k + i)%nat) (fun _ => n1)).
  - unfold su_rows, su_vals. rewrite !app_length, (up_flat k _ _ 0). f_equal.
    apply (len_flat (fun i => (rev k i =? Z.of_nat (t - nv k - ns k))%Z) (rrep k) (fun _ => nopp (n1 (a := real)))).
Qed.
Lemma var_find c : (c < num_vars d)%nat -> exists k t, (k <= N)%nat /\ (t < width k)%nat /\ c = (hess_off d k + t)%nat.
Proof. intros H. destruct (nsum_find _ _ _ H) as (k & t & A & B & C). exists k, t. repeat split; [lia|exact B|exact C]. Qed.
Lemma cols_same c : length (nth c (con_cols_rows d q) []) = length (nth c (con_cols_vals d q) []).
Proof.
  destruct (lt_dec c (num_vars d)) as [L|L].
  - destruct (var_find c L) as (k & t & A & B & ->). rewrite rows_nth, vals_nth by assumption. apply crow_len.
  - rewrite !nth_overflow by (rewrite ?rows_len, ?vals_len; lia). reflexivity.
Qed.

(** what a column contributes *)
Hypothesis WB : wf_bounds d q.
Definition colform (k t : nat) (w : nat -> R) : R :=
  if (t <? nv k)%nat then
    (if (k <? N)%nat then sum (nx (S k)) (fun i => q_BA q k t i * w (rdyn k i)) else 0)
    + (if (0 <? k)%nat && (nu k <=? t)%nat then - w (rdyn (k - 1) (t - nu k)) else 0)
    + sum (nrow k) (fun i => coef d q k i t * w (rcon k i))
    + sum (nrow k) (fun i => if soft q k i then coef d q k i t * w (rrep k i) else 0)
  else if (t <? nv k + ns k)%nat then
    sum (nrow k) (fun i => if (rev k i =? Z.of_nat (t - nv k))%Z then w (rcon k i) else 0) + w (rslk k (t - nv k))
  else
    - sum (nrow k) (fun i => if (rev k i =? Z.of_nat (t - nv k - ns k))%Z then w (rrep k i) else 0) + w (rslk k (t - nv k)).

Lemma con_ldot k v w : (k <= N)%nat -> ldot (con_rows d q k v) (con_vals d q k v) w =
  sum (nrow k) (fun i => coef d q k i v * w (rcon k i)) + sum (nrow k) (fun i => if soft q k i then coef d q k i v * w (rrep k i) else 0).
Proof.
  intros Hk. unfold con_rows, con_vals. cbv zeta. rewrite repl_flat by (unfold nsb; rewrite !Nat.add_0_r; reflexivity).
  assert (U : forall i j, (i < nb k)%nat -> (j < nb k)%nat -> q_idxb q k j = q_idxb q k i -> j = i).
  { intros i j Hi Hj. apply (WB k i Hk Hi). exact Hj. }
  pose proof (bound_sum k v (fun i => w (rcon k i)) U) as B1.
  pose proof (bound_sum k v (fun i => if soft q k i then w (rrep k i) else 0) U) as B2.
  unfold QpsSpec.nrow. rewrite !sum_split.
  rewrite (sum_ext (nb k) (fun i => coef d q k i v * w (rcon k i)) (fun i => if (q_idxb q k i =? v)%nat then w (rcon k i) else 0)).
  2:{ intros i Hi. unfold coef. destruct (Nat.ltb_spec i (nb k)); [|lia]. destruct (_ =? _)%nat; lra. }
  rewrite B1.
  rewrite (sum_ext (nb k) (fun i => if soft q k i then coef d q k i v * w (rrep k i) else 0) (fun i => if (q_idxb q k i =? v)%nat then (if soft q k i then w (rrep k i) else 0) else 0)).
  2:{ intros i Hi. unfold coef. destruct (Nat.ltb_spec i (nb k)); [|lia]. destruct (_ =? _)%nat; destruct (soft q k i); lra. }
  rewrite B2.
  rewrite (sum_ext (ng k) (fun i => coef d q k (nb k + i) v * w (rcon k (nb k + i))) (fun i => q_DC q k v i * w (base d k + nb k + i)%nat)).
  2:{ intros i Hi. unfold coef, rcon. destruct (Nat.ltb_spec (nb k + i) (nb k)); [lia|]. replace (nb k + i - nb k)%nat with i by lia. rewrite Nat.add_assoc. reflexivity. }
  rewrite (sum_ext (ng k) (fun i => if soft q k (nb k + i) then coef d q k (nb k + i) v * w (rrep k (nb k + i)) else 0) (fun i => if soft q k (nb k + i) then q_DC q k v i * w (rrep k (nb k + i)) else 0)).
  2:{ intros i Hi. unfold coef. destruct (Nat.ltb_spec (nb k + i) (nb k)); [lia|]. replace (nb k + i - nb k)%nat with i by lia. reflexivity. }
  rewrite ldot_app by (destruct (_ <? _)%nat; reflexivity). rewrite ldot_app by (rewrite !map_length; reflexivity).
  rewrite ldot_app by (destruct (_ <? _)%nat; [destruct (soft _ _ _)|]; reflexivity).
  rewrite (ldot_map (ng k) (fun ii => (base d k + nb k + ii)%nat) (fun ii => q_DC q k v ii)).
  rewrite (ldot_cond (ng k) (fun i => soft q k (nb k + i)) (fun i => rrep k (nb k + i)) (fun ii => q_DC q k v ii)).
  fold (rcon k (bound_of d q k v)) (rrep k (bound_of d q k v)).
  destruct (_ <? _)%nat; [destruct (soft q k (bound_of d q k v))|]; cbn [ldot]; change (@n1 real) with 1; lra.
Qed.
Lemma dyn_ldot k v w : ldot (dyn_rows d k) (dyn_vals d q k v) w = if (k <? N)%nat then sum (nx (S k)) (fun i => q_BA q k v i * w (rdyn k i)) else 0.
Proof. unfold dyn_rows, dyn_vals. destruct (_ <? _)%nat; [apply ldot_map|reflexivity]. Qed.
Lemma off_dyn_back k jj : (0 < k)%nat -> (k <= N)%nat -> (off_dyn d k - nx k + jj)%nat = rdyn (k - 1) jj.
Proof.
  intros H Hk. unfold rdyn, off_dyn. destruct k; [lia|]. cbn [nsum]. destruct (Nat.ltb_spec k N); [|lia]. replace (S k - 1)%nat with k by lia. lia.
Qed.
Lemma col_ldot k t w : (k <= N)%nat -> (t < width k)%nat -> ldot (crow k t) (cval k t) w = colform k t w.
Proof.
  intros Hk Ht. unfold crow, cval, colform. destruct (Nat.ltb_spec t (nu k)) as [L|L].
  - destruct (Nat.ltb_spec t (nv k)) as [L1|L1]; [|unfold QpsSpec.nv in L1; lia]. unfold u_rows, u_vals. rewrite ldot_app by apply dyn_len.
    rewrite dyn_ldot, con_ldot by exact Hk. destruct (Nat.leb_spec (nu k) t); [lia|]. rewrite andb_false_r. lra.
  - destruct (Nat.ltb_spec t (nv k)) as [L1|L1].
    + unfold x_rows, x_vals. replace (nu k + (t - nu k))%nat with t by lia. rewrite ldot_app by apply eye_len. rewrite ldot_app by apply dyn_len.
      rewrite dyn_ldot, con_ldot by exact Hk. destruct (Nat.leb_spec (nu k) t); [|lia]. rewrite andb_true_r.
      unfold eye_rows, eye_vals. destruct (Nat.ltb_spec 0 k) as [P|P]; cbn [ldot]; [rewrite off_dyn_back by assumption; change (@nopp real (@n1 real)) with (Ropp 1)|]; lra.
    + destruct (Nat.ltb_spec t (nv k + ns k)) as [L2|L2].
      * unfold sl_rows, sl_vals. rewrite ldot_app by (apply (len_flat (fun i => (rev k i =? Z.of_nat (t - nv k))%Z) (fun i => (base d k + i)%nat) (fun _ => n1))).
        fold (nrow k). rewrite (ldot_cond (nrow k) (fun i => (rev k i =? Z.of_nat (t - nv k))%Z) (fun i => (base d k + i)%nat) (fun _ => n1)).
        cbn [ldot]. change (@n1 real) with 1. unfold rslk. apply (f_equal2 Rplus); [|lra]. apply sum_ext. intros i Hi. unfold rcon. destruct (_ =? _)%Z; lra.
      * unfold su_rows, su_vals. rewrite (up_flat k _ _ 0).
        rewrite ldot_app by (apply (len_flat (fun i => (rev k i =? Z.of_nat (t - nv k - ns k))%Z) (rrep k) (fun _ => nopp (n1 (a := real))))).
        fold (nrow k). rewrite (ldot_cond (nrow k) (fun i => (rev k i =? Z.of_nat (t - nv k - ns k))%Z) (rrep k) (fun _ => nopp (n1 (a := real)))).
        cbn [ldot]. change (@n1 real) with 1. change (@nopp real 1) with (Ropp 1). rewrite <- sum_opp.
        replace (slk_start d + off_slk d k + ns k + (t - nv k - ns k))%nat with (rslk k (t - nv k)) by (unfold rslk; lia).
        apply (f_equal2 Rplus); [|lra]. apply sum_ext. intros i Hi. cbn [num n1 nopp real]. destruct (_ =? _)%Z; lra.
Qed.
End O.
