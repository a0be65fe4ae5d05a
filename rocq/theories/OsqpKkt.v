(** Optimality conditions of the QP given to OSQP and of the OCP QP. *)
From Coq Require Import ZArith List Bool Lia Reals Lra Arith.
From Verif Require Import Arith QpsModel CscModel RSum QpsSpec OsqpModel OsqpSpec CscProofs OsqpProofs OsqpRows.
Import ListNotations.
Open Scope R_scope.

(** Hessian and gradient, common to OSQP and Clarabel *)
Section H.
Variable d : qdims.
Variable q : rqp.
Notation N := (qN d). Notation nx := (qnx d). Notation nu := (qnu d). Notation ns := (qns d).
Notation nv := (nv d). Notation width := (width d).
Definition hrow (k t : nat) : list nat := if (t <? nv k)%nat then map (fun ii => (hess_off d k + ii)%nat) (seq 0 (S t)) else [(hess_off d k + t)%nat].
Definition hval (k t : nat) : list R := if (t <? nv k)%nat then map (fun c => q_H q k t c) (seq 0 (S t)) else [q_Z q k (t - nv k)%nat].
Lemma hrows_nth k t : (k <= N)%nat -> (t < width k)%nat -> nth (hess_off d k + t) (hess_rows d) [] = hrow k t.
Proof.
  intros Hk Ht. unfold hess_rows, stages, hess_off at 1. change (fun k0 => (nx k0 + nu k0 + 2 * ns k0)%nat) with width.
  rewrite flat_nth with (w := width); [|intros; rewrite !app_length, !map_length, !seq_length; unfold OsqpProofs.width; lia|lia|exact Ht].
  unfold hrow, QpsSpec.nv. unfold OsqpProofs.width in Ht. destruct (Nat.ltb_spec t (nu k + nx k)).
  - rewrite app_nth1 by (rewrite map_length, seq_length; lia). rewrite nth_map_seq by lia. reflexivity.
  - rewrite app_nth2; rewrite map_length, seq_length; [|lia]. rewrite nth_map_seq by lia. f_equal. lia.
Qed.
Lemma hvals_nth k t : (k <= N)%nat -> (t < width k)%nat -> nth (hess_off d k + t) (hess_vals d q) [] = hval k t.
Proof.
  intros Hk Ht. unfold hess_vals, stages, hess_off at 1. change (fun k0 => (nx k0 + nu k0 + 2 * ns k0)%nat) with width.
  rewrite flat_nth with (w := width); [|intros; rewrite !app_length, !map_length, !seq_length; unfold OsqpProofs.width; lia|lia|exact Ht].
  unfold hval, QpsSpec.nv. unfold OsqpProofs.width in Ht. destruct (Nat.ltb_spec t (nu k + nx k)).
  - rewrite app_nth1 by (rewrite map_length, seq_length; lia). rewrite nth_map_seq by lia. reflexivity.
  - rewrite app_nth2; rewrite map_length, seq_length; [|lia]. rewrite nth_map_seq by lia. f_equal. f_equal. lia.
Qed.
Lemma hrows_len : length (hess_rows d) = num_vars d.
Proof. unfold hess_rows, stages, num_vars. apply flat_len. intros. rewrite !app_length, !map_length, !seq_length. lia. Qed.
Lemma hvals_len : length (hess_vals d q) = num_vars d.
Proof. unfold hess_vals, stages, num_vars. apply flat_len. intros. rewrite !app_length, !map_length, !seq_length. lia. Qed.
Lemma hrow_len k t : length (hrow k t) = length (hval k t).
Proof. unfold hrow, hval. destruct (_ <? _)%nat; rewrite ?map_length; reflexivity. Qed.
Lemma hess_same c : length (nth c (hess_rows d) []) = length (nth c (hess_vals d q) []).
Proof.
  destruct (lt_dec c (num_vars d)) as [L|L].
  - destruct (var_find d c L) as (k & t & A & B & ->). rewrite hrows_nth, hvals_nth by assumption. apply hrow_len.
  - rewrite !nth_overflow by (rewrite ?hrows_len, ?hvals_len; lia). reflexivity.
Qed.
Lemma grad_nth k t : (k <= N)%nat -> (t < width k)%nat -> nth (hess_off d k + t) (gradient d q) 0 = q_rqz q k t.
Proof.
  intros Hk Ht. unfold gradient, stages, hess_off. change (fun k0 => (nx k0 + nu k0 + 2 * ns k0)%nat) with width.
  rewrite flat_nth with (w := width); [|intros; rewrite map_length, seq_length; unfold OsqpProofs.width; lia|lia|exact Ht].
  apply nth_map_seq. unfold OsqpProofs.width in Ht. lia.
Qed.
Lemma grad_len : length (gradient d q) = num_vars d.
Proof. unfold gradient, stages, num_vars. apply flat_len. intros. rewrite map_length, seq_length. lia. Qed.

Variable P : nat -> nat -> R.
Hypothesis HP : forall r c, (c < num_vars d)%nat -> P r c = ldot (nth c (hess_rows d) []) (nth c (hess_vals d q) []) (unit_at r).
Lemma P_entry k1 t1 k t : (k1 <= N)%nat -> (t1 < width k1)%nat -> (k <= N)%nat -> (t < width k)%nat ->
  P (hess_off d k1 + t1) (hess_off d k + t) = if (k1 =? k)%nat then
    if (t <? nv k)%nat then (if (t1 <=? t)%nat then q_H q k t t1 else 0) else (if (t1 =? t)%nat then q_Z q k (t - nv k)%nat else 0) else 0.
Proof.
  intros Hk1 Ht1 Hk Ht. rewrite HP by (apply var_lt; assumption). rewrite hrows_nth, hvals_nth by assumption. unfold hrow, hval.
  assert (I : forall j, (j < width k)%nat -> (hess_off d k + j = hess_off d k1 + t1)%nat -> k = k1 /\ j = t1) by (intros j Hj E; apply (nsum_inj width k j k1 t1 Hj Ht1); exact E).
  destruct (Nat.ltb_spec t (nv k)) as [L|L].
  - rewrite (ldot_map (S t) (fun ii => (hess_off d k + ii)%nat) (fun c => q_H q k t c)). destruct (Nat.eqb_spec k1 k) as [->|Ne].
    + destruct (Nat.leb_spec t1 t) as [L1|L1].
      * rewrite (sum_one (S t) t1); [rewrite unit_eq; lra|lia|]. intros j Hj Nj. rewrite unit_ne; [lra|lia].
      * apply sum_zero. intros j Hj. rewrite unit_ne; [lra|lia].
    + apply sum_zero. intros j Hj. rewrite unit_ne; [lra|]. intros E. apply Ne. symmetry. apply (I j); [lia|exact E].
  - cbn [ldot]. destruct (Nat.eqb_spec k1 k) as [->|Ne].
    + destruct (Nat.eqb_spec t1 t) as [->|Nt]; [rewrite unit_eq; lra|]. rewrite unit_ne; [lra|lia].
    + rewrite unit_ne; [lra|]. intros E. apply Ne. symmetry. apply (I t Ht E).
Qed.
Lemma hess_order k1 t1 k t : (t1 < width k1)%nat -> (t < width k)%nat -> k1 = k -> (hess_off d k1 + t1 <=? hess_off d k + t)%nat = (t1 <=? t)%nat.
Proof. intros _ _ ->. apply eq_true_iff_eq. rewrite !Nat.leb_le. lia. Qed.
Variable z : nat -> R.
Notation stg := (stg d z).
Lemma P_mul k t : (k <= N)%nat -> (t < width k)%nat ->
  sum (num_vars d) (fun e => (if (hess_off d k + t <=? e)%nat then P (hess_off d k + t) e else P e (hess_off d k + t)) * z e) =
  if (t <? nv k)%nat then sum (nv k) (fun c => sym q k t c * stg k c) else q_Z q k (t - nv k)%nat * stg k t.
Proof.
  intros Hk Ht. unfold num_vars. rewrite sum_stages. change (fun k0 => (nx k0 + nu k0 + 2 * ns k0)%nat) with width. rewrite (sum_one (S N) k); [|lia|].
  2:{ intros k' Hk' Ne. apply sum_zero. intros t' Ht'. change (nsum k' width) with (hess_off d k'). rewrite !P_entry by (try assumption; lia).
      destruct (Nat.eqb_spec k k'); [congruence|]. destruct (Nat.eqb_spec k' k); [congruence|]. destruct (_ <=? _)%nat; lra. }
  change (nsum k width) with (hess_off d k).
  rewrite (sum_ext (width k) _ (fun t' => (if (t <=? t')%nat then (if (t' <? nv k)%nat then q_H q k t' t else if (t =? t')%nat then q_Z q k (t' - nv k)%nat else 0)
      else (if (t <? nv k)%nat then q_H q k t t' else 0)) * stg k t')).
  2:{ intros t' Ht'. rewrite !P_entry by assumption. rewrite Nat.eqb_refl. rewrite hess_order by (try assumption; reflexivity). unfold OsqpRows.stg.
      destruct (Nat.leb_spec t t') as [L|L]; [reflexivity|]. destruct (t <? nv k)%nat; [destruct (Nat.leb_spec t' t); [reflexivity|lia]|]. destruct (Nat.eqb_spec t' t); [lia|reflexivity]. }
  destruct (Nat.ltb_spec t (nv k)) as [L|L].
  - replace (width k) with (nv k + 2 * ns k)%nat by (unfold OsqpProofs.width, QpsSpec.nv; lia). rewrite sum_split, (sum_zero (2 * ns k)).
    2:{ intros e He. destruct (Nat.leb_spec t (nv k + e)); [|lia]. destruct (Nat.ltb_spec (nv k + e) (nv k)); [lia|]. destruct (Nat.eqb_spec t (nv k + e)); [lia|lra]. }
    rewrite Rplus_0_r. apply sum_ext. intros t' Ht'. unfold sym. destruct (Nat.ltb_spec t' (nv k)); [|lia].
    destruct (Nat.leb_spec t t'), (Nat.leb_spec t' t); try reflexivity; try lia. replace t' with t by lia. reflexivity.
  - rewrite (sum_one (width k) t); [|exact Ht|].
    + rewrite Nat.leb_refl, Nat.eqb_refl. destruct (Nat.ltb_spec t (nv k)); [lia|reflexivity].
    + intros t' Ht' Ne. destruct (Nat.leb_spec t t'); [|lra]. destruct (Nat.ltb_spec t' (nv k)); [lia|]. destruct (Nat.eqb_spec t t'); [congruence|lra].
Qed.
End H.

Section K.
Variable d : qdims.
Variable q : rqp.
Notation N := (qN d). Notation nx := (qnx d). Notation nu := (qnu d). Notation nb := (qnb d). Notation ng := (qng d). Notation ns := (qns d).
Notation rev := (q_rev q).
Notation nv := (nv d). Notation nrow := (nrow d).
Notation rdyn := (rdyn d). Notation rcon := (rcon d). Notation rrep := (rrep d q). Notation rslk := (rslk d). Notation width := (width d).
Hypothesis WB : wf_bounds d q.
Hypothesis WS : wf_soft d q.

Lemma soft_rev k i : (k <= N)%nat -> (i < nrow k)%nat -> (rev k i =? -1)%Z = negb (soft q k i).
Proof. intros Hk Hi. destruct (soft_cases d q WS k i Hk Hi) as [[-> ->]|[-> [j [_ ->]]]]; [reflexivity|]. cbn. apply Z.eqb_neq. lia. Qed.

(** membership in lists built by stages *)
Lemma in_stages {X} (f : nat -> list X) x : In x (stages d f) <-> exists k, (k <= N)%nat /\ In x (f k).
Proof.
  unfold stages. rewrite in_flat_map. split; intros (k & A & B); exists k; (split; [|exact B]); [apply in_seq in A; lia|apply in_seq; lia].
Qed.
Lemma in_stages_dyn {X} (f : nat -> list X) x : In x (stages_dyn d f) <-> exists k, (k < N)%nat /\ In x (f k).
Proof.
  unfold stages_dyn. rewrite in_flat_map. split; intros (k & A & B); exists k; (split; [|exact B]); [apply in_seq in A; lia|apply in_seq; lia].
Qed.
Lemma in_ms {X} (f : nat -> X) n x : In x (map f (seq 0 n)) <-> exists i, (i < n)%nat /\ x = f i.
Proof. split; [apply in_mapseq|]. intros (i & A & ->). apply in_map. apply in_seq. lia. Qed.

Definition ext (x : R) : ebound real := Fin (A := real) x.
Definition lstore (r : nat) (v : ebound real) : Prop :=
  (exists k i, (k < N)%nat /\ (i < nx (S k))%nat /\ r = rdyn k i /\ v = ext (- q_b q k i)) \/
  (exists k i, (k <= N)%nat /\ (i < nrow k)%nat /\ r = rcon k i /\ v = ext (q_d q k i)) \/
  (exists k i, (k <= N)%nat /\ (i < nrow k)%nat /\ soft q k i = true /\ r = rrep k i /\ v = MInf) \/
  (exists k e, (k <= N)%nat /\ (e < 2 * ns k)%nat /\ r = rslk k e /\ v = ext (q_d q k (2 * nrow k + e)%nat)).
Lemma rep_of k e : (k <= N)%nat -> (e < ns k)%nat -> exists i, (i < nrow k)%nat /\ soft q k i = true /\ (base d k + nb k + ng k + e)%nat = rrep k i.
Proof.
  intros Hk He. destruct (packed_find q k (nrow k) e) as (i & A & B & C); [rewrite (packed_all d q WS) by exact Hk; exact He|].
  exists i. repeat split; [exact A|exact B|]. unfold OsqpProofs.rrep. rewrite C. reflexivity.
Qed.
Lemma in_l r v : In (r, v) (stores_l d q) <-> lstore r v.
Proof.
  unfold stores_l, lstore. rewrite !in_app_iff, in_stages_dyn, !in_stages. split.
  - intros [(k & Hk & I)|[(k & Hk & I)|(k & Hk & I)]].
    + apply in_ms in I. destruct I as (i & Hi & E). injection E as -> ->. left. exists k, i. repeat split; assumption.
    + apply in_app_or in I. destruct I as [I|I]; apply in_ms in I; destruct I as (i & Hi & E); injection E as -> ->.
      * right. left. exists k, i. repeat split; assumption.
      * right. right. left. destruct (rep_of k i Hk Hi) as (j & A & B & C). exists k, j. rewrite C. repeat split; assumption.
    + apply in_ms in I. destruct I as (e & He & E). injection E as -> ->. right. right. right. exists k, e. repeat split; try assumption.
      unfold ext. f_equal. f_equal. unfold QpsSpec.nrow. lia.
  - intros [(k & i & Hk & Hi & -> & ->)|[(k & i & Hk & Hi & -> & ->)|[(k & i & Hk & Hi & S & -> & ->)|(k & e & Hk & He & -> & ->)]]].
    + left. exists k. split; [exact Hk|]. apply in_ms. exists i. split; [exact Hi|reflexivity].
    + right. left. exists k. split; [exact Hk|]. apply in_or_app. left. apply in_ms. exists i. split; [exact Hi|reflexivity].
    + right. left. exists k. split; [exact Hk|]. apply in_or_app. right. apply in_ms. exists (packed q k i). split; [|reflexivity].
      apply (packed_ns d q WS); assumption.
    + right. right. exists k. split; [exact Hk|]. apply in_ms. exists e. split; [exact He|]. unfold ext, QpsSpec.nrow. f_equal. f_equal. f_equal. lia.
Qed.
Definition ustore (r : nat) (v : ebound real) : Prop :=
  (exists k i, (k < N)%nat /\ (i < nx (S k))%nat /\ r = rdyn k i /\ v = ext (- q_b q k i)) \/
  (exists k i, (k <= N)%nat /\ (i < nrow k)%nat /\ r = rcon k i /\ v = (if soft q k i then PInf else ext (- q_d q k (nrow k + i)%nat))) \/
  (exists k i, (k <= N)%nat /\ (i < nrow k)%nat /\ soft q k i = true /\ r = rrep k i /\ v = ext (- q_d q k (nrow k + i)%nat)) \/
  (exists k e, (k <= N)%nat /\ (e < 2 * ns k)%nat /\ r = rslk k e /\ v = PInf).
Lemma in_upper k f r v : (k <= N)%nat -> forall ii, (ii + f <= nrow k)%nat -> In (r, v) (upper_stores d q k ii (packed q k ii) f) <->
  exists i, (ii <= i < ii + f)%nat /\ ((r = rcon k i /\ v = (if soft q k i then PInf else ext (- q_d q k (nrow k + i)%nat))) \/
    (soft q k i = true /\ r = rrep k i /\ v = ext (- q_d q k (nrow k + i)%nat))).
Proof.
  intros Hk. induction f as [|f IH]; intros ii Hf; [cbn; split; [contradiction|intros (i & ? & _); lia]|].
  cbn [upper_stores]. rewrite soft_rev by (try exact Hk; lia).
  assert (Step : (exists i, (ii <= i < ii + S f)%nat /\ ((r = rcon k i /\ v = (if soft q k i then PInf else ext (- q_d q k (nrow k + i)%nat))) \/
      (soft q k i = true /\ r = rrep k i /\ v = ext (- q_d q k (nrow k + i)%nat)))) <->
    ((r = rcon k ii /\ v = (if soft q k ii then PInf else ext (- q_d q k (nrow k + ii)%nat))) \/ (soft q k ii = true /\ r = rrep k ii /\ v = ext (- q_d q k (nrow k + ii)%nat))) \/
    (exists i, (S ii <= i < S ii + f)%nat /\ ((r = rcon k i /\ v = (if soft q k i then PInf else ext (- q_d q k (nrow k + i)%nat))) \/
      (soft q k i = true /\ r = rrep k i /\ v = ext (- q_d q k (nrow k + i)%nat))))).
  { split.
    - intros (i & Hi & G). destruct (Nat.eq_dec i ii) as [->|Ne]; [left; exact G|right; exists i; split; [lia|exact G]].
    - intros [G|(i & Hi & G)]; [exists ii; split; [lia|exact G]|exists i; split; [lia|exact G]]. }
  rewrite Step. rewrite <- (IH (S ii)) by lia. rewrite packed_S. destruct (soft q k ii); cbn [negb In].
  - rewrite Nat.add_1_r. unfold ext, OsqpProofs.rcon, OsqpProofs.rrep, QpsSpec.nrow. split.
    + intros [E|[E|I]]; [left; left; injection E as <- <-; split; reflexivity|left; right; injection E as <- <-; repeat split; reflexivity|right; exact I].
    + intros [[[-> ->]|(_ & -> & ->)]|I]; [left; reflexivity|right; left; reflexivity|right; right; exact I].
  - rewrite Nat.add_0_r. unfold ext, OsqpProofs.rcon, QpsSpec.nrow. split.
    + intros [E|I]; [left; left; injection E as <- <-; split; reflexivity|right; exact I].
    + intros [[[-> ->]|(C & _)]|I]; [left; reflexivity|discriminate|right; exact I].
Qed.
Lemma in_u r v : In (r, v) (stores_u d q) <-> ustore r v.
Proof.
  unfold stores_u, ustore. rewrite !in_app_iff, in_stages_dyn, !in_stages. split.
  - intros [(k & Hk & I)|[(k & Hk & I)|(k & Hk & I)]].
    + apply in_ms in I. destruct I as (i & Hi & E). injection E as -> ->. left. exists k, i. repeat split; assumption.
    + apply (in_upper k (nb k + ng k) r v Hk 0) in I; [|unfold QpsSpec.nrow; lia]. destruct I as (i & Hi & [[A B]|(A & B & C)]).
      * right. left. exists k, i. repeat split; [exact Hk|unfold QpsSpec.nrow; lia|exact A|exact B].
      * right. right. left. exists k, i. repeat split; [exact Hk|unfold QpsSpec.nrow; lia|exact A|exact B|exact C].
    + apply in_ms in I. destruct I as (e & He & E). injection E as -> ->. right. right. right. exists k, e. repeat split; assumption.
  - intros [(k & i & Hk & Hi & -> & ->)|[(k & i & Hk & Hi & A & B)|[(k & i & Hk & Hi & A & B & C)|(k & e & Hk & He & -> & ->)]]].
    + left. exists k. split; [exact Hk|]. apply in_ms. exists i. split; [exact Hi|reflexivity].
    + right. left. exists k. split; [exact Hk|]. apply (in_upper k (nb k + ng k) r v Hk 0); [unfold QpsSpec.nrow; lia|]. exists i. split; [unfold QpsSpec.nrow in Hi; lia|left; split; assumption].
    + right. left. exists k. split; [exact Hk|]. apply (in_upper k (nb k + ng k) r v Hk 0); [unfold QpsSpec.nrow; lia|]. exists i. split; [unfold QpsSpec.nrow in Hi; lia|right; repeat split; assumption].
    + right. right. exists k. split; [exact Hk|]. apply in_ms. exists e. split; [exact He|reflexivity].
Qed.

(** a row determines what it stands for *)
Lemma row_dyn_con k i k' i' : (k < N)%nat -> (i < nx (S k))%nat -> rdyn k i <> rcon k' i'.
Proof. intros A B E. pose proof (dyn_lt d k i A B). pose proof (con_ge d k' i'). lia. Qed.
Lemma row_dyn_rep k i k' i' : (k < N)%nat -> (i < nx (S k))%nat -> rdyn k i <> rrep k' i'.
Proof. intros A B E. pose proof (dyn_lt d k i A B). pose proof (rep_ge d q k' i'). lia. Qed.
Lemma row_dyn_slk k i k' e' : (k < N)%nat -> (i < nx (S k))%nat -> rdyn k i <> rslk k' e'.
Proof. intros A B E. pose proof (dyn_lt d k i A B). pose proof (slk_ge d k' e'). pose proof (starts_le d). lia. Qed.
Lemma row_con_slk k i k' e' : (k <= N)%nat -> (i < nrow k)%nat -> rcon k i <> rslk k' e'.
Proof. intros A B E. pose proof (con_lt d k i A B). pose proof (slk_ge d k' e'). lia. Qed.
Lemma row_rep_slk k i k' e' : (k <= N)%nat -> (i < nrow k)%nat -> soft q k i = true -> rrep k i <> rslk k' e'.
Proof. intros A B S E. pose proof (rep_lt d q WS k i A B S). pose proof (slk_ge d k' e'). lia. Qed.
(** any assignment of values to rows *)
Definition assigns {X} (fd : nat -> nat -> X) (fc fr fs : nat -> nat -> X) (r : nat) (v : X) : Prop :=
  (exists k i, (k < N)%nat /\ (i < nx (S k))%nat /\ r = rdyn k i /\ v = fd k i) \/
  (exists k i, (k <= N)%nat /\ (i < nrow k)%nat /\ r = rcon k i /\ v = fc k i) \/
  (exists k i, (k <= N)%nat /\ (i < nrow k)%nat /\ soft q k i = true /\ r = rrep k i /\ v = fr k i) \/
  (exists k e, (k <= N)%nat /\ (e < 2 * ns k)%nat /\ r = rslk k e /\ v = fs k e).
Section AS.
Context {X : Type}.
Variables fd fc fr fs : nat -> nat -> X.
Variable w : list (nat * X).
Hypothesis HW : forall r v, In (r, v) w <-> assigns fd fc fr fs r v.
Variable a : nat -> X.
Lemma at_dyn k i : (k < N)%nat -> (i < nx (S k))%nat -> store a w (rdyn k i) = fd k i.
Proof.
  intros Hk Hi. apply store_in; [apply HW; left; exists k, i; repeat split; assumption|]. intros v I. apply HW in I.
  destruct I as [(k' & i' & A & B & C & ->)|[(k' & i' & A & B & C & _)|[(k' & i' & A & B & S & C & _)|(k' & e & A & B & C & _)]]].
  - apply dyn_inj in C; try assumption. destruct C as [-> ->]. reflexivity.
  - exfalso. revert C. apply row_dyn_con; assumption.
  - exfalso. revert C. apply row_dyn_rep; assumption.
  - exfalso. revert C. apply row_dyn_slk; assumption.
Qed.
Lemma at_con k i : (k <= N)%nat -> (i < nrow k)%nat -> store a w (rcon k i) = fc k i.
Proof.
  intros Hk Hi. apply store_in; [apply HW; right; left; exists k, i; repeat split; assumption|]. intros v I. apply HW in I.
  destruct I as [(k' & i' & A & B & C & _)|[(k' & i' & A & B & C & ->)|[(k' & i' & A & B & S & C & _)|(k' & e & A & B & C & _)]]].
  - exfalso. symmetry in C. revert C. apply row_dyn_con; assumption.
  - apply con_inj in C; try assumption. destruct C as [-> ->]. reflexivity.
  - exfalso. revert C. apply (con_rep d q WS); assumption.
  - exfalso. revert C. apply row_con_slk; assumption.
Qed.
Lemma at_rep k i : (k <= N)%nat -> (i < nrow k)%nat -> soft q k i = true -> store a w (rrep k i) = fr k i.
Proof.
  intros Hk Hi Hs. apply store_in; [apply HW; right; right; left; exists k, i; repeat split; assumption|]. intros v I. apply HW in I.
  destruct I as [(k' & i' & A & B & C & _)|[(k' & i' & A & B & C & _)|[(k' & i' & A & B & S & C & ->)|(k' & e & A & B & C & _)]]].
  - exfalso. symmetry in C. revert C. apply row_dyn_rep; assumption.
  - exfalso. symmetry in C. revert C. apply (con_rep d q WS); assumption.
  - apply (rep_inj d q WS) in C; try assumption. destruct C as [-> ->]. reflexivity.
  - exfalso. revert C. apply row_rep_slk; assumption.
Qed.
Lemma at_slk k e : (k <= N)%nat -> (e < 2 * ns k)%nat -> store a w (rslk k e) = fs k e.
Proof.
  intros Hk He. apply store_in; [apply HW; right; right; right; exists k, e; repeat split; assumption|]. intros v I. apply HW in I.
  destruct I as [(k' & i' & A & B & C & _)|[(k' & i' & A & B & C & _)|[(k' & i' & A & B & S & C & _)|(k' & e' & A & B & C & ->)]]].
  - exfalso. symmetry in C. revert C. apply row_dyn_slk; assumption.
  - exfalso. symmetry in C. revert C. apply row_con_slk; assumption.
  - exfalso. symmetry in C. revert C. apply row_rep_slk; assumption.
  - apply slk_inj in C; try assumption. destruct C as [-> ->]. reflexivity.
Qed.
End AS.
End K.
