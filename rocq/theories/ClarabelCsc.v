(** Structure of the Clarabel matrices. *)
From Coq Require Import ZArith List Bool Lia Reals Arith.
From Verif Require Import Arr Arith QpsModel CscModel CscSpec RSum QpsSpec OsqpModel OsqpSpec CscProofs OsqpProofs OsqpRows OsqpKkt OsqpRun OsqpCsc ClarabelModel ClarabelSpec ClarabelProofs ClarabelArena ClarabelTop.
Import ListNotations.
Open Scope nat_scope.

Lemma nodup_app {X} (l1 l2 : list X) : NoDup l1 -> NoDup l2 -> (forall x, In x l1 -> In x l2 -> False) -> NoDup (l1 ++ l2).
Proof.
  intros H1 H2 D. induction l1 as [|a l1 IH]; [exact H2|]. inversion H1; subst. cbn. constructor.
  - rewrite in_app_iff. intros [I|I]; [contradiction|]. apply (D a); [left; reflexivity|exact I].
  - apply IH; [assumption|]. intros x I1 I2. apply (D x); [right; exact I1|exact I2].
Qed.
Lemma inc_in lo hi l x : inc lo hi l -> In x l -> lo <= x < hi.
Proof. revert lo. induction l as [|a l IH]; intros lo H I; [contradiction|]. cbn [inc] in H. destruct I as [->|I]; [lia|]. destruct H as [H1 H2]. specialize (IH _ H2 I). lia. Qed.
Lemma inc_nodup lo hi l : inc lo hi l -> NoDup l.
Proof. revert lo. induction l as [|a l IH]; intros lo H; [constructor|]. cbn [inc] in H. destruct H as [H1 H2]. constructor; [|exact (IH _ H2)]. intros I. apply (inc_in _ _ _ _ H2) in I. lia. Qed.
Lemma map_nodup b n : NoDup (map (fun i => b + i) (seq 0 n)).
Proof. apply (inc_nodup b (b + n)). apply inc_map. Qed.

Lemma cols_set cols t1 t2 m nzmax : (forall c, c < length cols -> NoDup (nth c cols []) /\ forall r, In r (nth c cols []) -> r < m) -> length (concat cols) <= nzmax ->
  csc_set m (length cols) nzmax (ptrs 0 cols ++ t1) (concat cols ++ t2) (length (concat cols)).
Proof.
  intros HI Hz.
  assert (P : forall c, c <= length cols -> nth c (ptrs 0 cols ++ t1) 0 = length (concat (firstn c cols))) by (intros c Hc; rewrite app_nth1 by (rewrite ptrs_len; lia); rewrite ptrs_nth by exact Hc; lia).
  assert (Q : forall c, c < length cols -> nth (S c) (ptrs 0 cols ++ t1) 0 = nth c (ptrs 0 cols ++ t1) 0 + length (nth c cols [])) by (intros c Hc; rewrite !app_nth1 by (rewrite ptrs_len; lia); apply ptrs_step; exact Hc).
  assert (En : nth (length cols) (ptrs 0 cols ++ t1) 0 = length (concat cols)) by (rewrite P by lia; rewrite firstn_all; reflexivity).
  assert (G : forall c e, c < length cols -> e < length (nth c cols []) -> nth (nth c (ptrs 0 cols ++ t1) 0 + e) (concat cols ++ t2) 0 = nth e (nth c cols []) 0).
  { intros c e Hc He. rewrite P by lia. destruct (concat_nth cols c e 0 Hc He) as [E L]. rewrite app_nth1 by exact L. exact E. }
  constructor.
  - rewrite app_length, ptrs_len. lia.
  - rewrite P by lia. reflexivity.
  - intros c Hc. rewrite Q by exact Hc. lia.
  - rewrite En. exact Hz.
  - rewrite En, app_length. split; lia.
  - intros c e Hc He. rewrite Q in He by exact Hc. replace e with (nth c (ptrs 0 cols ++ t1) 0 + (e - nth c (ptrs 0 cols ++ t1) 0)) by lia. rewrite G by lia.
    apply (proj2 (HI c Hc)). apply nth_In. lia.
  - intros c e e' Hc He He2. rewrite Q in He2 by exact Hc. set (s := nth c (ptrs 0 cols ++ t1) 0) in *. replace e with (s + (e - s)) by lia. replace e' with (s + (e' - s)) by lia.
    unfold s. rewrite !G by (fold s; lia). fold s. intros X. apply (proj1 (NoDup_nth _ 0) (proj1 (HI c Hc))) in X; lia.
Qed.

Section C.
Variable d : qdims.
Variable q : rqp.
Notation N := (qN d). Notation nx := (qnx d). Notation nu := (qnu d). Notation nb := (qnb d). Notation ng := (qng d). Notation ns := (qns d).
Notation rev := (q_rev q). Notation nv := (nv d). Notation width := (width d).
Lemma c_con_nodup k v : NoDup (c_con_rows d q k v) /\ forall r, In r (c_con_rows d q k v) -> c_base d k <= r.
Proof.
  unfold c_con_rows. cbv zeta. split.
  - apply nodup_app; [| |].
    + destruct (Nat.ltb_spec (bound_of d q k v) (nb k)); [|constructor]. constructor; [intros [E|[]]; lia|constructor; [intros []|constructor]].
    + apply nodup_app; [apply map_nodup|apply map_nodup|]. intros x I1 I2. apply in_ms in I1. apply in_ms in I2. destruct I1 as (i & Hi & ->). destruct I2 as (j & Hj & E). lia.
    + intros x I1 I2. destruct (Nat.ltb_spec (bound_of d q k v) (nb k)); [|contradiction]. apply in_app_iff in I2.
      destruct I2 as [I2|I2]; apply in_ms in I2; destruct I2 as (j & Hj & ->); destruct I1 as [E|[E|[]]]; lia.
  - intros r I. apply in_app_iff in I. destruct I as [I|I]; [destruct (_ <? _); [|contradiction]; destruct I as [E|[E|[]]]; lia|].
    apply in_app_iff in I. destruct I as [I|I]; apply in_ms in I; destruct I as (j & Hj & ->); lia.
Qed.
Lemma dyn_nodup k : NoDup (dyn_rows d k).
Proof. unfold dyn_rows. destruct (_ <? _); [apply map_nodup|constructor]. Qed.
Lemma dyn_ge k r : In r (dyn_rows d k) -> off_dyn d k <= r.
Proof. unfold dyn_rows. destruct (_ <? _); [|contradiction]. intros I. apply in_ms in I. destruct I as (i & _ & ->). lia. Qed.
Lemma ccrow_nodup k t : k <= N -> t < width k -> NoDup (ccrow d q k t).
Proof.
  intros Hk Ht. assert (B : con_start d <= c_base d k) by (unfold c_base; lia). assert (Env : nv k = nu k + nx k) by reflexivity. unfold OsqpProofs.width in Ht.
  assert (DC : forall v, NoDup (dyn_rows d k ++ c_con_rows d q k v)).
  { intros v. apply nodup_app; [apply dyn_nodup|apply c_con_nodup|]. intros x I1 I2. apply dyn_row_lt in I1; [|exact Hk]. apply c_con_nodup in I2. lia. }
  assert (SL : forall b j, j < 2 * ns k -> c_base d k <= b -> b + nb k + ng k <= c_base d k + 2 * (nb k + ng k) -> forall jj,
    NoDup (flat_map (fun ii => if (rev k ii =? Z.of_nat jj)%Z then [b + ii] else []) (seq 0 (nb k + ng k)) ++ [c_slk d + off_slk d k + j])).
  { intros b j Hj Hb Hb2 jj.
    pose proof (inc_cond (fun i => (rev k i =? Z.of_nat jj)%Z) (fun i => b + i) (b + (nb k + ng k)) (nb k + ng k) 0 b ltac:(intros i Hi _; cbv beta; lia) ltac:(intros i1 i2 H1 H2 H3 _ _; cbv beta; lia)) as IC.
    apply nodup_app; [exact (inc_nodup _ _ _ IC)|constructor; [intros []|constructor]|]. intros x I1 [<-|[]]. apply (inc_in _ _ _ _ IC) in I1.
    pose proof (base_le d (S k) (S N) ltac:(lia)) as X. rewrite base_S, <- slk_base in X. unfold nrow in X. lia. }
  unfold ccrow. destruct (Nat.ltb_spec t (nu k)); [|destruct (Nat.ltb_spec t (nv k)); [|destruct (Nat.ltb_spec t (nv k + ns k))]].
  - apply DC.
  - unfold c_x_rows. apply nodup_app; [unfold eye_rows; destruct (0 <? k); [constructor; [intros []|constructor]|constructor]|apply DC|].
    intros x I1 I2. pose proof (eye_row_lt d k (t - nu k) x Hk ltac:(lia) I1) as L. unfold eye_rows in I1. destruct (Nat.ltb_spec 0 k) as [P|]; [|contradiction]. destruct I1 as [E|[]].
    apply in_app_iff in I2. destruct I2 as [I2|I2]; [apply dyn_ge in I2|apply c_con_nodup in I2; lia].
    assert (X : off_dyn d k = off_dyn d (k - 1) + nx k). { rewrite !off_nsum by lia. replace k with (S (k - 1)) at 1 3 by lia. reflexivity. } lia.
  - unfold c_sl_rows. apply SL; lia.
  - unfold c_su_rows. replace (c_slk d + off_slk d k + ns k + (t - nv k - ns k)) with (c_slk d + off_slk d k + (ns k + (t - nv k - ns k))) by lia. 
    apply SL; lia.
Qed.
Lemma c_con_count k v : length (c_con_rows d q k v) = (if bound_of d q k v <? nb k then 2 else 0) + 2 * ng k.
Proof. unfold c_con_rows. cbv zeta. rewrite !app_length, !map_length, !seq_length. destruct (_ <? _); cbn [length]; lia. Qed.
Lemma bound2 k n : nsum n (fun v => if bound_of d q k v <? nb k then 2 else 0) <= 2 * nb k.
Proof.
  pose proof (bounds_count d q k n) as B. assert (E : nsum n (fun v => if bound_of d q k v <? nb k then 2 else 0) = 2 * nsum n (fun v => if bound_of d q k v <? nb k then 1 else 0)).
  { clear. induction n as [|n IH]; [reflexivity|]. cbn [nsum]. rewrite IH. destruct (_ <? _); lia. } lia.
Qed.
Lemma c_stage_count k : k <= N -> nsum (width k) (fun t => length (ccrow d q k t)) <=
  2 * nb k + 2 * ng k * nx k + 2 * ng k * nu k + 2 * (nb k + ng k) * 2 * ns k + 2 * ns k + (if k <? N then nx (S k) * nx k + nx (S k) * nu k else 0) + (if 0 <? k then nx k else 0).
Proof.
  intros Hk. replace (width k) with (nv k + 2 * ns k) by (unfold OsqpProofs.width, QpsSpec.nv; lia). rewrite nsum_add.
  assert (Env : nv k = nu k + nx k) by reflexivity.
  assert (A : nsum (nv k) (fun t => length (ccrow d q k t)) <= 2 * nb k + nv k * (2 * ng k + (if k <? N then nx (S k) else 0)) + (if 0 <? k then nx k else 0)).
  { rewrite (nsum_ext _ (fun t => ((if bound_of d q k t <? nb k then 2 else 0) + (2 * ng k + (if k <? N then nx (S k) else 0))) + (if nu k <=? t then if 0 <? k then 1 else 0 else 0))).
    - rewrite !nsum_plus, !nsum_const. pose proof (bound2 k (nv k)).
      assert (nsum (nv k) (fun t => if nu k <=? t then if 0 <? k then 1 else 0 else 0) = if 0 <? k then nx k else 0).
      { rewrite Env, nsum_add. rewrite (nsum_ext _ (fun _ => 0) (nu k)) by (intros t Ht; destruct (Nat.leb_spec (nu k) t); [lia|reflexivity]).
        rewrite (nsum_ext _ (fun _ => if 0 <? k then 1 else 0) (nx k)) by (intros t Ht; destruct (Nat.leb_spec (nu k) (nu k + t)); [reflexivity|lia]).
        rewrite !nsum_const. destruct (0 <? k); lia. }
      lia.
    - intros t Ht. unfold ccrow. destruct (Nat.ltb_spec t (nu k)); [|destruct (Nat.ltb_spec t (nv k)); [|lia]].
      + unfold c_u_rows. rewrite app_length, c_con_count, dyn_count. destruct (Nat.leb_spec (nu k) t); [lia|]. lia.
      + unfold c_x_rows. rewrite !app_length, c_con_count, dyn_count. destruct (Nat.leb_spec (nu k) t); [|lia]. replace (nu k + (t - nu k)) with t by lia.
        unfold eye_rows. destruct (0 <? k); cbn [length]; lia. }
  assert (B : nsum (2 * ns k) (fun t => length (ccrow d q k (nv k + t))) <= nsum (2 * ns k) (fun _ => nb k + ng k + 1)).
  { apply nsum_le. intros t Ht. assert (FL : forall b jj, length (flat_map (fun ii => if (rev k ii =? Z.of_nat jj)%Z then [b + ii] else []) (seq 0 (nb k + ng k))) <= nb k + ng k).
    { intros b jj. rewrite (cond_len (fun i => (rev k i =? Z.of_nat jj)%Z) (fun i => b + i)). rewrite <- (Nat.mul_1_r (nb k + ng k)) at 2. rewrite <- nsum_const. apply nsum_le. intros i _. cbv beta. destruct (_ =? _)%Z; lia. }
    unfold ccrow. destruct (Nat.ltb_spec (nv k + t) (nu k)); [lia|]. destruct (Nat.ltb_spec (nv k + t) (nv k)); [lia|].
    destruct (nv k + t <? nv k + ns k).
    - pose proof (FL (c_base d k) (nv k + t - nv k)). unfold c_sl_rows. rewrite app_length. cbn [length]. lia.
    - pose proof (FL (c_base d k + nb k + ng k) (nv k + t - nv k - ns k)). unfold c_su_rows. rewrite app_length. cbn [length]. lia. }
  rewrite nsum_const in B. destruct (k <? N); nia.
Qed.
Lemma c_nnz_A : length (concat (c_rows d q)) <= c_nnzmax_A d.
Proof.
  rewrite concat_len, c_rows_len. unfold num_vars, c_nnzmax_A. rewrite nsum_blocks.
  set (F := fun k => 2 * nb k + 2 * ng k * nx k + 2 * ng k * nu k + 2 * (nb k + ng k) * 2 * ns k + 2 * ns k).
  set (D := fun k => if k <? N then nx (S k) * nx k + nx (S k) * nu k else 0). set (E := fun k => if 0 <? k then nx k else 0).
  apply (Nat.le_trans _ (nsum (S N) (fun k => (F k + D k) + E k))).
  - apply nsum_le. intros k Hk. rewrite (nsum_ext _ (fun t => length (ccrow d q k t))) by (intros t Ht; f_equal; apply c_rows_nth; [lia|exact Ht]). apply c_stage_count. lia.
  - rewrite (nsum_plus (fun k => F k + D k) E), (nsum_plus F D). assert (E1 : nsum (S N) D = nsum N (fun k => nx (S k) * nx k + nx (S k) * nu k)).
    { cbn [nsum]. unfold D at 2. rewrite Nat.ltb_irrefl, Nat.add_0_r. apply nsum_ext. intros k Hk. unfold D. destruct (Nat.ltb_spec k N); [reflexivity|lia]. }
    assert (E2 : nsum (S N) E = nsum N (fun k => nx (S k))).
    { clear. induction N as [|n IH]; [reflexivity|]. change (nsum (S (S n)) E) with (nsum (S n) E + E (S n)). rewrite IH. reflexivity. }
    rewrite E1, E2. rewrite (nsum_plus (fun k => nx (S k) * nx k + nx (S k) * nu k) (fun k => nx (S k)) N). unfold F. lia.
Qed.
Variable qs : list rqp.
Variable m0 : cmem real.
Hypothesis HS : forall q', In q' qs -> same_maps d q q'.
Lemma clarabel_csc : exists m, c_calls d (qs ++ [q]) (true, m0) = Done (false, m) /\
  csc_set (c_constr d) (num_vars d) (c_nnzmax_A d) (c_Ap m) (c_Ai m) (length (concat (c_vals d q))) /\
  csc_ok (num_vars d) (num_vars d) (c_nnzmax_P d) (c_Pp m) (c_Pi m) (c_nnzmax_P d) /\ upper_triangular (num_vars d) (c_Pp m) (c_Pi m).
Proof.
  destruct (c_history d q qs m0 HS) as (m & st & E & ([t1 E1] & [t2 E2] & [t3 E3] & [t4 E4]) & _). exists m. split; [exact E|]. rewrite E1, E2, E3, E4.
  assert (LA : length (concat (c_vals d q)) = length (concat (c_rows d q))) by (rewrite !concat_len, c_rows_len, c_vals_len; apply nsum_ext; intros c _; symmetry; apply c_cols_same).
  rewrite LA. split; [|split].
  - rewrite <- (c_rows_len d q). apply cols_set; [|apply c_nnz_A]. intros c Hc. rewrite c_rows_len in Hc. destruct (var_find d c Hc) as (k & t & Hk & Ht & ->). rewrite c_rows_nth by assumption.
    split; [apply ccrow_nodup; assumption|intros r; apply ccrow_lt; assumption].
  - pose proof (cols_csc (hess_rows d) t1 t2 (num_vars d) (c_nnzmax_P d)) as X. rewrite hrows_len, hess_exact in X. apply X; [|lia].
    intros c Hc. destruct (var_find d c Hc) as (k & t & Hk & Ht & ->). rewrite hrows_nth by assumption. apply hrow_inc; assumption.
  - rewrite <- (hrows_len d). apply cols_upper. intros c r Hc. rewrite hrows_len in Hc. destruct (var_find d c Hc) as (k & t & Hk & Ht & ->). rewrite hrows_nth by assumption. apply hrow_inc; assumption.
Qed.
End C.
