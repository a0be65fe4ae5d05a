(** The matrices of the OSQP interface are well formed and fit. *)
From Coq Require Import ZArith List Bool Lia Reals Lra Arith.
From Verif Require Import Arith QpsModel CscModel CscSpec RSum QpsSpec OsqpModel OsqpSpec CscProofs OsqpProofs OsqpRows OsqpKkt OsqpTop OsqpRun.
Import ListNotations.
Open Scope nat_scope.

(** strictly increasing within [lo, hi) *)
Fixpoint inc (lo hi : nat) (l : list nat) : Prop := match l with [] => True | a :: r => lo <= a < hi /\ inc (S a) hi r end.
Lemma inc_weak lo lo' hi hi' l : lo' <= lo -> hi <= hi' -> inc lo hi l -> inc lo' hi' l.
Proof.
  intros A B. revert lo lo' A. induction l as [|a l IH]; intros lo lo' A H; [exact I|]. destruct H as [H1 H2]. split; [lia|]. exact (IH (S a) (S a) (le_n _) H2).
Qed.
Lemma inc_app lo mid hi l1 l2 : lo <= mid -> mid <= hi -> inc lo mid l1 -> inc mid hi l2 -> inc lo hi (l1 ++ l2).
Proof.
  revert lo. induction l1 as [|a l1 IH]; intros lo A B H1 H2; [apply (inc_weak mid lo hi hi); [exact A|lia|exact H2]|].
  destruct H1 as [H1 H3]. split; [lia|]. apply IH; [lia|exact B|exact H3|exact H2].
Qed.
Lemma inc_cond (p : nat -> bool) (f : nat -> nat) hi n : forall s lo, (forall i, s <= i < s + n -> p i = true -> lo <= f i < hi) ->
  (forall i j, s <= i -> i < j -> j < s + n -> p i = true -> p j = true -> f i < f j) -> inc lo hi (flat_map (fun i => if p i then [f i] else []) (seq s n)).
Proof.
  induction n as [|n IH]; intros s lo A B; [exact I|]. cbn [seq flat_map]. destruct (p s) eqn:E.
  - cbn [app inc]. split; [apply A; [lia|exact E]|]. apply IH.
    + intros i Hi Pi. split; [apply B; try assumption; lia|apply A; [lia|exact Pi]].
    + intros i j Hi Hj Hj2. apply B; lia.
  - cbn [app]. apply IH; [intros i Hi; apply A; lia|intros i j Hi Hj Hj2; apply B; lia].
Qed.
Lemma inc_map b n : inc b (b + n) (map (fun i => b + i) (seq 0 n)).
Proof.
  pose proof (inc_cond (fun _ => true) (fun i => b + i) (b + n) n 0 b) as H. rewrite flat_map_concat_map in H.
  replace (concat (map (fun i => if true then [b + i] else []) (seq 0 n))) with (map (fun i => b + i) (seq 0 n)) in H.
  - apply H; intros; lia.
  - generalize (seq 0 n) as l. induction l as [|a l IH]; [reflexivity|]. cbn. f_equal. exact IH.
Qed.
Lemma inc_nth lo hi l : inc lo hi l -> forall e, e < length l -> lo <= nth e l 0 < hi /\ (S e < length l -> nth e l 0 < nth (S e) l 0).
Proof.
  revert lo. induction l as [|a l IH]; intros lo H e He; [cbn in He; lia|]. destruct H as [H1 H2]. destruct e as [|e].
  - cbn. split; [exact H1|]. intros Hl. destruct (IH _ H2 0 ltac:(lia)) as [G _]. lia.
  - cbn in He. destruct (IH _ H2 e ltac:(lia)) as [G1 G2]. cbn [nth length]. split; [lia|]. intros Hl. apply G2. lia.
Qed.

(** from columns to arrays *)
Lemma concat_len {X} (l : list (list X)) : length (concat l) = nsum (length l) (fun c => length (nth c l [])).
Proof.
  induction l as [|a l IH] using rev_ind; [reflexivity|]. rewrite concat_app, !app_length. cbn [concat length app]. rewrite app_nil_r, Nat.add_1_r. cbn [nsum].
  rewrite app_nth2 by lia. rewrite Nat.sub_diag. cbn [nth]. f_equal. rewrite IH. apply nsum_ext. intros c Hc. rewrite app_nth1 by exact Hc. reflexivity.
Qed.
Lemma cols_csc cols t1 t2 m nzmax : (forall c, c < length cols -> inc 0 m (nth c cols [])) -> length (concat cols) <= nzmax ->
  csc_ok m (length cols) nzmax (ptrs 0 cols ++ t1) (concat cols ++ t2) (length (concat cols)).
Proof.
  intros HI Hz.
  assert (P : forall c, c <= length cols -> nth c (ptrs 0 cols ++ t1) 0 = length (concat (firstn c cols))) by (intros c Hc; rewrite app_nth1 by (rewrite ptrs_len; lia); rewrite ptrs_nth by exact Hc; lia).
  assert (Q : forall c, c < length cols -> nth (S c) (ptrs 0 cols ++ t1) 0 = nth c (ptrs 0 cols ++ t1) 0 + length (nth c cols [])) by (intros c Hc; rewrite !app_nth1 by (rewrite ptrs_len; lia); apply ptrs_step; exact Hc).
  assert (En : nth (length cols) (ptrs 0 cols ++ t1) 0 = length (concat cols)) by (rewrite P by lia; rewrite firstn_all; reflexivity).
  assert (G : forall c e, c < length cols -> e < length (nth c cols []) -> nth (nth c (ptrs 0 cols ++ t1) 0 + e) (concat cols ++ t2) 0 = nth e (nth c cols []) 0).
  { intros c e Hc He. rewrite P by lia. destruct (concat_nth cols c e 0 Hc He) as [E L]. rewrite app_nth1 by exact L. exact E. }
  constructor.
  - rewrite app_length, ptrs_len. lia.
  - rewrite P by lia. reflexivity.
  - intros c Hc. rewrite Q by exact Hc. lia.
  - rewrite En. exact Hz.
  - rewrite En, app_length. split; lia.
  - intros c e Hc He. rewrite Q in He by exact Hc. replace e with (nth c (ptrs 0 cols ++ t1) 0 + (e - nth c (ptrs 0 cols ++ t1) 0)) by lia. rewrite G by lia.
    apply (inc_nth 0 m _ (HI c Hc)). lia.
  - intros c e Hc He He2. rewrite Q in He2 by exact Hc. set (s := nth c (ptrs 0 cols ++ t1) 0) in *. replace e with (s + (e - s)) by lia. replace (S (s + (e - s))) with (s + S (e - s)) by lia.
    unfold s. rewrite !G by (fold s; lia). apply (inc_nth 0 m _ (HI c Hc)); lia.
Qed.

(** sums of naturals *)
Lemma nsum_blocks f n g : nsum (nsum n f) g = nsum n (fun k => nsum (f k) (fun t => g (nsum k f + t))).
Proof.
  assert (A : forall a b, nsum (a + b) g = nsum a g + nsum b (fun t => g (a + t))).
  { intros a b. induction b as [|b IH]; [rewrite Nat.add_0_r; cbn; lia|]. rewrite Nat.add_succ_r. cbn [nsum]. rewrite IH. lia. }
  induction n as [|n IH]; [reflexivity|]. cbn [nsum]. rewrite A, IH. reflexivity.
Qed.
Lemma nsum_add a b g : nsum (a + b) g = nsum a g + nsum b (fun t => g (a + t)).
Proof. induction b as [|b IH]; [rewrite Nat.add_0_r; cbn; lia|]. rewrite Nat.add_succ_r. cbn [nsum]. rewrite IH. lia. Qed.
Lemma nsum_const n c : nsum n (fun _ => c) = n * c.
Proof. induction n as [|n IH]; [reflexivity|]. cbn [nsum]. rewrite IH. lia. Qed.
Lemma nsum_swap n m (f : nat -> nat -> nat) : nsum n (fun i => nsum m (f i)) = nsum m (fun j => nsum n (fun i => f i j)).
Proof.
  induction n as [|n IH]; [cbn; rewrite nsum_const; lia|]. cbn [nsum]. rewrite IH. rewrite <- nsum_plus. reflexivity.
Qed.
Lemma nsum_hit n v : nsum n (fun i => if v =? i then 1 else 0) <= 1.
Proof.
  assert (G : nsum n (fun i => if v =? i then 1 else 0) = if v <? n then 1 else 0).
  { induction n as [|n IH]; [reflexivity|]. cbn [nsum]. rewrite IH. destruct (Nat.ltb_spec v n), (Nat.ltb_spec v (S n)), (Nat.eqb_spec v n); lia. }
  rewrite G. destruct (v <? n); lia.
Qed.
Lemma cond_len {X} (p : nat -> bool) (f : nat -> X) n : forall s, length (flat_map (fun i => if p i then [f i] else []) (seq s n)) = nsum n (fun i => if p (s + i) then 1 else 0).
Proof.
  induction n as [|n IH]; intros s; [reflexivity|]. rewrite seq_S, flat_map_app, app_length, IH. cbn [nsum flat_map]. rewrite app_nil_r. destruct (p (s + n)); reflexivity.
Qed.

Lemma nsum_next f k n : k < n -> nsum k f + f k <= nsum n f.
Proof. intros H. exact (nsum_mono f (S k) n H). Qed.
Section C.
Variable d : qdims.
Variable q : rqp.
Notation N := (qN d). Notation nx := (qnx d). Notation nu := (qnu d). Notation nb := (qnb d). Notation ng := (qng d). Notation ns := (qns d).
Notation rev := (q_rev q).
Notation nv := (nv d). Notation nrow := (nrow d).
Notation rdyn := (rdyn d). Notation rcon := (rcon d). Notation rrep := (rrep d q). Notation rslk := (rslk d). Notation width := (width d).
Hypothesis WS : wf_soft d q.

Lemma packed_mono k i n : i <= n -> packed q k i <= packed q k n.
Proof. intros H. unfold packed. apply nsum_mono. exact H. Qed.
Lemma con_inc k v : k <= N -> inc (base d k) (base d k + nb k + ng k + ns k) (con_rows d q k v).
Proof.
  intros Hk. unfold con_rows. cbv zeta. rewrite repl_flat by (unfold nsb; rewrite !Nat.add_0_r; reflexivity).
  set (ib := bound_of d q k v). pose proof (packed_all d q WS k Hk) as PA. unfold QpsSpec.nrow in PA.
  apply (inc_app _ (base d k + nb k)); [lia|lia| |].
  { destruct (Nat.ltb_spec ib (nb k)); [cbn; lia|exact I]. }
  apply (inc_app _ (base d k + nb k + ng k)); [lia|lia|apply inc_map|].
  pose proof (packed_mono k (nb k) (nb k + ng k) ltac:(lia)) as PM.
  apply (inc_app _ (base d k + nb k + ng k + packed q k (nb k))); [lia|lia| |].
  { destruct (Nat.ltb_spec ib (nb k)) as [L|]; [|exact I]. destruct (soft q k ib) eqn:S; [|exact I]. pose proof (packed_lt q k ib (nb k) L S). cbn [inc]. split; [lia|exact I]. }
  apply (inc_cond (fun i => soft q k (nb k + i)) (fun i => rrep k (nb k + i))).
  - intros i Hi S. unfold OsqpProofs.rrep. pose proof (packed_lt q k (nb k + i) (nb k + ng k) ltac:(lia) S). pose proof (packed_mono k (nb k) (nb k + i) ltac:(lia)). lia.
  - intros i j _ Hij _ S1 S2. unfold OsqpProofs.rrep. pose proof (packed_lt q k (nb k + i) (nb k + j) ltac:(lia) S1). lia.
Qed.
Lemma dyn_inc k : k <= N -> inc (off_dyn d k) (con_start d) (dyn_rows d k).
Proof.
  intros Hk. unfold dyn_rows. destruct (Nat.ltb_spec k N); [|exact I]. apply (inc_weak (off_dyn d k) _ (off_dyn d k + nx (S k))); [lia| |apply inc_map].
  unfold con_start, off_dyn. pose proof (nsum_next (fun k => if k <? N then nx (S k) else 0) k (S N) ltac:(lia)) as G. cbv beta in G. destruct (Nat.ltb_spec k N); [exact G|lia].
Qed.
Lemma base_end k : k <= N -> base d k + nb k + ng k + ns k <= slk_start d.
Proof.
  intros Hk. unfold base, slk_start, off_con. pose proof (nsum_next (fun k => nb k + ng k + ns k) k (S N) ltac:(lia)) as G. cbv beta in G. lia.
Qed.
Lemma crow_inc k t : k <= N -> t < width k -> inc 0 (num_constr d) (crow d q k t).
Proof.
  intros Hk Ht. pose proof (starts_le d) as [S1 S2]. pose proof (base_end k Hk) as BE. pose proof (packed_all d q WS k Hk) as PA. unfold QpsSpec.nrow in PA. unfold OsqpProofs.width in Ht.
  assert (CS : con_start d <= base d k) by (unfold base; lia). assert (OD : off_dyn d k <= con_start d) by (unfold con_start, off_dyn; apply nsum_mono; lia).
  assert (SL : slk_start d + off_slk d k + 2 * ns k <= num_constr d).
  { rewrite num_constr_split. unfold off_slk. pose proof (nsum_next (fun k => 2 * ns k) k (S N) ltac:(lia)) as G. cbv beta in G. lia. }
  unfold crow. destruct (Nat.ltb_spec t (nu k)); [|destruct (Nat.ltb_spec t (nv k)) as [L|L]; [|destruct (Nat.ltb_spec t (nv k + ns k)) as [L2|L2]]].
  - unfold u_rows. apply (inc_app _ (con_start d)); [lia|lia| |].
    + apply (inc_weak (off_dyn d k) _ (con_start d)); [lia|lia|apply dyn_inc; exact Hk].
    + apply (inc_weak (base d k) _ (base d k + nb k + ng k + ns k)); [lia|lia|apply con_inc; exact Hk].
  - unfold x_rows. apply (inc_app _ (off_dyn d k)); [lia|lia| |apply (inc_app _ (con_start d)); [lia|lia| |]].
    + unfold eye_rows. destruct (Nat.ltb_spec 0 k) as [P|P]; [|exact I]. unfold QpsSpec.nv in L.
      assert (G : nx k <= off_dyn d k).
      { unfold off_dyn. destruct k as [|k']; [lia|]. cbn [nsum]. destruct (Nat.ltb_spec k' N); lia. }
      cbn [inc]. split; [lia|exact I].
    + apply dyn_inc; exact Hk.
    + apply (inc_weak (base d k) _ (base d k + nb k + ng k + ns k)); [lia|lia|apply con_inc; exact Hk].
  - unfold sl_rows. unfold QpsSpec.nv in *. apply (inc_app _ (slk_start d)); [lia|lia| |cbn [inc]; split; [lia|exact I]].
    apply (inc_cond (fun ii => (rev k ii =? Z.of_nat (t - (nu k + nx k)))%Z) (fun ii => base d k + ii)); intros; lia.
  - unfold su_rows. rewrite (up_flat d q k _ _ 0). unfold QpsSpec.nv in *. apply (inc_app _ (slk_start d)); [lia|lia| |cbn [inc]; split; [lia|exact I]].
    assert (SF : forall i, (rev k i =? Z.of_nat (t - (nu k + nx k) - ns k))%Z = true -> soft q k i = true) by (intros i E; unfold soft; apply Z.leb_le; apply Z.eqb_eq in E; lia).
    apply (inc_cond (fun i => (rev k i =? Z.of_nat (t - (nu k + nx k) - ns k))%Z) (rrep k)).
    + intros i Hi E. unfold OsqpProofs.rrep. pose proof (packed_lt q k i (nb k + ng k) ltac:(lia) (SF i E)). lia.
    + intros i j _ Hij _ E1 E2. unfold OsqpProofs.rrep. pose proof (packed_lt q k i j ltac:(lia) (SF i E1)). lia.
Qed.

(** number of entries *)
Lemma bounds_count k n : nsum n (fun v => if bound_of d q k v <? nb k then 1 else 0) <= nb k.
Proof.
  apply (Nat.le_trans _ (nsum n (fun v => nsum (nb k) (fun i => if q_idxb q k i =? v then 1 else 0)))).
  - apply nsum_le. intros v _. destruct (Nat.ltb_spec (bound_of d q k v) (nb k)) as [L|]; [|lia].
    destruct (scan_spec q k v (nb k) 0) as (_ & _ & C). specialize (C L). pose proof (nsum_block (fun i => if q_idxb q k i =? v then 1 else 0) (nb k) _ 0 L) as G. cbv beta in G.
    unfold bound_of in G. rewrite C, Nat.eqb_refl in G. lia.
  - rewrite nsum_swap. apply (Nat.le_trans _ (nsum (nb k) (fun _ => 1))); [|rewrite nsum_const; lia]. apply nsum_le. intros i _. apply nsum_hit.
Qed.
Lemma con_count k v : k <= N -> length (con_rows d q k v) <= (if bound_of d q k v <? nb k then 1 else 0) + ng k + ns k.
Proof.
  intros Hk. unfold con_rows. cbv zeta. rewrite repl_flat by (unfold nsb; rewrite !Nat.add_0_r; reflexivity).
  rewrite !app_length, map_length, seq_length. rewrite (cond_len (fun i => soft q k (nb k + i)) (fun i => rrep k (nb k + i))). cbn [Nat.add].
  pose proof (packed_all d q WS k Hk) as PA. unfold QpsSpec.nrow, packed in PA. rewrite nsum_add in PA.
  destruct (Nat.ltb_spec (bound_of d q k v) (nb k)) as [L|L]; [|cbn [length]; lia].
  destruct (soft q k (bound_of d q k v)) eqn:S; [|cbn [length]; lia]. pose proof (packed_lt q k _ (nb k) L S) as G. unfold packed in G. cbn [length]. lia.
Qed.
Lemma slack_count k (f : nat -> nat -> nat) : k <= N ->
  nsum (ns k) (fun j => length (flat_map (fun i => if (rev k i =? Z.of_nat j)%Z then [f j i] else []) (seq 0 (nb k + ng k)))) <= ns k.
Proof.
  intros Hk. rewrite (nsum_ext _ (fun j => nsum (nb k + ng k) (fun i => if (rev k i =? Z.of_nat j)%Z then 1 else 0))).
  2:{ intros j _. rewrite (cond_len (fun i => (rev k i =? Z.of_nat j)%Z) (f j)). reflexivity. }
  rewrite nsum_swap. pose proof (packed_all d q WS k Hk) as PA. unfold QpsSpec.nrow, packed in PA. eapply Nat.le_trans; [|apply Nat.eq_le_incl; exact PA]. apply nsum_le. intros i _.
  destruct (soft q k i) eqn:S.
  - rewrite (nsum_ext _ (fun j => if Z.to_nat (rev k i) =? j then 1 else 0)); [apply nsum_hit|]. intros j _. unfold soft in S. apply Z.leb_le in S.
    destruct (Z.eqb_spec (rev k i) (Z.of_nat j)), (Nat.eqb_spec (Z.to_nat (rev k i)) j); lia.
  - rewrite (nsum_ext _ (fun _ => 0)); [rewrite nsum_const; lia|]. intros j _. unfold soft in S. apply Z.leb_gt in S. destruct (Z.eqb_spec (rev k i) (Z.of_nat j)); lia.
Qed.
Lemma dyn_count k : length (dyn_rows d k) = if k <? N then nx (S k) else 0.
Proof. unfold dyn_rows. destruct (k <? N); [rewrite map_length, seq_length|]; reflexivity. Qed.
Lemma soft_needs_row k : k <= N -> ns k = 0 \/ 1 <= nb k + ng k.
Proof. intros Hk. pose proof (packed_all d q WS k Hk) as PA. unfold QpsSpec.nrow in PA. destruct (nb k + ng k); [left; rewrite <- PA; reflexivity|right; lia]. Qed.
Lemma stage_count k : k <= N -> nsum (width k) (fun t => length (crow d q k t)) <=
  (nb k + ng k * nx k + ng k * nu k + ns k * (nu k + nx k) + (nb k + ng k) * 2 * ns k + 2 * ns k)
  + (if k <? N then nx (S k) * nx k + nx (S k) * nu k else 0) + (if 0 <? k then nx k else 0).
Proof.
  intros Hk. replace (width k) with (nu k + nx k + ns k + ns k) by (unfold OsqpProofs.width; lia). rewrite !nsum_add.
  set (B := fun v => if bound_of d q k v <? nb k then 1 else 0). set (D := if k <? N then nx (S k) else 0).
  assert (H1 : nsum (nu k) (fun t => length (crow d q k t)) <= nsum (nu k) B + nu k * (D + ng k + ns k)).
  { rewrite <- (nsum_const (nu k)), <- nsum_plus. apply nsum_le. intros t Ht. unfold crow. destruct (Nat.ltb_spec t (nu k)); [|lia]. unfold u_rows. rewrite app_length, dyn_count.
    pose proof (con_count k t Hk). fold (B t) in H0. fold D. lia. }
  assert (H2 : nsum (nx k) (fun t => length (crow d q k (nu k + t))) <= nsum (nx k) (fun t => B (nu k + t)) + nx k * ((if 0 <? k then 1 else 0) + D + ng k + ns k)).
  { rewrite <- (nsum_const (nx k)), <- nsum_plus. apply nsum_le. intros t Ht. unfold crow. destruct (Nat.ltb_spec (nu k + t) (nu k)); [lia|]. destruct (Nat.ltb_spec (nu k + t) (nv k)) as [_|C]; [|unfold QpsSpec.nv in C; lia].
    unfold x_rows. rewrite !app_length, dyn_count. replace (nu k + (nu k + t - nu k)) with (nu k + t) by lia. pose proof (con_count k (nu k + t) Hk). fold (B (nu k + t)) in H0. fold D.
    unfold eye_rows. destruct (0 <? k); cbn [length]; lia. }
  pose proof (bounds_count k (nu k + nx k)) as HB. fold B in HB. rewrite nsum_add in HB.
  assert (H3 : nsum (ns k) (fun t => length (crow d q k (nu k + nx k + t))) <= ns k + ns k).
  { pose proof (slack_count k (fun _ i => base d k + i) Hk) as G. apply (Nat.le_trans _ (nsum (ns k) (fun j => length (flat_map (fun i => if (rev k i =? Z.of_nat j)%Z then [base d k + i] else []) (seq 0 (nb k + ng k)))) + nsum (ns k) (fun _ => 1))); [|rewrite nsum_const; lia].
    rewrite <- nsum_plus. apply nsum_le. intros t Ht. unfold crow. destruct (Nat.ltb_spec (nu k + nx k + t) (nu k)); [lia|]. destruct (Nat.ltb_spec (nu k + nx k + t) (nv k)) as [C|_]; [unfold QpsSpec.nv in C; lia|].
    destruct (Nat.ltb_spec (nu k + nx k + t) (nv k + ns k)) as [_|C]; [|unfold QpsSpec.nv in C; lia]. replace (nu k + nx k + t - nv k) with t by (unfold QpsSpec.nv; lia). unfold sl_rows. rewrite app_length. cbn [length]. lia. }
  assert (H4 : nsum (ns k) (fun t => length (crow d q k (nu k + nx k + ns k + t))) <= ns k + ns k).
  { pose proof (slack_count k (fun _ i => rrep k i) Hk) as G. apply (Nat.le_trans _ (nsum (ns k) (fun j => length (flat_map (fun i => if (rev k i =? Z.of_nat j)%Z then [rrep k i] else []) (seq 0 (nb k + ng k)))) + nsum (ns k) (fun _ => 1))); [|rewrite nsum_const; lia].
    rewrite <- nsum_plus. apply nsum_le. intros t Ht. unfold crow. destruct (Nat.ltb_spec (nu k + nx k + ns k + t) (nu k)); [lia|]. destruct (Nat.ltb_spec (nu k + nx k + ns k + t) (nv k)) as [C|_]; [unfold QpsSpec.nv in C; lia|].
    destruct (Nat.ltb_spec (nu k + nx k + ns k + t) (nv k + ns k)) as [C|_]; [unfold QpsSpec.nv in C; lia|]. replace (nu k + nx k + ns k + t - nv k - ns k) with t by (unfold QpsSpec.nv; lia). unfold su_rows. rewrite (up_flat d q k t _ 0), app_length. cbn [length]. lia. }
  assert (H5 : 2 * ns k <= (nb k + ng k) * 2 * ns k) by (destruct (soft_needs_row k Hk); nia).
  assert (H6 : nx k * ((if 0 <? k then 1 else 0) + D + ng k + ns k) = (if 0 <? k then nx k else 0) + nx k * D + nx k * ng k + nx k * ns k) by (destruct (0 <? k); lia).
  assert (H7 : (if k <? N then nx (S k) * nx k + nx (S k) * nu k else 0) = nx k * D + nu k * D) by (unfold D; destruct (k <? N); lia).
  rewrite H7. clearbody B D. nia.
Qed.
Lemma nnz_A : length (concat (con_cols_rows d q)) <= nnzmax_A d.
Proof.
  rewrite concat_len, rows_len. unfold num_vars. rewrite nsum_blocks.
  apply (Nat.le_trans _ (nsum (S N) (fun k => (nb k + ng k * nx k + ng k * nu k + ns k * (nu k + nx k) + (nb k + ng k) * 2 * ns k + 2 * ns k)
    + (if k <? N then nx (S k) * nx k + nx (S k) * nu k else 0) + (if 0 <? k then nx k else 0)))).
  - apply nsum_le. intros k Hk. eapply Nat.le_trans; [|apply stage_count; lia]. apply Nat.eq_le_incl. apply nsum_ext. intros t Ht. f_equal. apply rows_nth; [lia|exact Ht].
  - rewrite !nsum_plus. unfold nnzmax_A.
    assert (E1 : nsum (S N) (fun k => if k <? N then nx (S k) * nx k + nx (S k) * nu k else 0) = nsum N (fun k => nx (S k) * nx k + nx (S k) * nu k)).
    { cbn [nsum]. rewrite Nat.ltb_irrefl, Nat.add_0_r. apply nsum_ext. intros k Hk. destruct (Nat.ltb_spec k N); [reflexivity|lia]. }
    assert (E2 : forall n, nsum (S n) (fun k => if 0 <? k then nx k else 0) = nsum n (fun k => nx (S k))).
    { induction n as [|n IH]; [reflexivity|]. change (nsum (S (S n)) ?f) with (nsum (S n) f + f (S n)). rewrite IH. reflexivity. }
    rewrite E1, E2. rewrite (nsum_plus (fun k => nx (S k) * nx k + nx (S k) * nu k) (fun k => nx (S k)) N). rewrite !nsum_plus. lia.
Qed.
Lemma hrow_inc k t : k <= N -> t < width k -> inc 0 (num_vars d) (hrow d k t) /\ forall r, In r (hrow d k t) -> r <= hess_off d k + t.
Proof.
  intros Hk Ht. pose proof (var_lt d k t Hk Ht) as V. unfold hrow. destruct (Nat.ltb_spec t (nv k)).
  - split; [apply (inc_weak (hess_off d k) _ (hess_off d k + S t)); [lia|lia|apply inc_map]|]. intros r I. apply in_ms in I. destruct I as (i & Hi & ->). lia.
  - split; [cbn [inc]; split; [lia|exact I]|]. intros r [<-|[]]. lia.
Qed.
Lemma nnz_P : length (concat (hess_rows d)) <= nnzmax_P d.
Proof.
  rewrite concat_len, hrows_len. unfold num_vars. rewrite nsum_blocks. apply nsum_le. intros k Hk.
  rewrite (nsum_ext _ (fun t => length (hrow d k t))) by (intros t Ht; f_equal; apply hrows_nth; [lia|exact Ht]).
  replace (nx k + nu k + 2 * ns k) with (nv k + 2 * ns k) by (unfold QpsSpec.nv; lia). rewrite nsum_add.
  assert (A : nsum (nv k) (fun t => length (hrow d k t)) <= nsum (nv k) (fun _ => nv k)).
  { apply nsum_le. intros t Ht. unfold hrow. destruct (Nat.ltb_spec t (nv k)); [|lia]. rewrite map_length, seq_length. lia. }
  assert (B : nsum (2 * ns k) (fun t => length (hrow d k (nv k + t))) = nsum (2 * ns k) (fun _ => 1)).
  { apply nsum_ext. intros t Ht. unfold hrow. destruct (Nat.ltb_spec (nv k + t) (nv k)); [lia|reflexivity]. }
  rewrite B. rewrite nsum_const in A |- *. unfold QpsSpec.nv in *. nia.
Qed.
Lemma cols_upper cols t1 t2 : (forall c r, c < length cols -> In r (nth c cols []) -> r <= c) -> upper_triangular (length cols) (ptrs 0 cols ++ t1) (concat cols ++ t2).
Proof.
  intros H c e Hc He. rewrite !app_nth1 in He by (rewrite ptrs_len; lia). rewrite ptrs_step in He by exact Hc.
  rewrite (ptrs_nth cols 0 c) in He by lia. destruct (concat_nth cols c (e - length (concat (firstn c cols))) 0 Hc ltac:(lia)) as [E L].
  replace (length (concat (firstn c cols)) + (e - length (concat (firstn c cols)))) with e in E, L by lia. rewrite app_nth1 by exact L. rewrite E. apply (H c); [exact Hc|]. apply nth_In. lia.
Qed.
Variable m0 : omem real.
Variable qs : list rqp.
Hypothesis F : first_run m0 = true.
Hypothesis HS : forall q', In q' qs -> same_maps d q q'.
Lemma csc_final : let m := calls d (qs ++ [q]) m0 in
  csc_ok (num_constr d) (num_vars d) (nnzmax_A d) (A_p m) (A_i m) (length (concat (con_cols_vals d q))) /\
  csc_ok (num_vars d) (num_vars d) (nnzmax_P d) (P_p m) (P_i m) (length (concat (hess_vals d q))) /\ upper_triangular (num_vars d) (P_p m) (P_i m) /\
  length (gradient d q) = num_vars d.
Proof.
  destruct (calls_end d q qs m0 F HS) as (_ & [t1 E1] & [t2 E2] & [t3 E3] & [t4 E4]). cbv zeta. rewrite E1, E2, E3, E4.
  assert (LA : length (concat (con_cols_vals d q)) = length (concat (con_cols_rows d q))) by (rewrite !concat_len, rows_len, vals_len; apply nsum_ext; intros c _; symmetry; apply cols_same).
  assert (LP : length (concat (hess_vals d q)) = length (concat (hess_rows d))) by (rewrite !concat_len, hrows_len, hvals_len; apply nsum_ext; intros c _; symmetry; apply hess_same).
  rewrite LA, LP. split; [|split; [|split]].
  - rewrite <- (rows_len d q). apply cols_csc; [|apply nnz_A]. intros c Hc. rewrite rows_len in Hc. destruct (var_find d c Hc) as (k & t & Hk & Ht & ->). rewrite rows_nth by assumption. apply crow_inc; assumption.
  - rewrite <- (hrows_len d) at 2. apply cols_csc; [|apply nnz_P]. intros c Hc. rewrite hrows_len in Hc. destruct (var_find d c Hc) as (k & t & Hk & Ht & ->). rewrite hrows_nth by assumption. apply hrow_inc; assumption.
  - rewrite <- (hrows_len d). apply cols_upper. intros c r Hc. rewrite hrows_len in Hc. destruct (var_find d c Hc) as (k & t & Hk & Ht & ->). rewrite hrows_nth by assumption. apply hrow_inc; assumption.
  - apply grad_len.
Qed.
End C.
