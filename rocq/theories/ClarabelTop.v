(** The Clarabel interface preserves KKT points in both directions when the sign loop stays inside b. *)
From Coq Require Import ZArith List Bool Lia Reals Lra Arith.
From Verif Require Import Arr Arith QpsModel CscModel RSum QpsSpec OsqpModel OsqpSpec CscProofs OsqpProofs OsqpRows OsqpKkt OsqpRun OsqpCsc ClarabelModel ClarabelSpec ClarabelProofs ClarabelArena.
Import ListNotations.
Open Scope R_scope.

Section T.
Variable d : qdims.
Variable q : rqp.
Notation N := (qN d). Notation nx := (qnx d). Notation nu := (qnu d). Notation nb := (qnb d). Notation ng := (qng d). Notation ns := (qns d).
Notation rev := (q_rev q).
Notation nv := (nv d). Notation nrow := (nrow d). Notation nall := (nall d).
Notation rdyn := (rdyn d). Notation rall := (rall d). Notation width := (width d).
Hypothesis WB : wf_bounds d q.
Hypothesis WR : wf_rev d q.
Hypothesis UM : unmasked d q.
Variables P M : nat -> nat -> R.
Variables g b : nat -> R.
Hypothesis HP : forall r c, (c < num_vars d)%nat -> P r c = ldot (nth c (hess_rows d) []) (nth c (hess_vals d q) []) (unit_at r).
Hypothesis HM : forall r c, (c < num_vars d)%nat -> M r c = ldot (nth c (c_rows d q) []) (nth c (c_vals d q) []) (unit_at r).
Hypothesis Hg : forall k t, (k <= N)%nat -> (t < width k)%nat -> g (hess_off d k + t)%nat = q_rqz q k t.
Hypothesis Hd : forall k i, (k < N)%nat -> (i < nx (S k))%nat -> b (rdyn k i) = - q_b q k i.
Hypothesis Hi : forall k m, (k <= N)%nat -> (m < nall k)%nat -> b (rall k m) = - q_d q k m.
Variables z y : nat -> R.
Notation stg := (stg d z).
Variable s : rsol.
Hypothesis Ax : forall k t, (k <= N)%nat -> (t < width k)%nat -> s_ux s k t = stg k t.
Hypothesis Ap : forall k i, (k < N)%nat -> (i < nx (S k))%nat -> s_pi s k i = y (rdyn k i).
Hypothesis Al : forall k m, (k <= N)%nat -> (m < nall k)%nat -> s_lam s k m = y (rall k m).

Lemma nv_w k t : (t < nv k)%nat -> (t < width k)%nat.
Proof. unfold QpsSpec.nv, OsqpProofs.width. lia. Qed.
Lemma sl_w k e : (e < 2 * ns k)%nat -> (nv k + e < width k)%nat.
Proof. unfold QpsSpec.nv, OsqpProofs.width. lia. Qed.
Lemma lin_eq k i : (k <= N)%nat -> lin d q (s_ux s) k i = lin d q stg k i.
Proof. intros Hk. unfold lin. apply sum_ext. intros t Ht. rewrite Ax by (try exact Hk; apply nv_w; exact Ht). reflexivity. Qed.
Lemma slack_eq k i (up : bool) : (k <= N)%nat -> (i < nrow k)%nat -> slack d q (s_ux s) k i up = slack d q stg k i up.
Proof.
  intros Hk Hin. unfold slack. destruct (WR k i Hk Hin) as [->|E]; [reflexivity|].
  replace (0 <=? rev k i)%Z with true by (symmetry; apply Z.leb_le; lia). apply Ax; [exact Hk|]. rewrite <- Nat.add_assoc. apply sl_w. destruct up; lia.
Qed.
Lemma ineq_eq k m : (k <= N)%nat -> (m < nall k)%nat -> ineq d q (s_ux s) k m = ineq d q stg k m.
Proof.
  intros Hk Hm. unfold ineq. destruct (Nat.ltb_spec m (nrow k)); [rewrite lin_eq, slack_eq by (try exact Hk; lia); reflexivity|].
  destruct (Nat.ltb_spec m (2 * nrow k)); [rewrite lin_eq, slack_eq by (try exact Hk; lia); reflexivity|].
  rewrite Ax; [reflexivity|exact Hk|]. apply sl_w. unfold QpsSpec.nall in Hm. unfold QpsSpec.nrow in *. lia.
Qed.
Lemma dyn_eq k i : (k < N)%nat -> (i < nx (S k))%nat -> dyn d q (s_ux s) k i = dyn d q stg k i.
Proof.
  intros Hk Hin. unfold dyn. rewrite (Ax (S k)); [|lia|unfold OsqpProofs.width; lia]. apply (f_equal2 Rminus); [|reflexivity]. apply (f_equal2 Rplus); [|reflexivity].
  apply sum_ext. intros t Ht. rewrite Ax; [reflexivity|lia|apply nv_w; exact Ht].
Qed.
Lemma stat_eq k r : (k <= N)%nat -> (r < nv k)%nat ->
  sum (num_vars d) (fun e => (if (hess_off d k + r <=? e)%nat then P (hess_off d k + r) e else P e (hess_off d k + r)) * z e) + g (hess_off d k + r)%nat
    + sum (c_constr d) (fun r0 => M r0 (hess_off d k + r) * y r0) = stat d q s k r.
Proof.
  intros Hk Hr. pose proof (nv_w k r Hr) as Hw. rewrite (P_mul d q P HP z k r Hk Hw), Hg, (cM_stat d q WB M HM k r y Hk Hw) by assumption. unfold ccolform, stat.
  destruct (Nat.ltb_spec r (nv k)); [|lia].
  rewrite (sum_ext (nv k) (fun c => sym q k r c * s_ux s k c) (fun c => sym q k r c * stg k c)) by (intros c Hc; rewrite Ax by (try exact Hk; apply nv_w; exact Hc); reflexivity).
  assert (E1 : (if (k <? N)%nat then sum (nx (S k)) (fun c => q_BA q k r c * s_pi s k c) else 0) = if (k <? N)%nat then sum (nx (S k)) (fun i => q_BA q k r i * y (rdyn k i)) else 0).
  { destruct (Nat.ltb_spec k N); [|reflexivity]. apply sum_ext. intros c Hc. rewrite Ap by assumption. reflexivity. }
  rewrite E1.
  assert (E2 : (if (0 <? k)%nat && (nu k <=? r)%nat then - y (rdyn (k - 1) (r - nu k)) else 0) = - (if (0 <? k)%nat && (nu k <=? r)%nat then s_pi s (k - 1)%nat (r - nu k)%nat else 0)).
  { destruct (Nat.ltb_spec 0 k); [|cbn [andb]; lra]. destruct (Nat.leb_spec (nu k) r); cbn [andb]; [|lra]. rewrite Ap; [reflexivity|lia|]. unfold QpsSpec.nv in Hr. replace (S (k - 1)) with k by lia. lia. }
  rewrite E2.
  assert (E3 : sum (nrow k) (fun i => coef d q k i r * (s_lam s k i - s_lam s k (nrow k + i)%nat)) =
     sum (nrow k) (fun i => coef d q k i r * y (rall k i)) - sum (nrow k) (fun i => coef d q k i r * y (rall k (nrow k + i)%nat))).
  { rewrite <- sum_minus. apply sum_ext. intros i Hin. rewrite !Al by (try exact Hk; unfold QpsSpec.nall; unfold QpsSpec.nrow in *; lia). lra. }
  rewrite E3. lra.
Qed.
Lemma stat_slack_eq k j (up : bool) : (k <= N)%nat -> (j < ns k)%nat -> let e := ((if up then ns k else 0) + j)%nat in
  sum (num_vars d) (fun c => (if (hess_off d k + (nv k + e) <=? c)%nat then P (hess_off d k + (nv k + e)) c else P c (hess_off d k + (nv k + e))) * z c) + g (hess_off d k + (nv k + e))%nat
    + sum (c_constr d) (fun r0 => M r0 (hess_off d k + (nv k + e)) * y r0) = stat_slack d q s k j up.
Proof.
  intros Hk Hj e. assert (He : (e < 2 * ns k)%nat) by (unfold e; destruct up; lia). pose proof (sl_w k e He) as Hw.
  rewrite (P_mul d q P HP z k _ Hk Hw), Hg, (cM_stat d q WB M HM k _ y Hk Hw) by assumption. unfold ccolform, stat_slack. cbv zeta. fold e.
  destruct (Nat.ltb_spec (nv k + e) (nv k)); [lia|]. replace (nv k + e - nv k)%nat with e by lia.
  rewrite (Ax k (nv k + e)%nat Hk Hw). rewrite (Al k (2 * nrow k + e)%nat) by (try exact Hk; unfold QpsSpec.nall, QpsSpec.nrow; lia).
  destruct up; cbv iota in *.
  - destruct (Nat.ltb_spec (nv k + e) (nv k + ns k)); [unfold e in *; lia|]. replace (e - ns k)%nat with j by (unfold e; lia).
    rewrite (sum_ext (nrow k) (fun l => if (rev k l =? Z.of_nat j)%Z then s_lam s k (nrow k + l)%nat else 0) (fun i => if (rev k i =? Z.of_nat j)%Z then y (rall k (nrow k + i)%nat) else 0)); [lra|].
    intros i Hin. rewrite Al by (try exact Hk; unfold QpsSpec.nall; unfold QpsSpec.nrow in *; lia). reflexivity.
  - destruct (Nat.ltb_spec (nv k + e) (nv k + ns k)); [|unfold e in *; lia]. replace e with j by (unfold e; lia).
    rewrite (sum_ext (nrow k) (fun l => if (rev k l =? Z.of_nat j)%Z then s_lam s k (0 + l)%nat else 0) (fun i => if (rev k i =? Z.of_nat j)%Z then y (rall k i) else 0)); [lra|].
    intros i Hin. cbn [Nat.add]. rewrite Al by (try exact Hk; unfold QpsSpec.nall; unfold QpsSpec.nrow in *; lia). reflexivity.
Qed.
Lemma kkt_same : conic_kkt (num_vars d) (con_start d) (c_constr d) P M g b z y <-> kkt d q s.
Proof.
  split.
  - intros [K1 K2 K3]. split; [|split; [|split]].
    + intros k r Hk Hr. rewrite <- (stat_eq k r Hk Hr). apply K1. apply var_lt; [exact Hk|apply nv_w; exact Hr].
    + intros k j up Hk Hj. rewrite <- (stat_slack_eq k j up Hk Hj). apply K1. apply var_lt; [exact Hk|apply sl_w; destruct up; lia].
    + intros k i Hk Hin. rewrite dyn_eq by assumption. pose proof (K2 (rdyn k i) (dyn_lt d k i Hk Hin)) as G. rewrite (c_row_dyn d q WB WR M HM z k i Hk Hin), Hd in G by assumption. lra.
    + intros k m Hk Hm. split; [intros _|intros E; exfalso; exact (UM k m Hk Hm E)]. rewrite ineq_eq, Al by assumption.
      pose proof (K3 (rall k m) (rall_range d k m Hk Hm)) as G. cbv zeta in G. rewrite (c_row_in d q WB WR M HM z k m Hk Hm), Hi in G by assumption. unfold V in G.
      replace (- q_d q k m - - (ineq d q stg k m + q_d q k m)) with (ineq d q stg k m) in G by lra. exact G.
  - intros (K1 & K2 & K3 & K4). constructor.
    + intros c Hc. destruct (var_find d c Hc) as (k & t & Hk & Ht & ->). destruct (lt_dec t (nv k)) as [L|L]; [rewrite stat_eq by assumption; apply K1; assumption|].
      destruct (lt_dec t (nv k + ns k)) as [L2|L2].
      * assert (Hj : (t - nv k < ns k)%nat) by lia. pose proof (stat_slack_eq k (t - nv k) false Hk Hj) as G. cbv zeta in G. cbv iota in G. cbn [Nat.add] in G. replace (nv k + (t - nv k))%nat with t in G by lia. rewrite G. apply K2; assumption.
      * assert (Hj : (t - nv k - ns k < ns k)%nat) by (unfold OsqpProofs.width, QpsSpec.nv in *; lia). pose proof (stat_slack_eq k (t - nv k - ns k) true Hk Hj) as G. cbv zeta in G. cbv iota in G.
        replace (nv k + (ns k + (t - nv k - ns k)))%nat with t in G by lia. rewrite G. apply K2; assumption.
    + intros r Hr. rewrite con_start_sum in Hr. destruct (nsum_find _ _ _ Hr) as (k & i & Hk & Hin & ->). cbv beta in Hin. rewrite <- off_nsum by lia. change (off_dyn d k + i)%nat with (rdyn k i).
      rewrite (c_row_dyn d q WB WR M HM z k i Hk Hin), Hd by assumption. rewrite <- dyn_eq by assumption. rewrite K3 by assumption. lra.
    + intros r Hr. destruct (row_split d r Hr) as (k & m & Hk & Hm & ->). cbv zeta. rewrite (c_row_in d q WB WR M HM z k m Hk Hm), Hi by assumption. unfold V.
      replace (- q_d q k m - - (ineq d q stg k m + q_d q k m)) with (ineq d q stg k m) by lra. destruct (K4 k m Hk Hm) as [G _]. specialize (G (UM k m Hk Hm)). rewrite ineq_eq, Al in G by assumption. exact G.
Qed.
End T.

Section S.
Variable d : qdims.
Variables q q' : rqp.
Hypothesis SM : same_maps d q q'.
Lemma c_con_same k v : (k <= qN d)%nat -> c_con_rows d q' k v = c_con_rows d q k v.
Proof. intros Hk. unfold c_con_rows. cbv zeta. rewrite (bound_same d q q' SM k Hk). reflexivity. Qed.
Lemma c_rows_same : c_rows d q' = c_rows d q.
Proof.
  unfold c_rows, stages. apply flat_seq_ext. intros k Hk. assert (Hk' : (k <= qN d)%nat) by lia.
  apply f_equal2; [|apply f_equal2; [|apply f_equal2]]; apply map_seq_ext; intros j Hj.
  - unfold c_u_rows. rewrite c_con_same by exact Hk'. reflexivity.
  - unfold c_x_rows. rewrite c_con_same by exact Hk'. reflexivity.
  - unfold c_sl_rows. f_equal. apply flat_seq_ext. intros i Hi. rewrite (proj2 (SM k Hk') i) by exact Hi. reflexivity.
  - unfold c_su_rows. f_equal. apply flat_seq_ext. intros i Hi. rewrite (proj2 (SM k Hk') i) by exact Hi. reflexivity.
Qed.
End S.

(** histories *)
Definition c_laid (d : qdims) (cr : list (list nat)) (m : cmem real) : Prop :=
  (exists t, c_Pp m = ptrs 0 (hess_rows d) ++ t) /\ (exists t, c_Pi m = concat (hess_rows d) ++ t) /\
  (exists t, c_Ap m = ptrs 0 cr ++ t) /\ (exists t, c_Ai m = concat cr ++ t).
Definition ready (d : qdims) (cr : list (list nat)) (st : bool * cmem real) : Prop :=
  fst st = true \/ (fst st = false /\ c_built (snd st) = true /\ c_laid d cr (snd st)).
Lemma one_call d q st : ready d (c_rows d q) st ->
  exists m, clarabel d q (fst st) (snd st) = Done (false, m) /\ c_built m = true /\ c_laid d (c_rows d q) m /\ c_q m = c_q (c_update d q (fst st) (snd st)) /\ arena m = arena (c_update d q (fst st) (snd st)).
Proof.
  intros [E|(E & B & L)]; unfold clarabel; cbv zeta; rewrite E.
  - eexists. split; [reflexivity|]. cbn [c_built c_q arena]. split; [reflexivity|]. split; [|split; reflexivity].
    unfold c_laid, c_update. cbn [c_Pp c_Pi c_Ap c_Ai]. unfold over. repeat split; eexists; reflexivity.
  - change (c_built (c_update d q false (snd st))) with (c_built (snd st)). rewrite B. eexists. split; [reflexivity|]. split; [exact B|]. split; [exact L|]. split; reflexivity.
Qed.
Lemma calls_ready d q qs : (forall q', In q' qs -> same_maps d q q') -> forall st, ready d (c_rows d q) st ->
  exists st', c_calls d qs st = Done st' /\ ready d (c_rows d q) st'.
Proof.
  induction qs as [|q' qs IH]; intros HS st H; [exists st; split; [reflexivity|exact H]|]. cbn [c_calls].
  assert (E : c_rows d q' = c_rows d q) by (apply c_rows_same; apply HS; left; reflexivity).
  destruct (one_call d q' st) as (m & Em & B & L & _); [rewrite E; exact H|]. rewrite Em. apply IH; [intros q2 I; apply HS; right; exact I|]. right. rewrite E in L. split; [reflexivity|split; assumption].
Qed.
Lemma calls_app d qs q : forall st, c_calls d (qs ++ [q]) st = match c_calls d qs st with Done st' => clarabel d q (fst st') (snd st') | Exit => Exit | UB => UB end.
Proof.
  induction qs as [|q' qs IH]; intros st; cbn [app c_calls]; [destruct (clarabel d q (fst st) (snd st)); reflexivity|]. destruct (clarabel d q' (fst st) (snd st)); [apply IH|reflexivity|reflexivity].
Qed.
Lemma c_history d q qs m0 : (forall q', In q' qs -> same_maps d q q') -> exists m st, c_calls d (qs ++ [q]) (true, m0) = Done (false, m) /\
  c_laid d (c_rows d q) m /\ c_q m = c_q (c_update d q (fst st) (snd st)) /\ arena m = arena (c_update d q (fst st) (snd st)).
Proof.
  intros HS. destruct (calls_ready d q qs HS (true, m0) (or_introl eq_refl)) as (st & E & RD). destruct (one_call d q st RD) as (m & Em & B & L & Q & A).
  exists m, st. rewrite calls_app, E. split; [exact Em|split; [exact L|split; assumption]].
Qed.

Section R.
Variable d : qdims.
Variable q : rqp.
Notation N := (qN d). Notation nx := (qnx d). Notation nu := (qnu d). Notation nb := (qnb d). Notation ng := (qng d). Notation ns := (qns d).
Notation nrow := (nrow d). Notation nall := (nall d).
Notation rdyn := (rdyn d). Notation rall := (rall d). Notation width := (width d).
Variable st : bool * cmem real.
Variable m : cmem real.
Hypothesis L : c_laid d (c_rows d q) m.
Hypothesis Q : c_q m = c_q (c_update d q (fst st) (snd st)).
Hypothesis AA : arena m = arena (c_update d q (fst st) (snd st)).
Lemma P_all i : (i < c_nnzmax_P d)%nat -> P_nzval d m i = Nat.iter (flips d i) Ropp (nth i (concat (hess_vals d q)) 0).
Proof. intros Hi. unfold P_nzval. rewrite AA. apply (P_flipped d q (fst st) (snd st)). rewrite hess_vals_exact. exact Hi. Qed.
Lemma A_all i : (i < length (concat (c_vals d q)))%nat -> A_nzval d m i = nth i (concat (c_vals d q)) 0.
Proof. intros Hi. unfold A_nzval. rewrite AA. apply (A_kept d q (fst st) (snd st)). exact Hi. Qed.
Lemma m_A r c : (c < num_vars d)%nat -> entry (c_Ap m) (c_Ai m) (A_nzval d m) r c = ldot (nth c (c_rows d q) []) (nth c (c_vals d q) []) (unit_at r).
Proof.
  intros Hc. destruct L as (_ & _ & [t1 E1] & [t2 E2]). rewrite E1, E2. apply entry_col; [apply c_cols_same|rewrite c_rows_len, c_vals_len; reflexivity|rewrite c_rows_len; exact Hc|apply A_all].
Qed.
Lemma m_P r c : roomy d -> (c < num_vars d)%nat -> entry (c_Pp m) (c_Pi m) (P_nzval d m) r c = ldot (nth c (hess_rows d) []) (nth c (hess_vals d q) []) (unit_at r).
Proof.
  intros RO Hc. destruct L as ([t1 E1] & [t2 E2] & _). rewrite E1, E2. apply entry_col; [apply hess_same|rewrite hrows_len, hvals_len; reflexivity|rewrite hrows_len; exact Hc|].
  intros e He. rewrite hess_vals_exact in He. rewrite P_all by exact He. rewrite roomy_flips by exact RO. reflexivity.
Qed.
Lemma m_g k t : (k <= N)%nat -> (t < width k)%nat -> nth (hess_off d k + t) (c_q m) 0 = q_rqz q k t.
Proof.
  intros Hk Ht. rewrite Q. unfold c_update. cbn [c_q]. unfold over. rewrite app_nth1 by (rewrite grad_len; apply var_lt; assumption). apply grad_nth; assumption.
Qed.
Lemma m_d k i : (k < N)%nat -> (i < nx (S k))%nat -> arena m (rdyn k i) = - q_b q k i.
Proof. intros Hk Hi. rewrite AA. unfold c_update. cbn [arena]. apply arena_dyn; assumption. Qed.
Lemma m_i k j : (k <= N)%nat -> (j < nall k)%nat -> arena m (rall k j) = - q_d q k j.
Proof. intros Hk Hj. rewrite AA. unfold c_update. cbn [arena]. apply arena_in; assumption. Qed.
Variables x y : nat -> R.
Variable out : rsol.
Lemma f_x k t : (k <= N)%nat -> (t < width k)%nat -> s_ux (c_fill d x y out) k t = stg d x k t.
Proof.
  intros Hk Ht. unfold c_fill. cbn [s_ux]. destruct (Nat.leb_spec k N); [|lia]. unfold vset. destruct (Nat.ltb_spec t (nx k + nu k + 2 * ns k)) as [_|C]; [reflexivity|]. exfalso. unfold OsqpProofs.width in Ht. lia.
Qed.
Lemma f_pi k i : (k < N)%nat -> (i < nx (S k))%nat -> s_pi (c_fill d x y out) k i = y (rdyn k i).
Proof. intros Hk Hi. unfold c_fill. cbn [s_pi]. destruct (Nat.ltb_spec k N); [|lia]. unfold vset. destruct (Nat.ltb_spec i (nx (S k))); [reflexivity|lia]. Qed.
Lemma f_l k j : (k <= N)%nat -> (j < nall k)%nat -> s_lam (c_fill d x y out) k j = y (rall k j).
Proof.
  intros Hk Hj. unfold c_fill. cbn [s_lam]. destruct (Nat.leb_spec k N); [|lia]. unfold unpack, vset, ClarabelProofs.rall. unfold QpsSpec.nall in Hj.
  assert (E : (2 * nrow k = 2 * nb k + 2 * ng k)%nat) by (unfold QpsSpec.nrow; lia). rewrite E.
  destruct (Nat.ltb_spec j (2 * nb k + 2 * ng k)), (Nat.leb_spec (2 * nb k + 2 * ng k) j); try lia; cbn [andb]; [reflexivity|].
  destruct (Nat.ltb_spec j (2 * nb k + 2 * ng k + 2 * ns k)); [reflexivity|lia].
Qed.
Lemma run_iff : wf_bounds d q -> wf_rev d q -> roomy d -> c_mem_kkt d m x y <-> kkt d (all_rows q) (c_fill d x y out).
Proof.
  intros WB WR RO. unfold c_mem_kkt.
  apply (kkt_same d (all_rows q) WB WR ltac:(intros ? ? _ _; cbn; lra) _ _ _ _ (fun r c => m_P r c RO) m_A m_g m_d m_i x y (c_fill d x y out) f_x f_pi f_l).
Qed.
Lemma run_any s : wf_bounds d q -> wf_rev d q -> roomy d ->
  (forall k t, (k <= N)%nat -> (t < width k)%nat -> s_ux s k t = stg d x k t) -> (forall k i, (k < N)%nat -> (i < nx (S k))%nat -> s_pi s k i = y (rdyn k i)) ->
  (forall k j, (k <= N)%nat -> (j < nall k)%nat -> s_lam s k j = y (rall k j)) -> kkt d (all_rows q) s -> c_mem_kkt d m x y.
Proof.
  intros WB WR RO Ax Ap Al K. unfold c_mem_kkt.
  apply (kkt_same d (all_rows q) WB WR ltac:(intros ? ? _ _; cbn; lra) _ _ _ _ (fun r c => m_P r c RO) m_A m_g m_d m_i x y s Ax Ap Al). exact K.
Qed.
End R.

(** the unknowns of the conic QP that stand for a given solution *)
Section B.
Variable d : qdims.
Notation N := (qN d). Notation nx := (qnx d). Notation width := (width d). Notation nall := (nall d). Notation rdyn := (rdyn d). Notation rall := (rall d).
Definition c_zlist (s : rsol) : list (nat * R) := stages d (fun k => map (fun t => (hess_off d k + t, s_ux s k t)%nat) (seq 0 (width k))).
Definition c_ylist (s : rsol) : list (nat * R) :=
  stages_dyn d (fun k => map (fun i => (rdyn k i, s_pi s k i)) (seq 0 (nx (S k)))) ++ stages d (fun k => map (fun j => (rall k j, s_lam s k j)) (seq 0 (nall k))).
Lemma y_dyn s k i : (k < N)%nat -> (i < nx (S k))%nat -> store (fun _ => 0) (c_ylist s) (rdyn k i) = s_pi s k i.
Proof.
  intros Hk Hi. apply store_in.
  - apply in_app_iff. left. apply in_stages_dyn. exists k. split; [exact Hk|]. apply in_ms. exists i. split; [exact Hi|reflexivity].
  - intros v I. apply in_app_iff in I. destruct I as [I|I].
    + apply in_stages_dyn in I. destruct I as (k' & Hk' & I). apply in_ms in I. destruct I as (i' & Hi' & E). injection E as E ->. apply dyn_inj in E; try assumption. destruct E as [-> ->]. reflexivity.
    + apply in_stages in I. destruct I as (k' & Hk' & I). apply in_ms in I. destruct I as (i' & Hi' & E). injection E as E ->. pose proof (dyn_lt d k i Hk Hi). pose proof (rall_range d k' i' Hk' Hi'). lia.
Qed.
Lemma y_in s k j : (k <= N)%nat -> (j < nall k)%nat -> store (fun _ => 0) (c_ylist s) (rall k j) = s_lam s k j.
Proof.
  intros Hk Hj. apply store_in.
  - apply in_app_iff. right. apply in_stages. exists k. split; [exact Hk|]. apply in_ms. exists j. split; [exact Hj|reflexivity].
  - intros v I. apply in_app_iff in I. destruct I as [I|I].
    + apply in_stages_dyn in I. destruct I as (k' & Hk' & I). apply in_ms in I. destruct I as (i' & Hi' & E). injection E as E ->. pose proof (dyn_lt d k' i' Hk' Hi'). pose proof (rall_range d k j Hk Hj). lia.
    + apply in_stages in I. destruct I as (k' & Hk' & I). apply in_ms in I. destruct I as (i' & Hi' & E). injection E as E ->. apply rall_inj in E; try assumption. destruct E as [-> ->]. reflexivity.
Qed.
Lemma fill_back s out : let f := c_fill d (store (fun _ => 0) (c_zlist s)) (store (fun _ => 0) (c_ylist s)) out in
  (forall k t, (k <= N)%nat -> (t < width k)%nat -> s_ux f k t = s_ux s k t) /\ (forall k i, (k < N)%nat -> (i < nx (S k))%nat -> s_pi f k i = s_pi s k i) /\
  (forall k j, (k <= N)%nat -> (j < nall k)%nat -> s_lam f k j = s_lam s k j).
Proof.
  cbv zeta. split; [|split].
  - intros k t Hk Ht. rewrite f_x by assumption. apply z_at; assumption.
  - intros k i Hk Hi. rewrite f_pi by assumption. apply y_dyn; assumption.
  - intros k j Hk Hj. rewrite f_l by assumption. apply y_in; assumption.
Qed.
End B.

Section F.
Variable d : qdims.
Variable q : rqp.
Variable qs : list rqp.
Variable m0 : cmem real.
Hypothesis HS : forall q', In q' qs -> same_maps d q q'.
Notation N := (qN d). Notation nx := (qnx d).
Lemma clarabel_iff : wf_bounds d q -> wf_rev d q -> roomy d -> exists m, c_calls d (qs ++ [q]) (true, m0) = Done (false, m) /\
  forall x y out, c_mem_kkt d m x y <-> kkt d (all_rows q) (c_fill d x y out).
Proof.
  intros WB WR RO. destruct (c_history d q qs m0 HS) as (m & st & E & L & Q & A). exists m. split; [exact E|]. intros x y out. apply (run_iff d q st m L Q A x y out WB WR RO).
Qed.
Lemma clarabel_onto : wf_bounds d q -> wf_rev d q -> roomy d -> exists m, c_calls d (qs ++ [q]) (true, m0) = Done (false, m) /\
  forall s, kkt d (all_rows q) s -> exists x y, c_mem_kkt d m x y /\ forall out,
    (forall k t, (k <= N)%nat -> (t < nv d k + 2 * qns d k)%nat -> s_ux (c_fill d x y out) k t = s_ux s k t) /\
    (forall k i, (k < N)%nat -> (i < nx (S k))%nat -> s_pi (c_fill d x y out) k i = s_pi s k i) /\
    (forall k j, (k <= N)%nat -> (j < nall d k)%nat -> s_lam (c_fill d x y out) k j = s_lam s k j).
Proof.
  intros WB WR RO. destruct (c_history d q qs m0 HS) as (m & st & E & L & Q & A). exists m. split; [exact E|]. intros s K.
  exists (store (fun _ => 0) (c_zlist d s)), (store (fun _ => 0) (c_ylist d s)). split.
  - apply (run_any d q st m L Q A _ _ s WB WR RO); [| | |exact K].
    + intros k t Hk Ht. symmetry. apply z_at; assumption.
    + intros k i Hk Hi. symmetry. apply y_dyn; assumption.
    + intros k j Hk Hj. symmetry. apply y_in; assumption.
  - intros out. destruct (fill_back d s out) as (F1 & F2 & F3). split; [|split; assumption]. intros k t Hk Ht. apply F1; [exact Hk|]. unfold OsqpProofs.width. unfold nv in Ht. lia.
Qed.
Lemma clarabel_values : exists m, c_calls d (qs ++ [q]) (true, m0) = Done (false, m) /\
  (forall i, (i < c_nnzmax_P d)%nat -> P_nzval d m i = Nat.iter (flips d i) Ropp (nth i (concat (hess_vals d q)) 0)) /\
  (forall i, (i < length (concat (c_vals d q)))%nat -> A_nzval d m i = nth i (concat (c_vals d q)) 0) /\
  (forall k i, (k < N)%nat -> (i < nx (S k))%nat -> arena m (off_dyn d k + i)%nat = - q_b q k i) /\
  (forall k j, (k <= N)%nat -> (j < 2 * nrow d k)%nat -> arena m (c_base d k + j)%nat = - q_d q k j) /\
  (forall k e, (k <= N)%nat -> (e < 2 * qns d k)%nat -> arena m (c_slk d + off_slk d k + e)%nat = - q_d q k (2 * nrow d k + e)%nat).
Proof.
  destruct (c_history d q qs m0 HS) as (m & st & E & L & Q & A). exists m. split; [exact E|]. split; [|split; [|split; [|split]]].
  - apply (P_all d q st m A).
  - apply (A_all d q st m A).
  - intros k i Hk Hi. apply (m_d d q st m A k i Hk Hi).
  - intros k j Hk Hj. rewrite <- (m_i d q st m A k j Hk) by (unfold nall; unfold nrow in Hj; lia). unfold rall. destruct (Nat.ltb_spec j (2 * nrow d k)); [reflexivity|lia].
  - intros k e Hk He. rewrite <- (m_i d q st m A k (2 * nrow d k + e)%nat Hk) by (unfold nall, nrow; lia). rewrite rall_slk. reflexivity.
Qed.
End F.
