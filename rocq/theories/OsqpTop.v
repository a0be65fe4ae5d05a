(** The OSQP interface preserves KKT points in both directions. *)
From Coq Require Import ZArith List Bool Lia Reals Lra Arith.
From Verif Require Import Arith QpsModel CscModel RSum QpsSpec OsqpModel OsqpSpec CscProofs OsqpProofs OsqpRows OsqpKkt.
Import ListNotations.
Open Scope R_scope.

Lemma ex_step (PR : nat -> Prop) ii f : (exists i, (ii <= i < ii + S f)%nat /\ PR i) <-> PR ii \/ (exists i, (S ii <= i < S ii + f)%nat /\ PR i).
Proof.
  split.
  - intros (i & Hi & G). destruct (Nat.eq_dec i ii) as [->|Ne]; [left; exact G|right; exists i; split; [lia|exact G]].
  - intros [G|(i & Hi & G)]; [exists ii; split; [lia|exact G]|exists i; split; [lia|exact G]].
Qed.
Section T.
Variable d : qdims.
Variable q : rqp.
Notation N := (qN d). Notation nx := (qnx d). Notation nu := (qnu d). Notation nb := (qnb d). Notation ng := (qng d). Notation ns := (qns d).
Notation rev := (q_rev q).
Notation nv := (nv d). Notation nrow := (nrow d).
Notation rdyn := (rdyn d). Notation rcon := (rcon d). Notation rrep := (rrep d q). Notation rslk := (rslk d). Notation width := (width d).
Hypothesis WB : wf_bounds d q.
Hypothesis WS : wf_soft d q.
Hypothesis UM : unmasked d q.

Section Lam.
Variable y : nat -> R.
Lemma in_lam k f j v : (k <= N)%nat -> forall ii, (ii + f <= nrow k)%nat -> In (j, v) (lam_stores d q y k ii (packed q k ii) f) <->
  exists i, (ii <= i < ii + f)%nat /\ ((soft q k i = true /\ ((j = i /\ v = - y (rcon k i)) \/ (j = nrow k + i /\ v = y (rrep k i))%nat)) \/
    (soft q k i = false /\ ((y (rcon k i) <= 0 /\ j = i /\ v = - y (rcon k i)) \/ (0 < y (rcon k i) /\ j = (nrow k + i)%nat /\ v = y (rcon k i))))).
Proof.
  intros Hk. induction f as [|f IH]; intros ii Hf; [cbn; split; [contradiction|intros (i & ? & _); lia]|].
  cbn [lam_stores]. rewrite (soft_rev d q WS) by (try exact Hk; lia).
  rewrite ex_step. rewrite <- (IH (S ii)) by lia. rewrite packed_S.
  fold (rcon k ii). destruct (soft q k ii) eqn:S; cbn [negb In].
  - rewrite Nat.add_1_r. fold (rrep k ii). split.
    + intros [E|[E|I]]; [left; left; split; [reflexivity|left]; injection E as <- <-; split; reflexivity
        |left; left; split; [reflexivity|right]; injection E as <- <-; split; reflexivity|right; exact I].
    + intros [[[_ [[-> ->]|[-> ->]]]|[C _]]|I]; [left; reflexivity|right; left; reflexivity|discriminate|right; right; exact I].
  - rewrite Nat.add_0_r. change (@nleb real) with Rleb. change (@n0 real) with 0. split.
    + intros [E|I]; [left; right; split; [reflexivity|]|right; exact I]. revert E. destruct (Rleb_spec (y (rcon k ii)) 0) as [L|L]; intros E; injection E as <- <-; [left|right]; repeat split; lra.
    + intros [[[C _]|[_ [(L & -> & ->)|(L & -> & ->)]]]|I]; [discriminate| | |right; exact I];
        left; destruct (Rleb_spec (y (rcon k ii)) 0); try lra; reflexivity.
Qed.
Variable old : nat -> R.
Lemma lam_mid k j : (j < 2 * nrow k)%nat -> fill_lam d q y k old j = store (store old (map (fun ii => (ii, 0)) (seq 0 (2 * nb k + 2 * ng k)))) (lam_stores d q y k 0 0 (nb k + ng k)) j.
Proof.
  intros Hj. unfold fill_lam. cbv zeta. rewrite store_out; [reflexivity|]. intros v I. apply in_ms in I. destruct I as (i & _ & E). injection E as -> _. unfold QpsSpec.nrow in Hj. lia.
Qed.
Lemma lam_zero k j : (j < 2 * nrow k)%nat -> store old (map (fun ii => (ii, 0)) (seq 0 (2 * nb k + 2 * ng k))) j = 0.
Proof.
  intros Hj. apply store_in; [apply in_ms; exists j; split; [unfold QpsSpec.nrow in Hj; lia|reflexivity]|].
  intros v I. apply in_ms in I. destruct I as (i & _ & E). injection E as _ ->. reflexivity.
Qed.
Lemma lam_low k i : (k <= N)%nat -> (i < nrow k)%nat ->
  fill_lam d q y k old i = if soft q k i then - y (rcon k i) else if Rle_dec (y (rcon k i)) 0 then - y (rcon k i) else 0.
Proof.
  intros Hk Hi. rewrite lam_mid by lia. pose proof (in_lam k (nb k + ng k)) as IL. specialize (fun j v => IL j v Hk 0%nat ltac:(unfold QpsSpec.nrow; lia)).
  change (packed q k 0) with 0%nat in IL. assert (Hi' : (0 <= i < 0 + (nb k + ng k))%nat) by (unfold QpsSpec.nrow in Hi; lia).
  destruct (soft q k i) eqn:S; [|destruct (Rle_dec (y (rcon k i)) 0) as [L|L]].
  - apply store_in; [apply IL; exists i; split; [exact Hi'|left; split; [exact S|left; split; reflexivity]]|].
    intros v I. apply IL in I. destruct I as (i' & R & [[_ [[-> ->]|[E _]]]|[S' [(_ & -> & _)|(_ & E & _)]]]); [reflexivity|lia|congruence|lia].
  - apply store_in; [apply IL; exists i; split; [exact Hi'|right; split; [exact S|left; repeat split; exact L]]|].
    intros v I. apply IL in I. destruct I as (i' & R & [[S' [[-> _]|[E _]]]|[S' [(_ & -> & ->)|(_ & E & _)]]]); [congruence|lia|reflexivity|lia].
  - rewrite store_out; [apply lam_zero; lia|]. intros v I. apply IL in I. destruct I as (i' & R & [[S' [[-> _]|[E _]]]|[S' [(L' & -> & ->)|(_ & E & _)]]]); [congruence|lia|contradiction|lia].
Qed.
Lemma lam_up k i : (k <= N)%nat -> (i < nrow k)%nat ->
  fill_lam d q y k old (nrow k + i)%nat = if soft q k i then y (rrep k i) else if Rle_dec (y (rcon k i)) 0 then 0 else y (rcon k i).
Proof.
  intros Hk Hi. rewrite lam_mid by lia. pose proof (in_lam k (nb k + ng k)) as IL. specialize (fun j v => IL j v Hk 0%nat ltac:(unfold QpsSpec.nrow; lia)).
  change (packed q k 0) with 0%nat in IL. assert (Hi' : (0 <= i < 0 + (nb k + ng k))%nat) by (unfold QpsSpec.nrow in Hi; lia). assert (En : nrow k = (nb k + ng k)%nat) by reflexivity.
  destruct (soft q k i) eqn:S; [|destruct (Rle_dec (y (rcon k i)) 0) as [L|L]].
  - apply store_in; [apply IL; exists i; split; [exact Hi'|left; split; [exact S|right; split; reflexivity]]|].
    intros v I. apply IL in I. destruct I as (i' & R & [[_ [[E ->]|[E ->]]]|[S' [(_ & E & _)|(_ & E & _)]]]); [lia| |lia|]; assert (i' = i) by lia; subst i'; [reflexivity|congruence].
  - rewrite store_out; [apply lam_zero; lia|]. intros v I. apply IL in I. destruct I as (i' & R & [[S' [[E _]|[E _]]]|[S' [(L' & E & _)|(L' & E & _)]]]); try lia; assert (i' = i) by lia; subst i'; [congruence|lra].
  - apply store_in; [apply IL; exists i; split; [exact Hi'|right; split; [exact S|right; repeat split; lra]]|].
    intros v I. apply IL in I. destruct I as (i' & R & [[S' [[E _]|[E _]]]|[S' [(_ & E & _)|(_ & E & ->)]]]); try lia; assert (i' = i) by lia; subst i'; [congruence|reflexivity].
Qed.
Lemma lam_slk k e : (e < 2 * ns k)%nat -> fill_lam d q y k old (2 * nrow k + e)%nat = - y (rslk k e).
Proof.
  intros He. unfold fill_lam. cbv zeta. apply store_in.
  - apply in_ms. exists e. split; [exact He|]. f_equal. unfold QpsSpec.nrow. lia.
  - intros v I. apply in_ms in I. destruct I as (e' & _ & E). injection E as E ->. unfold QpsSpec.nrow in E. replace e' with e by lia. reflexivity.
Qed.
End Lam.

(** a QP whose data are those of [q] *)
Variables P M : nat -> nat -> R.
Variable g : nat -> R.
Variables l u : nat -> ebound real.
Hypothesis HP : forall r c, (c < num_vars d)%nat -> P r c = ldot (nth c (hess_rows d) []) (nth c (hess_vals d q) []) (unit_at r).
Hypothesis HM : forall r c, (c < num_vars d)%nat -> M r c = ldot (nth c (con_cols_rows d q) []) (nth c (con_cols_vals d q) []) (unit_at r).
Hypothesis Hg : forall k t, (k <= N)%nat -> (t < width k)%nat -> g (hess_off d k + t)%nat = q_rqz q k t.
Variables l0 u0 : nat -> ebound real.
Hypothesis Hl : l = store l0 (stores_l d q).
Hypothesis Hu : u = store u0 (stores_u d q).
Let fdl := fun k i => ext (- q_b q k i).
Lemma l_dyn k i : (k < N)%nat -> (i < nx (S k))%nat -> l (rdyn k i) = ext (- q_b q k i).
Proof. rewrite Hl. exact (at_dyn d q _ _ _ _ _ (in_l d q WS) l0 k i). Qed.
Lemma l_con k i : (k <= N)%nat -> (i < nrow k)%nat -> l (rcon k i) = ext (q_d q k i).
Proof. rewrite Hl. exact (at_con d q WS _ _ _ _ _ (in_l d q WS) l0 k i). Qed.
Lemma l_rep k i : (k <= N)%nat -> (i < nrow k)%nat -> soft q k i = true -> l (rrep k i) = MInf.
Proof. rewrite Hl. exact (at_rep d q WS _ _ _ _ _ (in_l d q WS) l0 k i). Qed.
Lemma l_slk k e : (k <= N)%nat -> (e < 2 * ns k)%nat -> l (rslk k e) = ext (q_d q k (2 * nrow k + e)%nat).
Proof. rewrite Hl. exact (at_slk d q WS _ _ _ _ _ (in_l d q WS) l0 k e). Qed.
Lemma u_dyn k i : (k < N)%nat -> (i < nx (S k))%nat -> u (rdyn k i) = ext (- q_b q k i).
Proof. rewrite Hu. exact (at_dyn d q _ _ _ _ _ (in_u d q WS) u0 k i). Qed.
Lemma u_con k i : (k <= N)%nat -> (i < nrow k)%nat -> u (rcon k i) = if soft q k i then PInf else ext (- q_d q k (nrow k + i)%nat).
Proof. rewrite Hu. exact (at_con d q WS _ _ _ _ _ (in_u d q WS) u0 k i). Qed.
Lemma u_rep k i : (k <= N)%nat -> (i < nrow k)%nat -> soft q k i = true -> u (rrep k i) = ext (- q_d q k (nrow k + i)%nat).
Proof. rewrite Hu. exact (at_rep d q WS _ _ _ _ _ (in_u d q WS) u0 k i). Qed.
Lemma u_slk k e : (k <= N)%nat -> (e < 2 * ns k)%nat -> u (rslk k e) = PInf.
Proof. rewrite Hu. exact (at_slk d q WS _ _ _ _ _ (in_u d q WS) u0 k e). Qed.

Section Z.
Variables z y : nat -> R.
Notation stg := (stg d z).
(** a solution of the OCP QP that agrees with z and y *)
Variable s : rsol.
Hypothesis Ax : forall k t, (k <= N)%nat -> (t < width k)%nat -> s_ux s k t = stg k t.
Hypothesis Ap : forall k i, (k < N)%nat -> (i < nx (S k))%nat -> s_pi s k i = y (rdyn k i).
(** net multipliers *)
Hypothesis Ac : forall k i, (k <= N)%nat -> (i < nrow k)%nat -> soft q k i = false -> s_lam s k (nrow k + i)%nat - s_lam s k i = y (rcon k i).
Hypothesis As : forall k i, (k <= N)%nat -> (i < nrow k)%nat -> soft q k i = true -> s_lam s k i = - y (rcon k i) /\ s_lam s k (nrow k + i)%nat = y (rrep k i).
Hypothesis Ae : forall k e, (k <= N)%nat -> (e < 2 * ns k)%nat -> s_lam s k (2 * nrow k + e)%nat = - y (rslk k e).

Lemma nv_width k t : (t < nv k)%nat -> (t < width k)%nat.
Proof. unfold QpsSpec.nv, OsqpProofs.width. lia. Qed.
Lemma sl_width k e : (e < 2 * ns k)%nat -> (nv k + e < width k)%nat.
Proof. unfold QpsSpec.nv, OsqpProofs.width. lia. Qed.
Lemma lin_same k i : (k <= N)%nat -> lin d q (s_ux s) k i = lin d q stg k i.
Proof. intros Hk. unfold lin. apply sum_ext. intros t Ht. rewrite Ax by (try exact Hk; apply nv_width; exact Ht). reflexivity. Qed.
Lemma slack_same k i (up : bool) : (k <= N)%nat -> (i < nrow k)%nat -> slack d q (s_ux s) k i up = slack d q stg k i up.
Proof.
  intros Hk Hi. unfold slack. destruct (soft_cases d q WS k i Hk Hi) as [[_ ->]|[_ [j [Hj ->]]]]; [reflexivity|].
  destruct (0 <=? Z.of_nat j)%Z; [|reflexivity]. rewrite Nat2Z.id. apply Ax; [exact Hk|]. rewrite <- Nat.add_assoc. apply sl_width. destruct up; lia.
Qed.
Lemma stat_same k r : (k <= N)%nat -> (r < nv k)%nat ->
  sum (num_vars d) (fun e => (if (hess_off d k + r <=? e)%nat then P (hess_off d k + r) e else P e (hess_off d k + r)) * z e) + g (hess_off d k + r)%nat
    + sum (num_constr d) (fun r0 => M r0 (hess_off d k + r) * y r0) = stat d q s k r.
Proof.
  intros Hk Hr. pose proof (nv_width k r Hr) as Hw. rewrite (P_mul d q P HP z k r Hk Hw), Hg, (M_stat d q WB WS M HM k r y Hk Hw) by assumption. unfold colform, stat.
  destruct (Nat.ltb_spec r (nv k)); [|lia].
  rewrite (sum_ext (nv k) (fun c => sym q k r c * s_ux s k c) (fun c => sym q k r c * stg k c)) by (intros c Hc; rewrite Ax by (try exact Hk; apply nv_width; exact Hc); reflexivity).
  assert (E1 : (if (k <? N)%nat then sum (nx (S k)) (fun c => q_BA q k r c * s_pi s k c) else 0) = if (k <? N)%nat then sum (nx (S k)) (fun i => q_BA q k r i * y (rdyn k i)) else 0).
  { destruct (Nat.ltb_spec k N); [|reflexivity]. apply sum_ext. intros c Hc. rewrite Ap by assumption. reflexivity. }
  rewrite E1.
  assert (E2 : (if (0 <? k)%nat && (nu k <=? r)%nat then - y (rdyn (k - 1) (r - nu k)) else 0) = - (if (0 <? k)%nat && (nu k <=? r)%nat then s_pi s (k - 1)%nat (r - nu k)%nat else 0)).
  { destruct (Nat.ltb_spec 0 k); [|cbn [andb]; lra]. destruct (Nat.leb_spec (nu k) r); cbn [andb]; [|lra]. rewrite Ap; [reflexivity|lia|]. unfold QpsSpec.nv in Hr. replace (S (k - 1)) with k by lia. lia. }
  rewrite E2.
  assert (E3 : sum (nrow k) (fun i => coef d q k i r * y (rcon k i)) + sum (nrow k) (fun i => if soft q k i then coef d q k i r * y (rrep k i) else 0)
     = - sum (nrow k) (fun i => coef d q k i r * (s_lam s k i - s_lam s k (nrow k + i)%nat))).
  { rewrite <- sum_opp, <- sum_plus. apply sum_ext. intros i Hi. destruct (soft q k i) eqn:S.
    - destruct (As k i Hk Hi S) as [-> ->]. lra.
    - rewrite <- (Ac k i Hk Hi S). lra. }
  lra.
Qed.
Lemma stat_slack_same k j (up : bool) : (k <= N)%nat -> (j < ns k)%nat -> let t := (nv k + ((if up then ns k else 0) + j))%nat in
  sum (num_vars d) (fun e => (if (hess_off d k + t <=? e)%nat then P (hess_off d k + t) e else P e (hess_off d k + t)) * z e) + g (hess_off d k + t)%nat
    + sum (num_constr d) (fun r0 => M r0 (hess_off d k + t) * y r0) = stat_slack d q s k j up.
Proof.
  intros Hk Hj t. assert (Ht : (t < width k)%nat) by (unfold t; apply sl_width; destruct up; lia).
  rewrite (P_mul d q P HP z k t Hk Ht), Hg, (M_stat d q WB WS M HM k t y Hk Ht) by assumption. unfold colform, stat_slack. cbv zeta.
  destruct (Nat.ltb_spec t (nv k)); [lia|]. rewrite Ae by (try exact Hk; destruct up; lia). rewrite Ax by assumption.
  replace (t - nv k)%nat with ((if up then ns k else 0) + j)%nat by (unfold t; lia). fold t. destruct up.
  - destruct (Nat.ltb_spec t (nv k + ns k)) as [L|L]; [unfold t in L; lia|]. replace (ns k + j - ns k)%nat with j by lia.
    rewrite (sum_ext (nrow k) (fun l1 => if (rev k l1 =? Z.of_nat j)%Z then s_lam s k (nrow k + l1)%nat else 0) (fun i => if (rev k i =? Z.of_nat j)%Z then y (rrep k i) else 0)); [lra|].
    intros i Hi. destruct (Z.eqb_spec (rev k i) (Z.of_nat j)) as [E|]; [|reflexivity]. assert (S : soft q k i = true) by (unfold soft; apply Z.leb_le; lia). apply (As k i Hk Hi S).
  - destruct (Nat.ltb_spec t (nv k + ns k)) as [L|L]; [|unfold t in L; lia]. cbn [Nat.add].
    rewrite (sum_ext (nrow k) (fun i => if (rev k i =? Z.of_nat j)%Z then y (rcon k i) else 0) (fun i => - (if (rev k i =? Z.of_nat j)%Z then s_lam s k i else 0))); [rewrite sum_opp; lra|].
    intros i Hi. destruct (Z.eqb_spec (rev k i) (Z.of_nat j)) as [E|]; [|lra]. assert (S : soft q k i = true) by (unfold soft; apply Z.leb_le; lia). destruct (As k i Hk Hi S) as [-> _]. lra.
Qed.
Lemma dyn_same k i : (k < N)%nat -> (i < nx (S k))%nat -> sum (num_vars d) (fun c => M (rdyn k i) c * z c) = dyn d q (s_ux s) k i - q_b q k i.
Proof.
  intros Hk Hi. rewrite (row_dyn d q WB WS M HM z k i Hk Hi). unfold dyn.
  rewrite (sum_ext (nv k) (fun r => q_BA q k r i * s_ux s k r) (fun t => q_BA q k t i * stg k t)) by (intros t Ht; rewrite Ax by (try lia; apply nv_width; exact Ht); reflexivity).
  rewrite (Ax (S k) (nu (S k) + i)) by (unfold OsqpProofs.width; lia). lra.
Qed.
Lemma ineq_low k i : (k <= N)%nat -> (i < nrow k)%nat -> sum (num_vars d) (fun c => M (rcon k i) c * z c) = ineq d q (s_ux s) k i + q_d q k i.
Proof.
  intros Hk Hi. rewrite (row_con d q WB WS M HM z k i Hk Hi). unfold ineq. destruct (Nat.ltb_spec i (nrow k)); [|lia].
  rewrite lin_same, slack_same by assumption. lra.
Qed.
Lemma ineq_up_val k i : (k <= N)%nat -> (i < nrow k)%nat -> ineq d q (s_ux s) k (nrow k + i) = - lin d q stg k i + slack d q stg k i true - q_d q k (nrow k + i)%nat.
Proof.
  intros Hk Hi. unfold ineq. destruct (Nat.ltb_spec (nrow k + i) (nrow k)); [lia|]. destruct (Nat.ltb_spec (nrow k + i) (2 * nrow k)); [|lia].
  replace (nrow k + i - nrow k)%nat with i by lia. rewrite lin_same, slack_same by assumption. reflexivity.
Qed.
Lemma ineq_up k i : (k <= N)%nat -> (i < nrow k)%nat -> sum (num_vars d) (fun c => M (if soft q k i then rrep k i else rcon k i) c * z c) = - q_d q k (nrow k + i)%nat - ineq d q (s_ux s) k (nrow k + i).
Proof.
  intros Hk Hi. rewrite ineq_up_val by assumption. destruct (soft q k i) eqn:S.
  - rewrite (row_rep d q WB WS M HM z k i Hk Hi S). lra.
  - rewrite (row_con d q WB WS M HM z k i Hk Hi). unfold slack. change (0 <=? rev k i)%Z with (soft q k i). rewrite S. lra.
Qed.
Lemma ineq_slk k e : (k <= N)%nat -> (e < 2 * ns k)%nat -> sum (num_vars d) (fun c => M (rslk k e) c * z c) = ineq d q (s_ux s) k (2 * nrow k + e) + q_d q k (2 * nrow k + e)%nat.
Proof.
  intros Hk He. rewrite (row_slk d q WB WS M HM z k e Hk He). unfold ineq. destruct (Nat.ltb_spec (2 * nrow k + e) (nrow k)); [lia|].
  destruct (Nat.ltb_spec (2 * nrow k + e) (2 * nrow k)); [lia|]. replace (2 * nrow k + e - 2 * nrow k)%nat with e by lia.
  rewrite Ax by (try exact Hk; apply sl_width; exact He). lra.
Qed.
Definition okm (k m : nat) : Prop := 0 <= ineq d q (s_ux s) k m /\ 0 <= s_lam s k m /\ s_lam s k m * ineq d q (s_ux s) k m = 0.

(** OSQP to OCP, with the split multipliers of fill_in_qp_out *)
Hypothesis Al : forall k i, (k <= N)%nat -> (i < nrow k)%nat -> soft q k i = false -> (y (rcon k i) <= 0 /\ s_lam s k (nrow k + i)%nat = 0) \/ (0 < y (rcon k i) /\ s_lam s k i = 0).
Lemma forward : osqp_kkt (num_vars d) (num_constr d) P M g l u z y -> kkt d q s.
Proof.
  intros [KS KL KU KN KP]. pose proof (starts_le d) as [S1 S2].
  assert (RL : forall r b, (r < num_constr d)%nat -> l r = ext b -> let v := sum (num_vars d) (fun c => M r c * z c) in b <= v /\ (y r < 0 -> v = b)).
  { intros r b Hr E v. split; [pose proof (KL r Hr) as G; rewrite E in G; exact G|]. intros L. pose proof (KN r Hr L) as G. rewrite E in G. injection G as G. symmetry. exact G. }
  assert (RU : forall r b, (r < num_constr d)%nat -> u r = ext b -> let v := sum (num_vars d) (fun c => M r c * z c) in v <= b /\ (0 < y r -> v = b)).
  { intros r b Hr E v. split; [pose proof (KU r Hr) as G; rewrite E in G; exact G|]. intros L. pose proof (KP r Hr L) as G. rewrite E in G. injection G as G. symmetry. exact G. }
  assert (NP : forall r, (r < num_constr d)%nat -> u r = PInf -> y r <= 0).
  { intros r Hr E. apply Rnot_lt_le. intros L. pose proof (KP r Hr L) as G. rewrite E in G. discriminate. }
  assert (NN : forall r, (r < num_constr d)%nat -> l r = MInf -> 0 <= y r).
  { intros r Hr E. apply Rnot_lt_le. intros L. pose proof (KN r Hr L) as G. rewrite E in G. discriminate. }
  split; [|split; [|split]].
  - intros k r Hk Hr. rewrite <- stat_same by assumption. apply KS. apply var_lt; [exact Hk|apply nv_width; exact Hr].
  - intros k j up Hk Hj. rewrite <- stat_slack_same by assumption. apply KS. apply var_lt; [exact Hk|apply sl_width; destruct up; lia].
  - intros k i Hk Hi. assert (Hr : (rdyn k i < num_constr d)%nat) by (pose proof (dyn_lt d k i Hk Hi); lia).
    destruct (RL _ _ Hr (l_dyn k i Hk Hi)) as [A _]. destruct (RU _ _ Hr (u_dyn k i Hk Hi)) as [B _]. rewrite dyn_same in A, B by assumption. lra.
  - intros k m Hk Hm. split; [intros _|intros C; exfalso; exact (UM k m Hk Hm C)]. unfold nall in Hm. fold (okm k m).
    assert (Ht : nrow k = (nb k + ng k)%nat) by reflexivity. destruct (lt_dec m (nrow k)) as [L|L]; [|destruct (lt_dec m (2 * nrow k)) as [L2|L2]].
    + assert (Hr : (rcon k m < num_constr d)%nat) by (pose proof (con_lt d k m Hk L); lia). destruct (RL _ _ Hr (l_con k m Hk L)) as [A B].
      rewrite ineq_low in A, B by assumption. unfold okm. destruct (soft q k m) eqn:S.
      * assert (Y : y (rcon k m) <= 0) by (apply NP; [exact Hr|rewrite u_con, S by assumption; reflexivity]). destruct (As k m Hk L S) as [-> _].
        destruct (Rlt_dec (y (rcon k m)) 0) as [Y0|Y0]; [specialize (B Y0); replace (ineq d q (s_ux s) k m) with 0 by lra; lra|]. replace (y (rcon k m)) with 0 by lra. lra.
      * pose proof (Ac k m Hk L S) as E. destruct (Al k m Hk L S) as [[Y Z0]|[Y Z0]].
        -- replace (s_lam s k m) with (- y (rcon k m)) by lra. destruct (Rlt_dec (y (rcon k m)) 0) as [Y0|Y0]; [specialize (B Y0); replace (ineq d q (s_ux s) k m) with 0 by lra; lra|]. replace (y (rcon k m)) with 0 by lra. lra.
        -- rewrite Z0. lra.
    + set (i := (m - nrow k)%nat). assert (Hi : (i < nrow k)%nat) by (unfold i; lia). replace m with (nrow k + i)%nat by (unfold i; lia).
      unfold okm. pose proof (ineq_up k i Hk Hi) as E0. destruct (soft q k i) eqn:S.
      * assert (Hr : (rrep k i < num_constr d)%nat) by (pose proof (rep_lt d q WS k i Hk Hi S); lia). destruct (RU _ _ Hr (u_rep k i Hk Hi S)) as [A B].
        rewrite E0 in A, B. assert (Y : 0 <= y (rrep k i)) by (apply NN; [exact Hr|apply l_rep; assumption]). destruct (As k i Hk Hi S) as [_ ->].
        destruct (Rlt_dec 0 (y (rrep k i))) as [Y0|Y0]; [specialize (B Y0); replace (ineq d q (s_ux s) k (nrow k + i)) with 0 by lra; lra|]. replace (y (rrep k i)) with 0 by lra. lra.
      * assert (Hr : (rcon k i < num_constr d)%nat) by (pose proof (con_lt d k i Hk Hi); lia). assert (Hub : u (rcon k i) = ext (- q_d q k (nrow k + i)%nat)) by (rewrite u_con, S by assumption; reflexivity).
        destruct (RU _ _ Hr Hub) as [A B]. rewrite E0 in A, B. pose proof (Ac k i Hk Hi S) as E. destruct (Al k i Hk Hi S) as [[Y Z0]|[Y Z0]].
        -- rewrite Z0. lra.
        -- specialize (B Y). replace (ineq d q (s_ux s) k (nrow k + i)) with 0 by lra. lra.
    + set (e := (m - 2 * nrow k)%nat). assert (He : (e < 2 * ns k)%nat) by (unfold e; lia). replace m with (2 * nrow k + e)%nat by (unfold e; lia).
      pose proof (slk_lt d k e Hk He) as Hr. destruct (RL _ _ Hr (l_slk k e Hk He)) as [A B]. rewrite ineq_slk in A, B by assumption.
      assert (Y : y (rslk k e) <= 0) by (apply NP; [exact Hr|apply u_slk; assumption]). unfold okm. rewrite Ae by assumption.
      destruct (Rlt_dec (y (rslk k e)) 0) as [Y0|Y0]; [specialize (B Y0); replace (ineq d q (s_ux s) k (2 * nrow k + e)) with 0 by lra; lra|]. replace (y (rslk k e)) with 0 by lra. lra.
Qed.
End Z.
(** OCP to OSQP *)
Lemma backward z y s : (forall k t, (k <= N)%nat -> (t < width k)%nat -> s_ux s k t = stg d z k t) ->
  (forall k i, (k < N)%nat -> (i < nx (S k))%nat -> s_pi s k i = y (rdyn k i)) ->
  (forall k i, (k <= N)%nat -> (i < nrow k)%nat -> soft q k i = false -> s_lam s k (nrow k + i)%nat - s_lam s k i = y (rcon k i)) ->
  (forall k i, (k <= N)%nat -> (i < nrow k)%nat -> soft q k i = true -> s_lam s k i = - y (rcon k i) /\ s_lam s k (nrow k + i)%nat = y (rrep k i)) ->
  (forall k e, (k <= N)%nat -> (e < 2 * ns k)%nat -> s_lam s k (2 * nrow k + e)%nat = - y (rslk k e)) ->
  kkt d q s -> osqp_kkt (num_vars d) (num_constr d) P M g l u z y.
Proof.
  intros Ax Ap Ac As Ae (K1 & K2 & K3 & K4).
  assert (OK : forall k m, (k <= N)%nat -> (m < nall d k)%nat -> 0 <= ineq d q (s_ux s) k m /\ 0 <= s_lam s k m /\ s_lam s k m * ineq d q (s_ux s) k m = 0) by (intros k m Hk Hm; apply (K4 k m Hk Hm); exact (UM k m Hk Hm)).
  assert (CS : forall a b, a * b = 0 -> 0 < a -> b = 0) by (intros a b E H; apply Rmult_integral in E; lra).
  assert (NA : forall k, nall d k = (2 * nrow k + 2 * ns k)%nat) by (intros k; unfold nall, QpsSpec.nrow; lia).
  constructor.
  - intros c Hc. destruct (var_find d c Hc) as (k & t & Hk & Ht & ->). destruct (lt_dec t (nv k)) as [L|L].
    + rewrite (stat_same z y s Ax Ap Ac As k t Hk L). apply K1; assumption.
    + assert (E : exists up j, (j < ns k)%nat /\ t = (nv k + ((if up : bool then ns k else 0) + j))%nat).
      { unfold OsqpProofs.width in Ht. unfold QpsSpec.nv in L |- *. destruct (lt_dec t (nu k + nx k + ns k)); [exists false, (t - (nu k + nx k))%nat|exists true, (t - (nu k + nx k + ns k))%nat]; lia. }
      destruct E as (up & j & Hj & ->). pose proof (stat_slack_same z y s Ax As Ae k j up Hk Hj) as G. cbv zeta in G. rewrite G. apply K2; assumption.
  - intros r Hr. destruct (row_cases d q WS r Hr) as [(k & i & Hk & Hi & ->)|[(k & i & Hk & Hi & ->)|[(k & i & Hk & Hi & S & ->)|(k & e & Hk & He & ->)]]].
    + rewrite l_dyn, (dyn_same z s Ax), K3 by assumption. cbn. lra.
    + rewrite l_con, (ineq_low z s Ax) by assumption. cbn. destruct (OK k i Hk ltac:(rewrite NA; lia)). lra.
    + rewrite l_rep by assumption. exact I.
    + rewrite l_slk, (ineq_slk z s Ax) by assumption. cbn [above ext]. destruct (OK k (2 * nrow k + e)%nat Hk ltac:(rewrite NA; lia)). lra.
  - intros r Hr. destruct (row_cases d q WS r Hr) as [(k & i & Hk & Hi & ->)|[(k & i & Hk & Hi & ->)|[(k & i & Hk & Hi & S & ->)|(k & e & Hk & He & ->)]]].
    + rewrite u_dyn, (dyn_same z s Ax), K3 by assumption. cbn. lra.
    + rewrite u_con by assumption. destruct (soft q k i) eqn:S; [exact I|]. pose proof (ineq_up z s Ax k i Hk Hi) as E. rewrite S in E. rewrite E. cbn.
      destruct (OK k (nrow k + i)%nat Hk ltac:(rewrite NA; lia)). lra.
    + rewrite u_rep by assumption. pose proof (ineq_up z s Ax k i Hk Hi) as E. rewrite S in E. rewrite E. cbn. destruct (OK k (nrow k + i)%nat Hk ltac:(rewrite NA; lia)). lra.
    + rewrite u_slk by assumption. exact I.
  - intros r Hr Y. destruct (row_cases d q WS r Hr) as [(k & i & Hk & Hi & ->)|[(k & i & Hk & Hi & ->)|[(k & i & Hk & Hi & S & ->)|(k & e & Hk & He & ->)]]].
    + rewrite l_dyn, (dyn_same z s Ax), K3 by assumption. unfold ext. f_equal. lra.
    + rewrite l_con, (ineq_low z s Ax) by assumption. unfold ext. f_equal. destruct (OK k i Hk ltac:(rewrite NA; lia)) as (A & B & C).
      assert (L : 0 < s_lam s k i).
      { destruct (soft q k i) eqn:S; [destruct (As k i Hk Hi S); lra|]. pose proof (Ac k i Hk Hi S). destruct (OK k (nrow k + i)%nat Hk ltac:(rewrite NA; lia)) as (_ & B' & _). lra. }
      rewrite (CS _ _ C L). lra.
    + exfalso. destruct (As k i Hk Hi S) as [_ E]. destruct (OK k (nrow k + i)%nat Hk ltac:(rewrite NA; lia)) as (_ & B & _). lra.
    + rewrite l_slk, (ineq_slk z s Ax) by assumption. unfold ext. f_equal. destruct (OK k (2 * nrow k + e)%nat Hk ltac:(rewrite NA; lia)) as (A & B & C).
      pose proof (Ae k e Hk He). rewrite (CS _ _ C) by lra. lra.
  - intros r Hr Y. destruct (row_cases d q WS r Hr) as [(k & i & Hk & Hi & ->)|[(k & i & Hk & Hi & ->)|[(k & i & Hk & Hi & S & ->)|(k & e & Hk & He & ->)]]].
    + rewrite u_dyn, (dyn_same z s Ax), K3 by assumption. unfold ext. f_equal. lra.
    + rewrite u_con by assumption. pose proof (OK k i Hk ltac:(rewrite NA; lia)) as (_ & B' & _). destruct (soft q k i) eqn:S; [exfalso; destruct (As k i Hk Hi S); lra|].
      pose proof (ineq_up z s Ax k i Hk Hi) as E. rewrite S in E. rewrite E. unfold ext. f_equal. destruct (OK k (nrow k + i)%nat Hk ltac:(rewrite NA; lia)) as (A & B & C).
      pose proof (Ac k i Hk Hi S). rewrite (CS _ _ C) by lra. lra.
    + rewrite u_rep by assumption. pose proof (ineq_up z s Ax k i Hk Hi) as E. rewrite S in E. rewrite E. unfold ext. f_equal. destruct (OK k (nrow k + i)%nat Hk ltac:(rewrite NA; lia)) as (A & B & C).
      destruct (As k i Hk Hi S) as [_ E2]. rewrite (CS _ _ C) by lra. lra.
    + exfalso. pose proof (Ae k e Hk He) as E. destruct (OK k (2 * nrow k + e)%nat Hk ltac:(rewrite NA; lia)) as (_ & B & _). lra.
Qed.
End T.
