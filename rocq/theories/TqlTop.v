(** acados_eigen_decomposition over the reals. *)
From Coq Require Import ZArith List Bool Reals Lia Lra.
From Verif Require Import Arith Vec LinModel RSum TredModel TredStep TredOrth TredReduce TredFinal TqlModel TqlProofs TqlSweep TqlLoop.
Open Scope R_scope.
Local Notation st := (tst real).

Lemma fmaxc_real a b : a <= fmaxc (A := real) a b /\ b <= fmaxc (A := real) a b.
Proof. unfold fmaxc. cbn. unfold nmax. cbn. match goal with |- context [if ?x then _ else _] => destruct x eqn:E end; revert E; cbn; unfold Rltb, Rleb; repeat match goal with |- context [Rlt_dec ?x ?y] => destruct (Rlt_dec x y) | |- context [Rle_dec ?x ?y] => destruct (Rle_dec x y) end; intros; try discriminate; lra. Qed.
Section N.
Variable n : nat.
Variable S : nat -> nat -> R.
Variable eps : R.
Lemma loop_spec tst1 l m : 0 <= eps * tst1 -> (l < m)%nat -> (m < n)%nat -> forall fuel (t : st) f tau del, te t l <> 0 -> (forall k, (k < l)%nat -> te t k = 0) -> 0 <= del -> ((m + 1 < n)%nat -> Rabs (te t m) <= del) ->
  near n S tau (tV t) (tri l f (td t) (te t)) -> iso n (tV t) -> forall t' f', ql_loop (A := real) sqrt eps n fuel l m tst1 t f = (t', f', true) ->
  near n S (tau + del) (tV t') (tri l f' (td t') (te t')) /\ iso n (tV t') /\ (forall k, (k < l)%nat -> te t' k = 0) /\ Rabs (te t' l) <= eps * tst1.
Proof.
  intros H0 Hl Hm fuel. induction fuel as [|fuel IH]; intros t f tau del E0 Z Hd Hdel N I t' f' E.
  - cbn [ql_loop] in E. destruct (ql_sweep (A := real) sqrt n l m t f) as [[t1 f1] ok1] eqn:Es.
    destruct (@nltb real _ _) eqn:B in E; [discriminate|]. injection E as <- <- ->.
    destruct (sweep_spec n S l m t f tau del Hl Hm E0 Z Hd Hdel N I _ _ Es) as (A1 & A2 & A3 & A4). split; [exact A1|]. split; [exact A2|]. split; [exact A3|].
    revert B. cbn. unfold Rltb. destruct (Rlt_dec _ _); [discriminate|]. intros _. lra.
  - cbn [ql_loop] in E. destruct (ql_sweep (A := real) sqrt n l m t f) as [[t1 f1] ok1] eqn:Es.
    destruct (@nltb real _ _) eqn:B in E.
    + destruct (ql_loop (A := real) sqrt eps n fuel l m tst1 t1 f1) as [[t2 f2] ok2] eqn:El. injection E as <- <- Ok. apply andb_true_iff in Ok. destruct Ok as [-> ->].
      destruct (sweep_spec n S l m t f tau del Hl Hm E0 Z Hd Hdel N I _ _ Es) as (A1 & A2 & A3 & A4).
      replace (tau + del) with (tau + del + 0) by ring. apply (IH t1 f1 (tau + del) 0); try assumption; try lra.
      * intros X. revert B. cbn. rewrite X, Rabs_R0. unfold Rltb. destruct (Rlt_dec _ _); [lra|discriminate].
      * intros _. rewrite A4, Rabs_R0. lra.
    + injection E as <- <- ->. destruct (sweep_spec n S l m t f tau del Hl Hm E0 Z Hd Hdel N I _ _ Es) as (A1 & A2 & A3 & A4). split; [exact A1|]. split; [exact A2|]. split; [exact A3|].
      revert B. cbn. unfold Rltb. destruct (Rlt_dec _ _); [discriminate|]. intros _. lra.
Qed.
Lemma find_spec tst1 (e : nat -> R) fuel m : let k := find_m (A := real) eps fuel tst1 e m in (m <= k)%nat /\ (k <= m + fuel)%nat /\ (k = (m + fuel)%nat \/ Rabs (e k) <= eps * tst1) /\ ((m < k)%nat -> eps * tst1 < Rabs (e m)).
Proof.
  revert m. induction fuel as [|fuel IH]; intros m k; unfold k; cbn [find_m].
  - repeat split; try lia.
  - destruct (@nleb real _ _) eqn:B; revert B; cbn; unfold Rleb; destruct (Rle_dec _ _); try discriminate; intros _.
    + split; [lia|]. split; [lia|]. split; [right; assumption|lia].
    + destruct (IH (m + 1)%nat) as (A1 & A2 & A3 & A4). split; [lia|]. split; [lia|]. split; [destruct A3 as [->|]; [left; lia|right; assumption]|]. intros _. lra.
Qed.
Definition inv (l : nat) (q : ql real) : Prop := 0 <= q_tst1 q /\ (q_ok q = true ->
  near n S (2 * INR l * eps * q_tst1 q) (tV (q_st q)) (tri l (q_f q) (td (q_st q)) (te (q_st q))) /\ iso n (tV (q_st q)) /\ (forall k, (k < l)%nat -> te (q_st q) k = 0)).
Lemma step_spec l q : 0 <= eps -> (l < n)%nat -> inv l q -> inv (l + 1) (ql_step (A := real) sqrt eps n l q).
Proof.
  intros He Hl [T0 K]. unfold ql_step. cbv zeta.
  set (t := q_st q) in *. match goal with |- context [find_m _ _ ?x _ _] => set (tst1 := x) end.
  destruct (fmaxc_real (q_tst1 q) (nabs (td t l) + nabs (te t l))%num) as [T1 _]. fold tst1 in T1. clearbody tst1. change (num real) with R in tst1.
  assert (D0 : 0 <= eps * tst1) by nra.
  destruct (find_spec tst1 (te t) (n - 1 - l) l) as (M1 & M2 & M3 & M4). set (m := find_m (A := real) eps (n - 1 - l) tst1 (te t) l) in *. clearbody m.
  assert (G : forall t2 f2 ok2, (if (l <? m)%nat then ql_loop (A := real) sqrt eps n 19 l m tst1 t (q_f q) else (t, q_f q, true)) = (t2, f2, ok2) -> q_ok q && ok2 = true ->
    near n S (2 * INR l * eps * q_tst1 q + eps * tst1) (tV t2) (tri l f2 (td t2) (te t2)) /\ iso n (tV t2) /\ (forall k, (k < l)%nat -> te t2 k = 0) /\ ((l + 1 < n)%nat -> Rabs (te t2 l) <= eps * tst1)).
  { intros t2 f2 ok2 E Ok. apply andb_true_iff in Ok. destruct Ok as [O1 ->]. destruct (K O1) as (A1 & A2 & A3). destruct (Nat.ltb_spec l m) as [Hm|Hm].
    - destruct (loop_spec tst1 l m D0 Hm ltac:(lia) 19 t (q_f q) (2 * INR l * eps * q_tst1 q) (eps * tst1)) with (t' := t2) (f' := f2) as (B1 & B2 & B3 & B4); try assumption.
      + specialize (M4 Hm). intros X. rewrite X, Rabs_R0 in M4. lra.
      + intros Hm1. destruct M3 as [M3|M3]; [lia|exact M3].
      + split; [exact B1|]. split; [exact B2|]. split; [exact B3|]. intros _; exact B4.
    - injection E as <- <-. split; [apply (near_le n S (2 * INR l * eps * q_tst1 q)); [lra|exact A1]|]. split; [exact A2|]. split; [exact A3|].
      intros Hl1. destruct M3 as [M3|M3]; [lia|]. replace l with m by lia. exact M3. }
  destruct (if (l <? m)%nat then ql_loop (A := real) sqrt eps n 19 l m tst1 t (q_f q) else (t, q_f q, true)) as [[t2 f2] ok2] eqn:E. specialize (G t2 f2 ok2 eq_refl).
  split; cbn [q_tst1 q_ok q_st q_f]; [lra|]. intros Ok. destruct (G Ok) as (B1 & B2 & B3 & B4). cbn [tV td te sete setd].
  split; [|split; [exact B2|]].
  - apply (near_le n S (2 * INR l * eps * q_tst1 q + eps * tst1 + eps * tst1)).
    { rewrite plus_INR. cbn [INR]. pose proof (pos_INR l). assert (INR l * (eps * q_tst1 q) <= INR l * (eps * tst1)) by (apply Rmult_le_compat_l; [assumption|apply Rmult_le_compat_l; assumption]). lra. }
    apply (near_drop n S _ (eps * tst1) l (te t2 l) _ (tri l f2 (td t2) (te t2))); [exact D0|exact B4| |exact B1].
    intros a b Ha Hb. unfold tri, vset. destruct (Nat.eq_dec a b) as [<-|NE].
    + rewrite !Nat.eqb_refl. dec; subst; cbn [andb orb]; try (exfalso; lia); cbn; toR; ring.
    + dec; subst; cbn [andb orb]; try (exfalso; lia); cbn; toR; ring.
  - intros k Hk. unfold vset. destruct (Nat.eqb_spec k l); [reflexivity|]. apply B3. lia.
Qed.
End N.

Lemma bil_act n S V x y : bil n S (act n V x) (act n V y) = bil n (fun i j => sum n (fun a => sum n (fun b => V a i * S a b * V b j))) x y.
Proof.
  unfold bil, act, dot.
  transitivity (sum n (fun a => sum n (fun b => sum n (fun i => sum n (fun j => x i * (V a i * S a b * V b j) * y j))))).
  - apply sum_ext; intros a _. apply sum_ext; intros b _.
    transitivity (sum n (fun i => V a i * x i * S a b * sum n (fun j => V b j * y j))).
    + rewrite <- !sum_scal_r. apply sum_ext; intros; ring.
    + apply sum_ext; intros i _. rewrite <- sum_scal. apply sum_ext; intros; ring.
  - transitivity (sum n (fun i => sum n (fun j => sum n (fun a => sum n (fun b => x i * (V a i * S a b * V b j) * y j))))).
    + transitivity (sum n (fun a => sum n (fun i => sum n (fun j => sum n (fun b => x i * (V a i * S a b * V b j) * y j))))).
      * apply sum_ext; intros a _. rewrite sum_swap. apply sum_ext; intros i _. apply sum_swap.
      * rewrite sum_swap. apply sum_ext; intros i _. apply sum_swap.
    + apply sum_ext; intros i _. apply sum_ext; intros j _. rewrite <- sum_scal, <- sum_scal_r. apply sum_ext; intros a _. rewrite <- sum_scal, <- sum_scal_r. apply sum_ext; intros; ring.
Qed.
Lemma init_e n (t : st) : (0 < n)%nat -> let r := fst (ql_init (A := real) n t) in tV r = tV t /\ td r = td t /\ forall k, (k + 1 < n)%nat -> te r k = te t (k + 1)%nat.
Proof.
  intros Hn r. unfold r, ql_init. destruct (Nat.ltb_spec 0 n); [|lia]. cbn [fst].
  pose (P := fun (m : nat) (z : st) => tV z = tV t /\ td z = td t /\ forall k, te z k = if (k <? m)%nat then te t (k + 1)%nat else te t k).
  match goal with |- context [loop ?m ?F t] => assert (L : P m (loop m F t)); [|set (z := loop m F t) in *; clearbody z] end.
  - apply (loop_inv P); unfold P; [repeat split|]. intros k z Hk (H1 & H2 & H3). split; [exact H1|]. split; [exact H2|]. intros j. cbn [te sete]. unfold vset. rewrite !H3.
    destruct (Nat.eqb_spec j k) as [->|]; [destruct (Nat.ltb_spec (k + 1) k), (Nat.ltb_spec k (k + 1)); try lia; reflexivity|].
    destruct (Nat.ltb_spec j k), (Nat.ltb_spec j (k + 1)); try lia; reflexivity.
  - destruct L as (L1 & L2 & L3). cbn [tV td te sete]. split; [exact L1|]. split; [exact L2|]. intros k Hk. unfold vset. destruct (Nat.eqb_spec k (n - 1)); [lia|]. rewrite L3. destruct (Nat.ltb_spec k (n - 1)); [reflexivity|lia].
Qed.
Lemma act_ev n V j a : (j < n)%nat -> act n V (ev j) a = V a j.
Proof. intros Hj. unfold act, dot. rewrite (sum_one n j) by first [assumption|intros k _ NE; unfold ev; destruct (Nat.eqb_spec k j); [contradiction|ring]]. unfold ev. rewrite Nat.eqb_refl. ring. Qed.
Lemma eigen_spec n eps (M : nat -> nat -> R) (d e : nat -> R) (S : nat -> nat -> R) : 0 <= eps ->
  (forall a b, (a < n)%nat -> (b <= a)%nat -> M a b = S a b) -> (forall a b, (a < n)%nat -> (b < n)%nat -> S a b = S b a) ->
  let q := fst (eigen (A := real) sqrt eps n M d e) in let V := tV (q_st q) in q_ok q = true ->
  (forall i j, (i < n)%nat -> (j < n)%nat -> sum n (fun a => V a i * V a j) = if (i =? j)%nat then 1 else 0) /\
  (forall x : nat -> R, let y := fun a => sum n (fun j => V a j * x j) in
     Rabs (sum n (fun a => sum n (fun b => y a * S a b * y b)) - sum n (fun a => td (q_st q) a * (x a * x a))) <= 2 * INR n * eps * q_tst1 q * sum n (fun a => x a * x a)).
Proof.
  intros He ML SS q V Ok. destruct (le_lt_dec n 0) as [H0|Hn].
  { split; [intros; lia|]. intros x y. replace n with 0%nat by lia. cbn. rewrite Rminus_0_r, Rabs_R0. lra. }
  destruct (tred2_similar n M d e S ML SS) as (O & TS). set (w := tred2 (A := real) sqrt n (mkT M d e)) in *.
  destruct (init_e n w Hn) as (I1 & I2 & I3).
  assert (Q : q = loop n (fun l q => ql_step (A := real) sqrt eps n l q) (mkQ (fst (ql_init (A := real) n w)) (@n0 real) (@n0 real) true)).
  { unfold q, eigen, tql2. fold w. destruct (ql_init (A := real) n w). reflexivity. }
  set (t := fst (ql_init (A := real) n w)) in *. clearbody t w.
  assert (B : inv n S eps 0 (mkQ t (@n0 real) (@n0 real) true)).
  { split; cbn [q_tst1 q_ok q_st q_f]; [apply Rle_refl|]. intros _. split; [|split; [|lia]].
    - intros x. rewrite bil_act. rewrite (bil_ext n _ (tri 0 (@n0 real) (td t) (te t))); [rewrite Rminus_diag_eq, Rabs_R0 by reflexivity; cbn; lra|].
      intros i j Hi Hj. rewrite I1, TS by assumption. unfold tri. rewrite I2. cbn [Nat.leb].
      destruct (Nat.eqb_spec i j); [toR; cbn; ring|]. destruct (Nat.eqb_spec i (j + 1)) as [->|]; [symmetry; apply I3; exact Hi|]. destruct (Nat.eqb_spec j (i + 1)) as [->|]; [symmetry; apply I3; exact Hj|reflexivity].
    - intros x y. rewrite I1. unfold act. unfold dot at 1.
      transitivity (bil n (fun i j => sum n (fun a => sum n (fun b => tV w a i * ev a b * tV w b j))) x y).
      + rewrite <- bil_act, bil_dot. apply (dot_ext n (act n (tV w) x) (act n (tV w) x)); [reflexivity|]. intros a Ha. symmetry.
        rewrite (sum_one n a); [unfold ev; rewrite Nat.eqb_refl; unfold act; ring|exact Ha|intros k _ NE; unfold ev; destruct (Nat.eqb_spec k a); [contradiction|ring]].
      + rewrite (bil_ext n _ (fun i j => ev i j)).
        * rewrite bil_dot. apply dot_ext; [reflexivity|]. intros a Ha. rewrite (sum_one n a); [unfold ev; rewrite Nat.eqb_refl; ring|exact Ha|intros k _ NE; unfold ev; destruct (Nat.eqb_spec k a); [contradiction|ring]].
        * intros i j Hi Hj. transitivity (sum n (fun a => tV w a i * tV w a j)).
          -- apply sum_ext. intros a Ha. rewrite (sum_one n a); [unfold ev; rewrite Nat.eqb_refl; ring|exact Ha|intros k _ NE; unfold ev; destruct (Nat.eqb_spec k a); [contradiction|ring]].
          -- rewrite O by assumption. unfold ev. rewrite (Nat.eqb_sym j). reflexivity. }
  assert (F : inv n S eps n q).
  { rewrite Q. apply (loop_inv (inv n S eps)); [exact B|]. intros k a Hk. apply step_spec; assumption. }
  destruct F as [_ F]. destruct (F Ok) as (F1 & F2 & F3). split.
  - intros i j Hi Hj. specialize (F2 (ev i) (ev j)). rewrite dot_ev in F2 by exact Hi. rewrite <- F2. unfold dot at 1. apply sum_ext. intros a _. rewrite !act_ev by assumption. reflexivity.
  - intros x y. specialize (F1 x). rewrite (bil_ext n (tri n (q_f q) (td (q_st q)) (te (q_st q))) (fun a b => if (a =? b)%nat then td (q_st q) a else 0)) in F1.
    + assert (E : bil n (fun a b => if (a =? b)%nat then td (q_st q) a else 0) x x = sum n (fun a => td (q_st q) a * (x a * x a))).
      { unfold bil. apply sum_ext. intros a Ha. rewrite (sum_one n a); [rewrite Nat.eqb_refl; toR; ring|exact Ha|intros k _ NE; destruct (Nat.eqb_spec a k); [congruence|ring]]. }
      rewrite E in F1. exact F1.
    + intros a b Ha Hb. unfold tri. destruct (Nat.eqb_spec a b); [destruct (Nat.leb_spec n a); [lia|toR; ring]|]. destruct (Nat.eqb_spec a (b + 1)); [apply F3; exact Hb|]. destruct (Nat.eqb_spec b (a + 1)); [apply F3; exact Ha|reflexivity].
Qed.
