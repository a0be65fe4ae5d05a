(** Proofs about the residual norms. *)
From Coq Require Import ZArith List Bool Lia Reals Lra.
From Verif Require Import FP FPProofs Arith Vec LinModel LinProofs RSum Poly ResModel.
Import ListNotations.
Open Scope R_scope.

(** the largest element of a set of reals, or 0 when there is nothing above 0 *)
Definition largest (S : R -> Prop) (m : R) : Prop := 0 <= m /\ (forall x, S x -> x <= m) /\ (m = 0 \/ S m).
Lemma largest_unique S m m' : largest S m -> largest S m' -> m = m'.
Proof. intros (P & U & E) (P' & U' & E'). destruct E as [->|E], E' as [->|E']; try lra; [specialize (U _ E')|specialize (U' _ E)|specialize (U _ E'); specialize (U' _ E)]; lra. Qed.
Lemma largest_ext (S S' : R -> Prop) m : (forall x, S x <-> S' x) -> largest S m -> largest S' m.
Proof. intros E (P & U & M). split; [exact P|]. split; [intros x Hx; apply U, E, Hx|]. destruct M; [left|right; apply E]; assumption. Qed.
(** elements <= 0 do not matter *)
Lemma largest_pos (S S' : R -> Prop) m : (forall x, S x -> S' x \/ x <= 0) -> (forall x, S' x -> S x) -> largest S m -> largest S' m.
Proof.
  intros E1 E2 (P & U & M). split; [exact P|]. split; [intros x Hx; apply U, E2, Hx|]. destruct M as [M|M]; [left; exact M|]. destruct (E1 _ M) as [H|H]; [right; exact H|left; lra].
Qed.

Section Nrm.
Variable nrm : nat -> vecR -> R.
Hypothesis nrm_max : forall n v, largest (fun x => exists k, (k < n)%nat /\ x = Rabs (v k)) (nrm n v).

Lemma fill_val {T : Type} n (g : nat -> nat -> T) (c : nat -> bool) (t : nat -> T) i :
  loop n (fun i t => if c i then (fun j => if Nat.eqb j i then g i j else t j) else t) t i = if ((i <? n)%nat && c i)%bool then g i i else t i.
Proof.
  induction n as [|n IH]; cbn [loop]; [reflexivity|]. destruct (c n) eqn:En.
  - destruct (Nat.eqb_spec i n) as [->|Ni].
    + rewrite En. destruct (Nat.ltb_spec n (S n)); [reflexivity|lia].
    + rewrite IH. destruct (Nat.ltb_spec i n), (Nat.ltb_spec i (S n)); try reflexivity; lia.
  - rewrite IH. destruct (Nat.eqb_spec i n) as [->|Ni]; [rewrite En, !andb_false_r; reflexivity|]. destruct (Nat.ltb_spec i n), (Nat.ltb_spec i (S n)); try reflexivity; lia.
Qed.
Lemma fill_all n (g : nat -> R) (t : vecR) i : loop n (fun i t => vset (A := real) t i (g i)) t i = if (i <? n)%nat then g i else t i.
Proof. pose proof (fill_val n (fun i _ => g i) (fun _ => true) t i) as H. etransitivity; [exact H|]. rewrite andb_true_r. reflexivity. Qed.
Lemma fill_some n (g : nat -> R) (c : nat -> bool) (t : vecR) i : loop n (fun i t => if c i then vset (A := real) t i (g i) else t) t i = if ((i <? n)%nat && c i)%bool then g i else t i.
Proof. pose proof (fill_val n (fun i _ => g i) c t i) as H. exact H. Qed.

(** the norm of a vector of nonnegative maxima *)
Lemma nrm_of_largest n (t : vecR) (S : nat -> R -> Prop) : (forall i, (i < n)%nat -> largest (S i) (t i)) -> largest (fun x => exists i, (i < n)%nat /\ S i x) (nrm n t).
Proof.
  intros L. destruct (nrm_max n t) as (P & U & M). split; [exact P|]. split.
  - intros x (i & Hi & Hx). destruct (L i Hi) as (Pi & Ui & _). apply Rle_trans with (t i); [apply Ui, Hx|]. rewrite <- (Rabs_pos_eq (t i)) by exact Pi. apply U. eauto.
  - destruct M as [M|(i & Hi & M)]; [left; exact M|]. destruct (L i Hi) as (Pi & Ui & Mi). rewrite Rabs_pos_eq in M by exact Pi. rewrite M. destruct Mi as [Mi|Mi]; [left; exact Mi|right; eauto].
Qed.

Variable r : res_in real.
Variable tmp : vecR.
Let o := res_compute nrm r tmp.
Lemma tmp_stat_val i : tmp_stat nrm r tmp i = if (i <? S (rN r))%nat then nrm (rnv r i) (res_stat r i) else tmp i.
Proof. apply (fill_all (S (rN r)) (fun i => nrm (rnv r i) (res_stat r i))). Qed.
Lemma tmp_eq_val t i : tmp_eq nrm r t i = if (i <? rN r)%nat then nrm (rnx r (S i)) (dyn_fun r i) else t i.
Proof. apply (fill_all (rN r) (fun i => nrm (rnx r (S i)) (dyn_fun r i))). Qed.

Definition stat_entry (i k : nat) : R := cost_grad r i k - ineq_adj r i k - (if (k <? rnu r i + rnx r i)%nat then dyn_adj r i k else 0).
Lemma res_stat_entry i k : res_stat r i k = stat_entry i k.
Proof. unfold res_stat, stat_entry. destruct (_ <? _)%nat; rr; change (num real) with R in *; lra. Qed.
Definition stat_set x := exists i k, (i <= rN r)%nat /\ (k < rnv r i)%nat /\ x = Rabs (stat_entry i k).
Definition eq_set x := exists i k, (i < rN r)%nat /\ (k < rnx r (S i))%nat /\ x = Rabs (dyn_fun r i k).
Definition ineq_set x := exists i k, (i <= rN r)%nat /\ (k < 2 * rni r i)%nat /\ x = ineq_fun r i k.
Definition comp_set x := exists i k, (i <= rN r)%nat /\ (k < 2 * rni r i)%nat /\ x = Rabs (rlam r i k * ineq_fun r i k).

Lemma stat_norm : largest stat_set (inf_norm_res_stat o).
Proof.
  unfold o, res_compute. cbv zeta. cbn [inf_norm_res_stat]. rewrite Nat.add_1_r.
  eapply largest_ext; [|apply (nrm_of_largest _ _ (fun i x => exists k, (k < rnv r i)%nat /\ x = Rabs (res_stat r i k)))].
  - intros x. unfold stat_set. split.
    + intros (i & Hi & k & Hk & ->). exists i, k. rewrite res_stat_entry. repeat split; lia || reflexivity.
    + intros (i & k & Hi & Hk & ->). exists i. split; [lia|]. exists k. rewrite res_stat_entry. auto.
  - intros i Hi. rewrite tmp_stat_val. destruct (Nat.ltb_spec i (S (rN r))); [|lia]. apply nrm_max.
Qed.
Lemma eq_norm : largest eq_set (inf_norm_res_eq o).
Proof.
  unfold o, res_compute. cbv zeta. cbn [inf_norm_res_eq].
  eapply largest_ext; [|apply (nrm_of_largest _ _ (fun i x => exists k, (k < rnx r (S i))%nat /\ x = Rabs (dyn_fun r i k)))].
  - intros x. unfold eq_set. split; [intros (i & Hi & k & Hk & ->); exists i, k; auto|intros (i & k & Hi & Hk & ->); exists i; split; [exact Hi|]; exists k; auto].
  - intros i Hi. rewrite tmp_eq_val. destruct (Nat.ltb_spec i (rN r)); [|lia]. apply nrm_max.
Qed.
Lemma max_step (S : R -> Prop) n t (S' : R -> Prop) : largest S n -> (forall x, S' x <-> S x \/ x = t) -> largest S' (if nltb (a := real) n t then t else n).
Proof.
  intros (P & U & M) E. pose proof (Rltb_spec n t) as Hs. change (nltb n t) with (Rltb n t). destruct Hs as [Hs|Hs].
  - split; [lra|]. split; [intros x Hx; apply E in Hx; destruct Hx as [Hx|Hx]; [specialize (U _ Hx)|]; lra|right; apply E; auto].
  - split; [exact P|]. split; [intros x Hx; apply E in Hx; destruct Hx as [Hx|Hx]; [specialize (U _ Hx)|]; lra|]. destruct M as [M|M]; [left; exact M|right; apply E; auto].
Qed.
Lemma ineq_norm_largest : largest ineq_set (inf_norm_res_ineq o).
Proof.
  unfold o, res_compute. cbv zeta. cbn [inf_norm_res_ineq]. unfold ineq_norm.
  assert (G : forall m, largest (fun x => exists i k, (i < m)%nat /\ (k < 2 * rni r i)%nat /\ x = ineq_fun r i k) (loop m (fun i n => loop (2 * rni r i) (fun j n => let tmp := ineq_fun r i j in if nltb n tmp then tmp else n) n) (0%R : num real))).
  { induction m as [|m IH]; cbn [loop].
    - split; [apply Rle_refl|]. split; [intros x (i & k & Hi & _); lia|left; reflexivity].
    - set (n0 := loop m _ _) in *. clearbody n0.
      assert (H : forall q, largest (fun x => exists i k, ((i < m)%nat /\ (k < 2 * rni r i)%nat \/ (i = m /\ (k < q)%nat)) /\ x = ineq_fun r i k) (loop q (fun j n => let tmp := ineq_fun r m j in if nltb n tmp then tmp else n) n0)).
      { induction q as [|q IHq]; cbn [loop].
        - eapply largest_ext; [|exact IH]. intros x. split; [intros (i & k & H1 & H2 & ->); exists i, k; auto|intros (i & k & [[H1 H2]|[_ H]] & ->); [exists i, k; auto|lia]].
        - cbv zeta. eapply max_step; [exact IHq|]. intros x. split.
          + intros (i & k & [H|[-> H]] & ->); [left; exists i, k; auto|]. destruct (Nat.eq_dec k q) as [->|N]; [right; reflexivity|left; exists m, k; split; [right; split; [reflexivity|lia]|reflexivity]].
          + intros [(i & k & [H|[-> H]] & ->)| ->]; [exists i, k; auto|exists m, k; split; [right; split; [reflexivity|lia]|reflexivity]|exists m, q; split; [right; split; [reflexivity|lia]|reflexivity]]. }
      eapply largest_ext; [|exact (H (2 * rni r m)%nat)]. intros x. split.
      + intros (i & k & [[H1 H2]|[-> H1]] & ->); [exists i, k; repeat split; [lia|exact H2]|exists m, k; repeat split; [lia|exact H1]].
      + intros (i & k & H1 & H2 & ->). exists i, k. split; [|reflexivity]. destruct (Nat.eq_dec i m) as [->|N]; [right; auto|left; split; [lia|exact H2]]. }
  eapply largest_ext; [|exact (G (S (rN r)))]. intros x. unfold ineq_set. split; intros (i & k & H1 & H2 & H3); exists i, k; repeat split; try assumption; lia.
Qed.
Lemma neqb_spec (x y : R) : neqb (A := real) x y = true <-> x <> y.
Proof.
  unfold neqb. change (nleb (a := real) x y) with (Rleb x y). change (nleb (a := real) y x) with (Rleb y x). destruct (Rleb_spec x y), (Rleb_spec y x); cbn; split; intros; try lra; try congruence.
Qed.
Lemma comp_norm : tau_min r = 0 -> largest comp_set (inf_norm_res_comp o).
Proof.
  intros T0. unfold o, res_compute. cbv zeta. cbn [inf_norm_res_comp]. change (n0 (a := real)) with (0%R : R).
  destruct (neqb (tau_min r) _) eqn:E; [apply neqb_spec in E; contradiction|]. rewrite Nat.add_1_r.
  eapply largest_ext; [|apply (nrm_of_largest _ _ (fun i x => exists k, (k < 2 * rni r i)%nat /\ x = Rabs (rlam r i k * ineq_fun r i k)))].
  - intros x. unfold comp_set. split; [intros (i & Hi & k & Hk & ->); exists i, k; repeat split; auto; lia|intros (i & k & Hi & Hk & ->); exists i; split; [lia|]; exists k; auto].
  - intros i Hi. unfold tmp_comp. rewrite (fill_all _ (fun i => nrm (2 * rni r i) (fun k => rlam r i k * ineq_fun r i k))). destruct (Nat.ltb_spec i (S (rN r))); [|lia]. apply nrm_max.
Qed.

(** ** nonzero barrier parameter *)
Definition zeroed (i k : nat) : Prop := exists j, (j < rne r i)%nat /\ (k = idxe r i j \/ k = (idxe r i j + rni r i)%nat).
Lemma zero_equalities_val i v k : (zeroed i k /\ zero_equalities r i v k = 0) \/ (~ zeroed i k /\ zero_equalities r i v k = v k).
Proof.
  unfold zero_equalities, zeroed. induction (rne r i) as [|m IH]; cbn [loop].
  - right. split; [intros (j & Hj & _); lia|reflexivity].
  - set (L := loop m _ v) in *. clearbody L. unfold vset.
    destruct (Nat.eqb_spec k (idxe r i m + rni r i)) as [->|N1]; [left; split; [exists m; split; [lia|auto]|reflexivity]|].
    destruct (Nat.eqb_spec k (idxe r i m)) as [->|N2]; [left; split; [exists m; split; [lia|auto]|reflexivity]|].
    destruct IH as [[(j & Hj & Hk) E]|[N E]]; [left; split; [exists j; split; [lia|exact Hk]|exact E]|right; split; [|exact E]].
    intros (j & Hj & Hk). destruct (Nat.eq_dec j m) as [->|Nj]; [destruct Hk; contradiction|apply N; exists j; split; [lia|exact Hk]].
Qed.
Definition comp_tau_set x := exists i k, (i <= rN r)%nat /\ (k < 2 * rni r i)%nat /\ ~ zeroed i k /\ x = Rabs (dmask r i k * (rlam r i k * ineq_fun r i k + tau_min r)).
(** left over in the scratch vector from the dynamics and, at the last stage, from the stationarity residual *)
Definition stale_set x := (exists i k, (i < rN r)%nat /\ rni r i = 0%nat /\ (k < rnx r (S i))%nat /\ x = Rabs (dyn_fun r i k)) \/ (rni r (rN r) = 0%nat /\ exists k, (k < rnv r (rN r))%nat /\ x = Rabs (stat_entry (rN r) k)).
Lemma zeroed_dec i k : zeroed i k \/ ~ zeroed i k.
Proof. destruct (zero_equalities_val i (fun _ => 0) k) as [[H _]|[H _]]; auto. Qed.
Lemma comp_tau_norm : tau_min r <> 0 -> largest (fun x => comp_tau_set x \/ stale_set x) (inf_norm_res_comp o).
Proof.
  intros T0. unfold o, res_compute. cbv zeta. cbn [inf_norm_res_comp]. change (n0 (a := real)) with (0%R : R).
  destruct (neqb (tau_min r) _) eqn:E; [|apply neqb_spec in T0; rewrite T0 in E; discriminate]. rewrite Nat.add_1_r. clear E.
  assert (L := nrm_of_largest (S (rN r)) (tmp_comp_tau nrm r (tmp_eq nrm r (tmp_stat nrm r tmp)))
     (fun i x => if (0 <? rni r i)%nat then exists k, (k < 2 * rni r i)%nat /\ x = Rabs (res_comp_tau r i k) else if (i <? rN r)%nat then exists k, (k < rnx r (S i))%nat /\ x = Rabs (dyn_fun r i k) else exists k, (k < rnv r i)%nat /\ x = Rabs (res_stat r i k))).
  eapply largest_pos; [| |apply L].
  - intros x (i & Hi & Hx). destruct (Nat.ltb_spec 0 (rni r i)) as [Hn|Hn].
    + destruct Hx as (k & Hk & ->). unfold res_comp_tau. destruct (zero_equalities_val i (fun k => (rlam r i k * ineq_fun r i k + 1 * tau_min r)%num) k) as [[Z E]|[Z E]]; rewrite E.
      * right. match goal with |- Rabs ?t <= 0 => replace t with (0%R : R) by rlra end. rewrite Rabs_R0. lra.
      * left. left. exists i, k. split; [lia|]. split; [exact Hk|]. split; [exact Z|]. f_equal. rr; change (num real) with R in *; ring.
    + left. right. destruct (Nat.ltb_spec i (rN r)) as [Hl|Hl].
      * destruct Hx as (k & Hk & ->). left. exists i, k. repeat split; auto; lia.
      * replace i with (rN r) in * by lia. right. split; [lia|]. destruct Hx as (k & Hk & ->). exists k. rewrite res_stat_entry. auto.
  - intros x [(i & k & Hi & Hk & Z & ->)|[(i & k & Hi & H0 & Hk & ->)|(H0 & k & Hk & ->)]].
    + exists i. split; [lia|]. destruct (Nat.ltb_spec 0 (rni r i)); [|lia]. exists k. split; [exact Hk|]. unfold res_comp_tau. destruct (zero_equalities_val i (fun k => (rlam r i k * ineq_fun r i k + 1 * tau_min r)%num) k) as [[Z' E]|[Z' E]]; [contradiction|]. rewrite E. f_equal. rr; change (num real) with R in *; ring.
    + exists i. split; [lia|]. rewrite H0. destruct (Nat.ltb_spec 0 0); [lia|]. destruct (Nat.ltb_spec i (rN r)); [|lia]. exists k. auto.
    + exists (rN r). split; [lia|]. rewrite H0. destruct (Nat.ltb_spec 0 0); [lia|]. rewrite Nat.ltb_irrefl. exists k. rewrite res_stat_entry. auto.
  - intros i Hi. unfold tmp_comp_tau. rewrite (fill_some _ (fun i => nrm (2 * rni r i) (res_comp_tau r i)) (fun i => (0 <? rni r i)%nat)).
    destruct (Nat.ltb_spec i (S (rN r))); [|lia]. cbn [andb]. destruct (0 <? rni r i)%nat; [apply nrm_max|]. rewrite tmp_eq_val. destruct (Nat.ltb_spec i (rN r)); [apply nrm_max|]. rewrite tmp_stat_val. destruct (Nat.ltb_spec i (S (rN r))); [apply nrm_max|lia].
Qed.
(** the intended set: both entries of an equality are left out; the constraint has its upper entry nb+ng+ni_nl = ni - ns further *)
Definition comp_intended (ns : nat -> nat) x := exists i k, (i <= rN r)%nat /\ (k < 2 * rni r i)%nat /\ ~ (exists j, (j < rne r i)%nat /\ (k = idxe r i j \/ k = (idxe r i j + (rni r i - ns i))%nat)) /\ x = Rabs (dmask r i k * (rlam r i k * ineq_fun r i k + tau_min r)).
Lemma comp_tau_good ns : tau_min r <> 0 -> (forall i, (i <= rN r)%nat -> (0 < rni r i)%nat /\ (ns i = 0%nat \/ rne r i = 0%nat)) -> largest (comp_intended ns) (inf_norm_res_comp o).
Proof.
  intros T0 H. eapply largest_ext; [|apply comp_tau_norm, T0]. intros x. unfold comp_intended, comp_tau_set, stale_set, zeroed. split.
  - intros [(i & k & Hi & Hk & Z & ->)|[(i & k & Hi & H0 & _)|(H0 & _)]]; [|destruct (H i); lia|destruct (H (rN r)); lia].
    exists i, k. repeat split; auto. intros (j & Hj & E). apply Z. exists j. split; [exact Hj|]. destruct (H i Hi) as [_ [E0|E0]]; [rewrite E0, Nat.sub_0_r in E; exact E|lia].
  - intros (i & k & Hi & Hk & Z & ->). left. exists i, k. repeat split; auto. intros (j & Hj & E). apply Z. exists j. split; [exact Hj|]. destruct (H i Hi) as [_ [E0|E0]]; [rewrite E0, Nat.sub_0_r; exact E|lia].
Qed.
Lemma total_norm : let m := res_get_inf_norm o in inf_norm_res_stat o <= m /\ inf_norm_res_eq o <= m /\ inf_norm_res_ineq o <= m /\ inf_norm_res_comp o <= m /\ (m = inf_norm_res_stat o \/ m = inf_norm_res_eq o \/ m = inf_norm_res_ineq o \/ m = inf_norm_res_comp o).
Proof.
  cbv zeta. unfold res_get_inf_norm. destruct o as [a b c e t]. cbn [inf_norm_res_stat inf_norm_res_eq inf_norm_res_ineq inf_norm_res_comp]. change (nltb (a := real)) with Rltb in *. change (@nltb real) with Rltb.
  destruct (Rltb_spec a b); [destruct (Rltb_spec b c); [destruct (Rltb_spec c e)|destruct (Rltb_spec b e)]|destruct (Rltb_spec a c); [destruct (Rltb_spec c e)|destruct (Rltb_spec a e)]]; repeat split; try lra; auto.
Qed.
End Nrm.

(** ** NaN: in double arithmetic *)
Section Nan.
Variable nrm : nat -> (nat -> double) -> double.
Variable r : res_in dbl.
Lemma ineq_norm_not_nan : isnan (ineq_norm r) = false.
Proof.
  unfold ineq_norm. induction (S (rN r)) as [|m IH]; cbn [loop]; [reflexivity|]. set (x := loop m _ _) in *. clearbody x.
  induction (2 * rni r m)%nat as [|q IHq]; cbn [loop]; [exact IH|]. set (y := loop q _ _) in *. clearbody y. cbv zeta. change (nltb (a := dbl)) with flt in *. change (@nltb dbl) with flt.
  destruct (flt y (ineq_fun r m q)) eqn:E; [|exact IHq]. destruct (isnan (ineq_fun r m q)) eqn:N; [|reflexivity].
  exfalso. destruct (ineq_fun r m q); try discriminate N. unfold flt in E. destruct y; discriminate E.
Qed.
End Nan.
