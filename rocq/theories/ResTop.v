(** NaN handling of the residual norms, a concrete norm, counterexamples. *)
From Coq Require Import ZArith List Bool Lia Reals Lra.
From Flocq Require Import IEEE754.BinarySingleNaN.
From Verif Require Import FP FPProofs Arith Vec LinModel LinProofs RSum Poly ResModel ResProofs.
Import ListNotations.

(** what is assumed of blasfeo_dvecnrm_inf on doubles where NaN matters *)
Definition nan_norm (nrm : nat -> (nat -> double) -> double) : Prop := forall n v, isnan (nrm n v) = true <-> exists k, (k < n)%nat /\ isnan (v k) = true.
Lemma fmul_nan_r x y : isnan y = true -> isnan (fmul x y) = true.
Proof. destruct y; try discriminate. intros _. destruct x; reflexivity. Qed.
Lemma fmul_nan_l x y : isnan x = true -> isnan (fmul x y) = true.
Proof. destruct x; try discriminate. intros _. destruct y; reflexivity. Qed.
Lemma fadd_nan_l x y : isnan x = true -> isnan (fadd x y) = true.
Proof. destruct x; try discriminate. intros _. destruct y; reflexivity. Qed.
Lemma dfill n (g : nat -> double) (t : nat -> double) i : loop n (fun i t => vset (A := dbl) t i (g i)) t i = if (i <? n)%nat then g i else t i.
Proof. pose proof (fill_val n (fun i _ => g i) (fun _ => true) t i) as H. etransitivity; [exact H|]. rewrite andb_true_r. reflexivity. Qed.
Lemma dfill_some n (g : nat -> double) (c : nat -> bool) (t : nat -> double) i : loop n (fun i t => if c i then vset (A := dbl) t i (g i) else t) t i = if ((i <? n)%nat && c i)%bool then g i else t i.
Proof. pose proof (fill_val n (fun i _ => g i) c t i) as H. exact H. Qed.
Section Nan.
Variable nrm : nat -> (nat -> double) -> double.
Hypothesis NN : nan_norm nrm.
Variable r : res_in dbl.
Variable tmp : nat -> double.
Let o := res_compute nrm r tmp.
Lemma nan_in_comp i k : (i <= rN r)%nat -> (k < 2 * rni r i)%nat -> isnan (ineq_fun r i k) = true -> neqb (tau_min r) f0 = false -> isnan (inf_norm_res_comp o) = true.
Proof.
  intros Hi Hk Hn Ht. unfold o, res_compute. cbv zeta. cbn [inf_norm_res_comp]. change (@n0 dbl) with f0. rewrite Ht. rewrite Nat.add_1_r.
  apply NN. exists i. split; [lia|]. unfold tmp_comp. etransitivity; [apply f_equal, (dfill (S (rN r)) (fun i => nrm (2 * rni r i) (fun k => fmul (rlam r i k) (ineq_fun r i k))))|].
  destruct (Nat.ltb_spec i (S (rN r))); [|lia]. apply NN. exists k. split; [exact Hk|]. apply fmul_nan_r, Hn.
Qed.
(** with a barrier parameter, unless the entry belongs to an equality *)
Lemma dzero_equalities_val i (v : nat -> double) k : ~ (exists j, (j < rne r i)%nat /\ (k = idxe r i j \/ k = (idxe r i j + rni r i)%nat)) -> zero_equalities r i v k = v k.
Proof.
  unfold zero_equalities. induction (rne r i) as [|m IH]; cbn [loop]; intros N; [reflexivity|]. unfold vset at 1.
  destruct (Nat.eqb_spec k (idxe r i m + rni r i)) as [->|N1]; [exfalso; apply N; exists m; split; [lia|auto]|]. unfold vset at 1. destruct (Nat.eqb_spec k (idxe r i m)) as [->|N2]; [exfalso; apply N; exists m; split; [lia|auto]|].
  apply IH. intros (j & Hj & E). apply N. exists j. split; [lia|exact E].
Qed.
Lemma nan_in_comp_tau i k : (i <= rN r)%nat -> (k < 2 * rni r i)%nat -> isnan (ineq_fun r i k) = true -> ~ (exists j, (j < rne r i)%nat /\ (k = idxe r i j \/ k = (idxe r i j + rni r i)%nat)) -> isnan (inf_norm_res_comp o) = true.
Proof.
  intros Hi Hk Hn Hz. destruct (neqb (tau_min r) f0) eqn:Ht; [|eapply nan_in_comp; eassumption].
  unfold o, res_compute. cbv zeta. cbn [inf_norm_res_comp]. change (@n0 dbl) with f0. rewrite Ht. rewrite Nat.add_1_r.
  apply NN. exists i. split; [lia|]. unfold tmp_comp_tau. etransitivity; [apply f_equal, (dfill_some (S (rN r)) (fun i => nrm (2 * rni r i) (res_comp_tau r i)) (fun i => (0 <? rni r i)%nat))|].
  destruct (Nat.ltb_spec i (S (rN r))); [|lia]. destruct (Nat.ltb_spec 0 (rni r i)); [|lia]. cbn [andb]. apply NN. exists k. split; [exact Hk|].
  unfold res_comp_tau. cbv zeta. apply fmul_nan_r. rewrite dzero_equalities_val by exact Hz. apply fadd_nan_l, fmul_nan_r, Hn.
Qed.
End Nan.

(** one stage, one equality constraint whose value is NaN; everything else zero, barrier parameter 1 *)
Definition r_nan (tau : double) (ne : nat) : res_in dbl :=
  mkResIn 0 (fun _ => 0%nat) (fun _ => 0%nat) (fun _ => 0%nat) (fun _ => 1%nat) (fun _ _ => f0) (fun _ _ => f0) (fun _ _ => f0) (fun _ _ => f0) (fun _ k => if Nat.eqb k 0 then fnan else f0) (fun _ _ => f0) (fun _ _ => f1) tau (fun _ => ne) (fun _ _ => 0%nat).
Lemma nan_ineq_lost : exists r : res_in dbl, (exists i k, (i <= rN r)%nat /\ (k < 2 * rni r i)%nat /\ isnan (ineq_fun r i k) = true) /\ forall nrm tmp, isnan (inf_norm_res_ineq (res_compute nrm r tmp)) = false.
Proof. exists (r_nan f0 0). split; [exists 0%nat, 0%nat; cbn; repeat split; lia|]. intros nrm tmp. apply ineq_norm_not_nan. Qed.
Lemma nan_equality_lost : exists r : res_in dbl, (exists i k, (i <= rN r)%nat /\ (k < 2 * rni r i)%nat /\ isnan (ineq_fun r i k) = true) /\
  forall nrm tmp, nan_norm nrm -> let o := res_compute nrm r tmp in isnan (inf_norm_res_stat o) = false /\ isnan (inf_norm_res_eq o) = false /\ isnan (inf_norm_res_ineq o) = false /\ isnan (inf_norm_res_comp o) = false.
Proof.
  exists (r_nan f1 1). split; [exists 0%nat, 0%nat; cbn; repeat split; lia|]. intros nrm tmp NN o.
  assert (G : forall n v, (forall k, (k < n)%nat -> isnan (v k) = false) -> isnan (nrm n v) = false). { intros n v H. destruct (isnan (nrm n v)) eqn:E; [|reflexivity]. apply NN in E. destruct E as (k & Hk & E). rewrite H in E by exact Hk. discriminate E. }
  assert (S : isnan (tmp_stat nrm (r_nan f1 1) tmp 0%nat) = false). { apply (G 0%nat). intros; lia. }
  split; [apply G; cbn; intros k Hk; replace k with 0%nat by lia; exact S|]. split; [apply G; cbn; intros; lia|]. split; [apply ineq_norm_not_nan|].
  apply G. intros k Hk. replace k with 0%nat by (cbn in Hk; lia). replace (neqb (tau_min (r_nan f1 1)) _) with true by reflexivity.
  apply (G 2%nat). intros k' Hk'. destruct k' as [|[|k']]; [reflexivity|reflexivity|lia].
Qed.

Open Scope R_scope.
(** a concrete norm over the reals *)
Definition nrmR (n : nat) (v : vecR) : R := loop n (fun k m => Rmax m (Rabs (v k))) 0.
Lemma nrmR_max n v : largest (fun x => exists k, (k < n)%nat /\ x = Rabs (v k)) (nrmR n v).
Proof.
  unfold nrmR. induction n as [|n IH]; cbn [loop]; [split; [lra|]; split; [intros x (k & Hk & _); lia|auto]|]. set (m := loop n _ _) in *. clearbody m. destruct IH as (P & U & M).
  split; [apply Rle_trans with m; [exact P|apply Rmax_l]|]. split.
  - intros x (k & Hk & ->). destruct (Nat.eq_dec k n) as [->|N]; [apply Rmax_r|]. apply Rle_trans with m; [apply U; exists k; split; [lia|reflexivity]|apply Rmax_l].
  - destruct (Rle_dec m (Rabs (v n))) as [H|H]; [rewrite Rmax_right by exact H; right; exists n; auto|]. rewrite Rmax_left by lra. destruct M as [M|(k & Hk & M)]; [left; exact M|right; exists k; auto].
Qed.

(** two stages: no inequality at stage 0, one at stage 1; dynamics gap 5; barrier parameter 1, complementarity exact *)
Definition r_stale : res_in real :=
  mkResIn 1 (fun _ => 1%nat) (fun _ => 1%nat) (fun _ => 0%nat) (fun i => i) (fun _ _ => 0%R) (fun _ _ => 0%R) (fun _ _ => 0%R) (fun _ _ => 5%R) (fun _ _ => (-1)%R) (fun _ _ => 1%R) (fun _ _ => 1%R) 1%R (fun _ => 0%nat) (fun _ _ => 0%nat).
Lemma stale_comp : forall nrm, (forall n v, largest (fun x => exists k, (k < n)%nat /\ x = Rabs (v k)) (nrm n v)) -> forall tmp,
  inf_norm_res_comp (res_compute nrm r_stale tmp) = 5 /\ largest (comp_intended r_stale (fun _ => 0%nat)) 0.
Proof.
  intros nrm NM tmp. split.
  - apply (largest_unique _ _ _ (comp_tau_norm nrm NM r_stale tmp ltac:(cbn; lra))). split; [lra|]. split.
    + intros x [(i & k & Hi & Hk & _ & ->)|[(i & k & Hi & H0 & Hk & ->)|(H0 & _)]].
      * cbn. replace (1 * (1 * -1 + 1)) with 0 by lra. rewrite Rabs_R0. lra.
      * cbn. rewrite Rabs_pos_eq; lra.
      * cbn in H0. discriminate H0.
    + right. right. left. exists 0%nat, 0%nat. cbn. repeat split; try lia. rewrite Rabs_pos_eq; lra.
  - split; [lra|]. split; [|auto]. intros x (i & k & Hi & Hk & _ & ->). cbn. replace (1 * (1 * -1 + 1)) with 0 by lra. rewrite Rabs_R0. lra.
Qed.
(** one stage, one equality (lower entry 0, upper entry 1) with one soft constraint (ni = 2): the upper entry of
    the equality is kept, the lower slack bound (entry 2) is dropped instead *)
Definition r_soft : res_in real :=
  mkResIn 0 (fun _ => 0%nat) (fun _ => 0%nat) (fun _ => 0%nat) (fun _ => 2%nat) (fun _ _ => 0%R) (fun _ _ => 0%R) (fun _ _ => 0%R) (fun _ _ => 0%R) (fun _ k => if Nat.eqb k 2 then (-8)%R else (-1)%R) (fun _ _ => 1%R) (fun _ _ => 1%R) 1%R (fun _ => 1%nat) (fun _ _ => 0%nat).
Lemma soft_comp : forall nrm, (forall n v, largest (fun x => exists k, (k < n)%nat /\ x = Rabs (v k)) (nrm n v)) -> forall tmp,
  inf_norm_res_comp (res_compute nrm r_soft tmp) = 0 /\ largest (comp_intended r_soft (fun _ => 1%nat)) 7.
Proof.
  intros nrm NM tmp. split.
  - apply (largest_unique _ _ _ (comp_tau_norm nrm NM r_soft tmp ltac:(cbn; lra))). split; [lra|]. split; [|auto].
    intros x [(i & k & Hi & Hk & Z & ->)|[(i & k & Hi & H0 & Hk & ->)|(H0 & _)]]; [|cbn in Hi; lia|cbn in H0; discriminate H0].
    destruct (Nat.eq_dec k 2) as [->|N]; [exfalso; apply Z; exists 0%nat; cbn; split; [lia|auto]|]. cbn. destruct (Nat.eqb_spec k 2); [contradiction|]. replace (1 * (1 * -1 + 1)) with 0 by lra. rewrite Rabs_R0. lra.
  - split; [lra|]. split.
    + intros x (i & k & Hi & Hk & _ & ->). cbn. destruct (k =? 2)%nat; [rewrite Rabs_left; lra|replace (1 * (1 * -1 + 1)) with 0 by lra; rewrite Rabs_R0; lra].
    + right. exists 0%nat, 2%nat. cbn. split; [lia|]. split; [lia|]. split; [intros (j & Hj & [E|E]); discriminate E|]. rewrite Rabs_left; lra.
Qed.
Lemma stale_refuted : forall nrm, (forall n v, largest (fun x => exists k, (k < n)%nat /\ x = Rabs (v k)) (nrm n v)) -> exists r, (forall i, rne r i = 0%nat) /\ forall tmp, ~ largest (comp_intended r (fun _ => 0%nat)) (inf_norm_res_comp (res_compute nrm r tmp)).
Proof. intros nrm NM. exists r_stale. split; [reflexivity|]. intros tmp L. destruct (stale_comp nrm NM tmp) as [E L0]. rewrite E in L. pose proof (largest_unique _ _ _ L L0). lra. Qed.
Lemma soft_refuted : forall nrm, (forall n v, largest (fun x => exists k, (k < n)%nat /\ x = Rabs (v k)) (nrm n v)) -> exists r ns, (forall i, (0 < rni r i)%nat) /\ forall tmp, ~ largest (comp_intended r ns) (inf_norm_res_comp (res_compute nrm r tmp)).
Proof. intros nrm NM. exists r_soft, (fun _ => 1%nat). split; [intros; cbn; lia|]. intros tmp L. destruct (soft_comp nrm NM tmp) as [E L0]. rewrite E in L. pose proof (largest_unique _ _ _ L L0). lra. Qed.
(** values of the four norms on a small problem *)
Definition r_ex : res_in real :=
  mkResIn 1 (fun _ => 1%nat) (fun _ => 1%nat) (fun _ => 0%nat) (fun i => i) (fun i _ => INR i) (fun _ _ => 0%R) (fun _ _ => (-2)%R) (fun _ _ => (-5)%R) (fun _ k => if Nat.eqb k 0 then (-1)%R else 4%R) (fun _ _ => 2%R) (fun _ _ => 1%R) 0%R (fun _ => 0%nat) (fun _ _ => 0%nat).
Lemma ex_norms : forall tmp, let o := res_compute nrmR r_ex tmp in inf_norm_res_stat o = 3 /\ inf_norm_res_eq o = 5 /\ inf_norm_res_ineq o = 4 /\ inf_norm_res_comp o = 8.
Proof.
  intros tmp. cbv zeta. repeat split.
  - apply (largest_unique _ _ _ (stat_norm nrmR nrmR_max r_ex tmp)). split; [lra|]. split.
    + intros x (i & k & Hi & Hk & ->). cbn in Hi, Hk. assert (k = 0%nat) by lia. subst k. unfold stat_entry. cbn. assert (INR i <= 1) by (apply (le_INR i 1); lia). pose proof (pos_INR i). rewrite Rabs_pos_eq; lra.
    + right. exists 1%nat, 0%nat. cbn. repeat split; try lia. unfold stat_entry. cbn. rewrite Rabs_pos_eq; lra.
  - apply (largest_unique _ _ _ (eq_norm nrmR nrmR_max r_ex tmp)). split; [lra|]. split; [intros x (i & k & Hi & Hk & ->); cbn; rewrite Rabs_left; lra|].
    right. exists 0%nat, 0%nat. cbn. repeat split; try lia. rewrite Rabs_left; lra.
  - apply (largest_unique _ _ _ (ineq_norm_largest nrmR r_ex tmp)). split; [lra|]. split; [intros x (i & k & Hi & Hk & ->); cbn; destruct (k =? 0)%nat; lra|].
    right. exists 1%nat, 1%nat. cbn. repeat split; lia.
  - apply (largest_unique _ _ _ (comp_norm nrmR nrmR_max r_ex tmp eq_refl)). split; [lra|]. split; [intros x (i & k & Hi & Hk & ->); cbn; destruct (k =? 0)%nat; [rewrite Rabs_left|rewrite Rabs_pos_eq]; lra|].
    right. exists 1%nat, 1%nat. cbn. repeat split; try lia. rewrite Rabs_pos_eq; lra.
Qed.
(** a norm on doubles that propagates NaN *)
Definition nrmD (n : nat) (v : nat -> double) : double := loop n (fun k m => if isnan (v k) then v k else if flt m (fabs (v k)) then fabs (v k) else m) f0.
Lemma nrmD_nan : nan_norm nrmD.
Proof.
  intros n v. unfold nrmD. induction n as [|n IH]; cbn [loop]; [split; [discriminate|intros (k & Hk & _); lia]|]. set (m := loop n _ _) in *. clearbody m.
  destruct (isnan (v n)) eqn:E; [split; [intros _; exists n; auto|intros _; exact E]|].
  assert (B : (exists k, (k < S n)%nat /\ isnan (v k) = true) <-> (exists k, (k < n)%nat /\ isnan (v k) = true)). { split; intros (k & Hk & H); exists k; split; try exact H; [|lia]. destruct (Nat.eq_dec k n) as [->|]; [rewrite E in H; discriminate H|lia]. }
  rewrite B, <- IH. destruct (flt m (fabs (v n))) eqn:F; [|reflexivity]. apply flt_nn in F. destruct F as [F1 F2]. rewrite F1, F2. tauto.
Qed.
