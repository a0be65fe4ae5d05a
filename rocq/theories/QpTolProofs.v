From Coq Require Import ZArith List Bool Reals Lra Lia.
From Flocq Require Import IEEE754.BinarySingleNaN.
From Verif Require Import FP FPProofs Arith QpTolModel.
Import ListNotations.
Open Scope R_scope.

Definition largest (res : tols real) : R := Rmax (res KStat) (Rmax (res KEq) (Rmax (res KIneq) (res KComp))).

Lemma c2 : @ncst real 1 (-2) = 1 / 100.
Proof. cbn. unfold rcst; cbn. lra. Qed.
Lemma c4 : @ncst real 1 (-4) = 1 / 10000.
Proof. cbn. unfold rcst; cbn. lra. Qed.
Lemma c5 : @ncst real 1 (-5) = 1 / 100000.
Proof. cbn. unfold rcst; cbn. lra. Qed.

Lemma reduced_real rf (res : tols real) k : reduced (A := real) rf res k = Rmin (rf * res k) (1 / 100).
Proof. unfold reduced. rewrite nmin_real, c2. reflexivity. Qed.

Lemma min_max_mult rf a b c : 0 <= rf -> Rmax (Rmin (rf * a) c) (Rmin (rf * b) c) = Rmin (rf * Rmax a b) c.
Proof.
  intros H. unfold Rmax, Rmin.
  destruct (Rle_dec (rf * a) c), (Rle_dec (rf * b) c), (Rle_dec a b); repeat (match goal with |- context [Rle_dec ?x ?y] => destruct (Rle_dec x y) end);
    try lra; nra.
Qed.

Lemma joint_real rf (res : tols real) : 0 <= rf -> joint (A := real) rf res = Rmin (rf * largest res) (1 / 100).
Proof.
  intros H. unfold joint. rewrite !nmax_real, !reduced_real, !min_max_mult by exact H. reflexivity.
Qed.

Lemma formula rf sf (tol res : tols real) k : 0 <= rf ->
  adaptive (A := real) rf sf tol res k = Rmax (sf * tol k) (Rmin (rf * largest res) (1 / 100)).
Proof. intros H. unfold adaptive. rewrite nmax_real, joint_real by exact H. reflexivity. Qed.

Lemma largest_ge (res : tols real) k : res k <= largest res.
Proof.
  unfold largest.
  pose proof (Rmax_l (res KStat) (Rmax (res KEq) (Rmax (res KIneq) (res KComp)))).
  pose proof (Rmax_r (res KStat) (Rmax (res KEq) (Rmax (res KIneq) (res KComp)))).
  pose proof (Rmax_l (res KEq) (Rmax (res KIneq) (res KComp))).
  pose proof (Rmax_r (res KEq) (Rmax (res KIneq) (res KComp))).
  pose proof (Rmax_l (res KIneq) (res KComp)). pose proof (Rmax_r (res KIneq) (res KComp)).
  destruct k; lra.
Qed.
Lemma largest_is (res : tols real) : exists k, largest res = res k.
Proof.
  unfold largest, Rmax. repeat (match goal with |- context [Rle_dec ?x ?y] => destruct (Rle_dec x y) end); eexists; reflexivity.
Qed.

Theorem progress rf sf (tol res : tols real) :
  0 <= rf < 1 -> 0 <= sf < 1 -> (forall k, 0 < tol k) -> (forall j k, rf * (sf * tol j) < tol k) ->
  (exists k, tol k <= res k) -> exists k, adaptive (A := real) rf sf tol res k < res k.
Proof.
  intros Hrf Hsf Ht Hb [i Hi].
  destruct (largest_is res) as [k Hk]. pose proof (largest_ge res i) as Hik. rewrite Hk in Hik.
  pose proof (Ht i) as Hti. pose proof (Ht k) as Htk.
  destruct (Rlt_le_dec (sf * tol k) (res k)) as [H|H].
  - exists k. rewrite formula, Hk by lra. apply Rmax_lub_lt; [exact H|].
    apply Rle_lt_trans with (rf * res k); [apply Rmin_l|]. nra.
  - exists i. rewrite formula, Hk by lra. apply Rmax_lub_lt.
    + nra.
    + apply Rle_lt_trans with (rf * res k); [apply Rmin_l|].
      pose proof (Hb k i). pose proof (Rmult_le_compat_l rf _ _ (proj1 Hrf) H). lra.
Qed.

(** unequal tolerances: tol_eq a hundred thousand times tol_stat *)
Definition uneven : tols real := fun k => match k with KEq => 1 / 10 | _ => 1 / 1000000 end.
Definition uneven_res : tols real := fun k => match k with KStat => 1 / 100000 | KEq => 5 / 1000 | _ => 0 end.
Lemma stall : exists tol res : tols real, (forall k, 0 < tol k) /\ (exists k, tol k < res k) /\
  (forall k, res k <= adaptive (A := real) (1 / 10)%R (1 / 10)%R tol res k).
Proof.
  exists uneven, uneven_res. split; [|split].
  - intros []; unfold uneven; lra.
  - exists KStat; unfold uneven, uneven_res; lra.
  - intros k. rewrite formula by lra.
    assert (L : largest uneven_res = 5 / 1000).
    { unfold largest, uneven_res. rewrite (Rmax_left 0 0), (Rmax_left (5 / 1000) 0), Rmax_right by lra. reflexivity. }
    rewrite L, Rmin_left by lra.
    destruct k; unfold uneven, uneven_res;
      match goal with |- _ <= Rmax ?a ?b => pose proof (Rmax_l a b); pose proof (Rmax_r a b); lra end.
Qed.

(** within a factor of the requested accuracy once the residuals are small *)
Lemma near rf sf (tol res : tols real) : 0 <= rf -> (forall j k, rf * res j <= sf * tol k) ->
  forall k, adaptive (A := real) rf sf tol res k = sf * tol k.
Proof.
  intros H Hr k. rewrite formula by exact H. apply Rmax_left.
  apply Rle_trans with (rf * largest res); [apply Rmin_l|]. destruct (largest_is res) as [j ->]. apply Hr.
Qed.

(** * binary64 *)
Lemma nmin_cap_not_nan (a c : double) : isnan c = false -> isnan (nmin (A := dbl) a c) = false.
Proof.
  intros H. unfold nmin. cbn [nltb dbl]. destruct (flt a c) eqn:E; [|exact H].
  destruct a; try reflexivity. destruct c; discriminate E.
Qed.
Lemma nmax_not_nan (a b : double) : isnan b = false -> isnan (nmax (A := dbl) a b) = false.
Proof.
  intros H. unfold nmax. cbn [nltb dbl]. destruct (flt b a) eqn:E; [|exact H].
  destruct a; try reflexivity. destruct b; discriminate E.
Qed.
Lemma cap_not_nan : isnan (@ncst dbl 1 (-2)) = false.
Proof. vm_compute. reflexivity. Qed.
Lemma not_nan (rf sf : double) (tol res : tols dbl) k : isnan (adaptive (A := dbl) rf sf tol res k) = false.
Proof.
  unfold adaptive. apply nmax_not_nan. unfold joint, reduced.
  do 3 apply nmax_not_nan. apply nmin_cap_not_nan, cap_not_nan.
Qed.

Lemma nmax_ge_r (a b : double) : isnan b = false -> fle b (nmax (A := dbl) a b) = true.
Proof.
  intros H. unfold nmax. cbn [nltb dbl]. destruct (flt b a) eqn:E; [apply flt_fle, E|apply fle_refl, H].
Qed.
Lemma nmax_ge_l (a b : double) : isnan a = false -> isnan b = false -> fle a (nmax (A := dbl) a b) = true.
Proof.
  intros Ha Hb. unfold nmax. cbn [nltb dbl]. destruct (flt b a) eqn:E; [apply fle_refl, Ha|].
  apply fle_spec; [exact Ha|exact Hb|]. apply (flt_false b a Hb Ha E).
Qed.
Lemma fmul_nan (a b : double) : isnan b = true -> isnan (fmul a b) = true.
Proof. destruct b; try discriminate. intros _. destruct a; reflexivity. Qed.

Lemma reduced_nn (rf : double) (res : tols dbl) k : isnan (reduced (A := dbl) rf res k) = false.
Proof. apply nmin_cap_not_nan, cap_not_nan. Qed.
Lemma joint_ge (rf : double) (res : tols dbl) k : fle (reduced (A := dbl) rf res k) (joint (A := dbl) rf res) = true.
Proof.
  unfold joint.
  pose proof (reduced_nn rf res KStat) as N1. pose proof (reduced_nn rf res KEq) as N2.
  pose proof (reduced_nn rf res KIneq) as N3. pose proof (reduced_nn rf res KComp) as N4.
  set (a := reduced (A := dbl) rf res KStat) in *. set (b := reduced (A := dbl) rf res KEq) in *.
  set (c := reduced (A := dbl) rf res KIneq) in *. set (d := reduced (A := dbl) rf res KComp) in *.
  pose proof (nmax_not_nan c d N4) as M3. pose proof (nmax_not_nan b _ M3) as M2.
  destruct k; fold a b c d.
  - apply nmax_ge_l; assumption.
  - eapply fle_trans; [|apply nmax_ge_r; exact M2]. apply nmax_ge_l; assumption.
  - eapply fle_trans; [|apply nmax_ge_r; exact M2]. eapply fle_trans; [|apply nmax_ge_r; exact M3]. apply nmax_ge_l; assumption.
  - eapply fle_trans; [|apply nmax_ge_r; exact M2]. eapply fle_trans; [|apply nmax_ge_r; exact M3]. apply nmax_ge_r; assumption.
Qed.
Lemma joint_nn (rf : double) (res : tols dbl) : isnan (joint (A := dbl) rf res) = false.
Proof. unfold joint. do 3 apply nmax_not_nan. apply reduced_nn. Qed.

(** a NaN residual asks for the loosest tolerance *)
Lemma nan_loose (rf sf : double) (tol res : tols dbl) j : isnan (res j) = true ->
  forall k, fle (dcst 1 (-2)) (adaptive (A := dbl) rf sf tol res k) = true.
Proof.
  intros H k. eapply fle_trans; [|apply nmax_ge_r, joint_nn].
  eapply fle_trans; [|apply (joint_ge rf res j)]. unfold reduced, nmin. cbn [nltb dbl nmul].
  rewrite flt_nan_l by (apply fmul_nan, H). apply fle_refl, cap_not_nan.
Qed.

(** * setters *)
Lemma qpoases_step (t : tols real) (s : R) :
  let r := in_order R (@qpoases_set1 real) t s in r <= s /\ forall k, r <= t k.
Proof.
  cbv zeta. unfold in_order, qpoases_set1. rewrite !nmin_real.
  set (a := Rmin s (t KStat)). set (b := Rmin a (t KEq)). set (c := Rmin b (t KIneq)). set (d := Rmin c (t KComp)).
  pose proof (Rmin_l s (t KStat)). pose proof (Rmin_r s (t KStat)). pose proof (Rmin_l a (t KEq)). pose proof (Rmin_r a (t KEq)).
  pose proof (Rmin_l b (t KIneq)). pose proof (Rmin_r b (t KIneq)). pose proof (Rmin_l c (t KComp)). pose proof (Rmin_r c (t KComp)).
  fold a in H, H0. fold b in H1, H2. fold c in H3, H4. fold d in H5, H6.
  split; [lra|]. intros []; lra.
Qed.
Lemma qpoases_tightest rf sf (tol : tols real) (hist : list (tols real)) : forall s : R,
  let r := iterations R (@qpoases_set1 real) rf sf tol hist s in
  r <= s /\ forall res, In res hist -> forall k, r <= adaptive (A := real) rf sf tol res k.
Proof.
  induction hist as [|res hist IH]; intros s; cbn [iterations fold_left].
  - split; [apply Rle_refl|]. intros ? [].
  - cbv zeta in *. destruct (IH (in_order R (@qpoases_set1 real) (adaptive (A := real) rf sf tol res) s)) as [H1 H2].
    destruct (qpoases_step (adaptive (A := real) rf sf tol res) s) as [H3 H4].
    unfold iterations in *. cbn [fold_left]. split; [lra|].
    intros r' [<-|Hin] k; [|apply H2, Hin]. apply Rle_trans with (2 := H4 k). exact H1.
Qed.
Lemma qpoases_never_loose : exists tol res : tols real,
  forall k, iterations R (@qpoases_set1 real) (1 / 10)%R (1 / 10)%R tol [res] (ncst (a := real) 1 (-4)) < adaptive (A := real) (1 / 10)%R (1 / 10)%R tol res k.
Proof.
  exists (fun _ => 1 / 1000000)%R, (fun _ => 1)%R. intros k.
  destruct (qpoases_tightest (1 / 10)%R (1 / 10)%R (fun _ => 1 / 1000000)%R [(fun _ => 1)%R] (ncst (a := real) 1 (-4))) as [H _].
  eapply Rle_lt_trans; [exact H|]. rewrite c4, formula by lra.
  apply Rlt_le_trans with (1 / 100); [lra|]. eapply Rle_trans; [|apply Rmax_r].
  unfold largest. cbv beta. rewrite !(Rmax_left 1 1) by lra. rewrite Rmin_right; lra.
Qed.
Lemma osqp_floor (t : tols real) s : 1 / 100000 <= o_eps_rel (in_order (osqp real) osqp_set1 t s).
Proof. unfold in_order. cbn [osqp_set1 o_eps_rel]. rewrite nmax_real, c5. apply Rmax_r. Qed.
Lemma osqp_fields (t : tols real) s : let r := in_order (osqp real) osqp_set1 t s in
  o_eps_rel r = Rmax (t KStat) (1 / 100000) /\ o_eps_dual_inf r = Rmax (t KStat) (1 / 100000) /\ o_eps_prim_inf r = t KIneq /\
  (o_polish r = true <-> t KStat <= 1 / 1000 \/ o_polish s = true).
Proof.
  unfold in_order. cbn [osqp_set1 o_eps_rel o_eps_dual_inf o_eps_prim_inf o_polish]. rewrite !nmax_real, !c5. split; [reflexivity|]. split; [reflexivity|]. split; [reflexivity|].
  replace (@ncst real 1 (-3)) with (1 / 1000) by (cbn; unfold rcst; cbn; lra). cbn [nleb real].
  destruct (Rleb_spec (t KStat) (1 / 1000)); split; intros H; auto. destruct H; [contradiction|assumption].
Qed.
Lemma osqp_forgets (A : arith) (t t' : tols A) s : t KStat = t' KStat -> t KIneq = t' KIneq ->
  in_order (osqp A) osqp_set1 t s = in_order (osqp A) osqp_set1 t' s.
Proof. intros H1 H2. unfold in_order. rewrite H1, H2. reflexivity. Qed.
Lemma clarabel_forgets (A : arith) (t t' : tols A) s : t KStat = t' KStat -> t KIneq = t' KIneq ->
  in_order (clarabel A) clarabel_set1 t s = in_order (clarabel A) clarabel_set1 t' s.
Proof. intros H1 H2. unfold in_order. rewrite H1, H2. reflexivity. Qed.
Lemma clarabel_kept (A : arith) (t : tols A) s :
  let r := in_order (clarabel A) clarabel_set1 t s in c_tol_gap_abs r = t KStat /\ c_tol_infeas_abs r = t KIneq.
Proof. split; reflexivity. Qed.
Lemma daqp_only (A : arith) (t : tols A) s : in_order (num A) daqp_set1 t s = t KIneq.
Proof. reflexivity. Qed.

(** a case: default factors, tolerances 1e-6, residuals far from convergence in the equalities only *)
Example some_case : forall k, adaptive (A := real) (1 / 10)%R (1 / 10)%R (fun _ => 1 / 1000000)%R (fun k => match k with KEq => 1 / 1000 | _ => 1 / 10000000 end)%R k = 1 / 10000.
Proof.
  intros k. rewrite formula by lra. unfold largest.
  rewrite (Rmax_left (1 / 10000000) (1 / 10000000)), (Rmax_left (1 / 1000)), (Rmax_right (1 / 10000000)), Rmin_left, Rmax_right by lra. lra.
Qed.
