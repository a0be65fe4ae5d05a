(** Facts about the merit-function and DDP line searches. *)
From Coq Require Import ZArith List Bool Lia Reals Lra Psatz.
From Flocq Require Import Core IEEE754.BinarySingleNaN.
From Verif Require Import FP FPProofs FPRound FPStep Arith SqpModel RtiModel FunnelModel FunnelIeee FunnelWidth FunnelPenalty FunnelL1 MeritModel.
Import ListNotations.
Open Scope R_scope.

(** *** the loop, any number type *)
Section G.
Variable A : arith.
Variable o : mopts A.
Lemma merit_loop_spec n mer m0 dm : forall a m1 st a',
  merit_loop o n mer m0 dm a m1 = Some (st, a') ->
  (st = ACADOS_SUCCESS /\ nltb (mer a') (nadd m0 (nmul (nmul (mo_eps o) dm) a')) = true /\ finite (mer a') = true) \/
  (st = ACADOS_MINSTEP /\ nltb (mo_alpha_min o) (nmul a' (mo_alpha_reduction o)) = false) \/
  (st = ACADOS_NAN_DETECTED /\ nltb (mo_alpha_min o) (nmul a' (mo_alpha_reduction o)) = false).
Proof.
  induction n as [|n IH]; intros a m1 st a' H; cbn [merit_loop] in H; [discriminate H|].
  destruct (nltb (mo_alpha_min o) _) eqn:E.
  - destruct (nltb (mer a) _ && finite (mer a)) eqn:E2.
    + injection H as <- <-. apply andb_prop in E2. left. auto.
    + apply IH in H. exact H.
  - injection H as <- <-. right. destruct (finite m1); auto.
Qed.

Variables iterate qpsol : Type.
(** a search that reports success was tested at the step it returns *)
Lemma merit_search_success n mer m0 g a : merit_search o n mer m0 g = Some (ACADOS_SUCCESS, a) ->
  finite (mer a) = true /\
  nltb (mer a) (nadd m0 (nmul (nmul (mo_eps o) (if mo_suff o then (if nltb n0 g then n0 else g) else n0)) a)) = true.
Proof. intros H. apply merit_loop_spec in H. destruct H as [(_ & H1 & H2)|[(H & _)|(H & _)]]; [auto|discriminate H|discriminate H]. Qed.

(** failure leaves the iterate and the reported step alone *)
Lemma merit_find_failure n (P : prob A iterate qpsol) it q s s' q' st :
  merit_find o n P it q s = Some (s', q', st) -> st <> ACADOS_SUCCESS ->
  ms_out s' = ms_out s /\ ms_step s' = ms_step s /\ ms_status s' = st /\ (st = ACADOS_QP_FAILURE \/ st = ACADOS_NAN_DETECTED).
Proof.
  unfold merit_find. intros H Hs.
  destruct (if mo_soc o then _ else _) as [[[[w q1] search] alpha] failed].
  destruct failed; [injection H as <- <- <-; cbn; auto|].
  destruct search; [|injection H as <- <- <-; contradiction].
  destruct (merit_search o n _ _ _) as [[st1 a]|]; [|discriminate H].
  destruct (Z.eqb st1 ACADOS_NAN_DETECTED); injection H as <- <- <-; [cbn; auto|contradiction].
Qed.
(** a step taken is along the (possibly corrected) direction, and its length is the one reported *)
Lemma merit_find_step n (P : prob A iterate qpsol) it q s s' q' :
  merit_find o n P it q s = Some (s', q', ACADOS_SUCCESS) ->
  ms_out s' = p_step P q' (ms_out s) (ms_step s') /\ ms_alpha s' = ms_step s' /\ ms_status s' = ms_status s /\
  ms_w s' = weights_at it (ms_w s) (p_duals P q').
Proof.
  unfold merit_find. intros H. destruct (mo_soc o).
  - unfold full_step in H.
    assert (W : forall w w' q, w = (if (it =? 0)%Z then weights_at it (ms_w s) w' else ms_w s) ->
      weights_at it w q = weights_at it (ms_w s) q).
    { intros w w' q0 ->. unfold weights_at. destruct (it =? 0)%Z; reflexivity. }
    destruct (negb _).
    + change ((ACADOS_NAN_DETECTED =? ACADOS_NAN_DETECTED)%Z) with true in H. cbn iota in H.
      destruct (merit_search o n _ _ _) as [[st1 a]|]; [|discriminate H].
      destruct (Z.eqb st1 ACADOS_NAN_DETECTED); injection H as <- <-; [discriminate|].
      cbn [ms_out ms_step ms_alpha ms_status ms_w]. repeat split. eapply W. reflexivity.
    + destruct (_ && _).
      * change ((ACADOS_SUCCESS =? ACADOS_NAN_DETECTED)%Z) with false in H. change ((ACADOS_SUCCESS =? ACADOS_SUCCESS)%Z) with true in H.
        cbn iota in H. injection H as <- <-. cbn. auto.
      * change ((ACADOS_MINSTEP =? ACADOS_NAN_DETECTED)%Z) with false in H. change ((ACADOS_MINSTEP =? ACADOS_SUCCESS)%Z) with false in H.
        cbn iota in H. destruct (p_soc P q (ms_out s)) as [q1 bad]. destruct bad; [discriminate H|].
        destruct (merit_search o n _ _ _) as [[st1 a]|]; [|discriminate H].
        destruct (Z.eqb st1 ACADOS_NAN_DETECTED); injection H as <- <-; [discriminate|].
        cbn [ms_out ms_step ms_alpha ms_status ms_w]. repeat split. eapply W. reflexivity.
  - destruct (merit_search o n _ _ _) as [[st1 a]|]; [|discriminate H].
    destruct (Z.eqb st1 ACADOS_NAN_DETECTED); injection H as <- <-; [discriminate|]. cbn. auto.
Qed.

(** *** DDP *)
Lemma ddp_loop_spec n (trial : iterate -> num A -> iterate * num A) pred : forall a s s' st,
  ddp_loop o n trial pred a s = Some (s', st) ->
  (st = ACADOS_SUCCESS /\ trial (ds_out s) (ds_step s') = (ds_out s', ds_cost s') /\ ds_alpha s' = ds_step s' /\
   ddp_ok o (ds_cost s) pred (ds_cost s') (ds_step s') = true) \/
  (st = ACADOS_MINSTEP /\ ds_out s' = ds_out s /\ ds_cost s' = ds_cost s /\ ds_step s' = ds_step s /\ ds_alpha s' = n0).
Proof.
  induction n as [|n IH]; intros a s s' st H; cbn [ddp_loop] in H; [discriminate H|].
  destruct (trial (ds_out s) a) as [x c] eqn:Et. destruct (ddp_ok o (ds_cost s) pred c a) eqn:Ea.
  - injection H as <- <-. left. cbn. auto.
  - destruct (nltb _ _); [injection H as <- <-; right; cbn; auto|]. apply IH in H. exact H.
Qed.
Lemma ddp_find_spec n (trial : iterate -> num A -> iterate * num A) qc s s' st :
  ddp_find o n trial qc s = Some (s', st) ->
  (st = ACADOS_SUCCESS /\ trial (ds_out s) (ds_step s') = (ds_out s', ds_cost s') /\ ds_alpha s' = ds_step s' /\
   ddp_ok o (ds_cost s) (nopp qc) (ds_cost s') (ds_step s') = true) \/
  (st = ACADOS_MINSTEP /\ ds_out s' = ds_out s /\ ds_cost s' = ds_cost s /\ ds_step s' = ds_step s /\ ds_alpha s' = n0).
Proof. apply ddp_loop_spec. Qed.
End G.

(** *** the DDP acceptance test on doubles *)
Lemma sub_le0 (x y : double) : fle (fsub x y) f0 = true -> fle x y = true.
Proof.
  intros H. destruct (fle_nn _ _ H) as [N _].
  destruct (is_finite x) eqn:Fx, (is_finite y) eqn:Fy.
  - apply fle_fin; auto. destruct (Rle_lt_dec (B2R x) (B2R y)) as [L|L]; [exact L|exfalso].
    destruct (fsub_spec x y Fx Fy) as (_ & E & _). apply fle_er in H. rewrite E in H. change (er f0) with (B2R f0) in H. rewrite B2R_f0 in H.
    destruct (level_of x) as [kx Ex]. destruct (level_of y) as [ky Ey].
    destruct B2R_tiny as [Ft _].
    assert (Et : B2R dbl_tiny = eta).
    { destruct (B2R_fz2 1 (-1074)) as [_ Q]; [reflexivity|lia|lia|]. unfold dbl_tiny. rewrite Q. rewrite Rmult_1_l. reflexivity. }
    pose proof eta_pos.
    assert (K : B2R dbl_tiny <= B2R x - B2R y).
    { rewrite Et, Ex, Ey in *. assert (Hk : (ky < kx)%Z) by (apply lt_IZR; nra).
      assert (Hk2 : IZR ky + 1 <= IZR kx) by (rewrite <- plus_IZR; apply IZR_le; lia). nra. }
    apply crnd_ge_f in K. lra.
  - destruct (isnan y) eqn:Ny; [apply isnan_eq in Ny; subst y; destruct x; discriminate N|].
    destruct (not_fin_inv y Fy Ny) as [s ->]. destruct s; [exfalso|].
    + destruct x as [s|s| |s m e Hm]; try discriminate Fx; discriminate H.
    + destruct x as [s|s| |s m e Hm]; try discriminate Fx; reflexivity.
  - destruct (isnan x) eqn:Nx; [apply isnan_eq in Nx; subst x; destruct y; discriminate N|].
    destruct (not_fin_inv x Fx Nx) as [s ->]. destruct s; [|exfalso].
    + destruct y as [s|s| |s m e Hm]; try discriminate Fy; reflexivity.
    + destruct y as [s|s| |s m e Hm]; try discriminate Fy; discriminate H.
  - destruct (isnan x) eqn:Nx; [apply isnan_eq in Nx; subst x; destruct y; discriminate N|].
    destruct (isnan y) eqn:Ny; [apply isnan_eq in Ny; subst y; destruct x; discriminate N|].
    destruct (not_fin_inv x Fx Nx) as [s ->]. destruct (not_fin_inv y Fy Ny) as [t ->].
    destruct s, t; try discriminate N; try discriminate H; reflexivity.
Qed.
Lemma ddp_ok_le (o : mopts dbl) c p t a : ddp_ok o c p t a = true -> fle t c = true.
Proof.
  unfold ddp_ok, nmin. change (@nsub dbl) with fsub. change (@nleb dbl) with fle. change (@nltb dbl) with flt. change (@n0 dbl) with f0.
  intros H. apply sub_le0. destruct (flt _ f0) eqn:E; [|exact H]. apply fle_trans with (1 := H). apply flt_fle. exact E.
Qed.
Lemma ddp_cost_dbl (o : mopts dbl) iterate n trial qc (s s' : dstate dbl iterate) :
  ddp_find o n trial qc s = Some (s', ACADOS_SUCCESS) ->
  fle (ds_cost s') (ds_cost s) = true /\ trial (ds_out s) (ds_step s') = (ds_out s', ds_cost s').
Proof.
  intros H. apply ddp_find_spec in H. destruct H as [(_ & H1 & _ & H2)|(H & _)]; [|discriminate H].
  split; [exact (ddp_ok_le _ _ _ _ _ H2)|exact H1].
Qed.
Lemma ddp_fail (A : arith) (o : mopts A) iterate n trial qc (s s' : dstate A iterate) st :
  ddp_find o n trial qc s = Some (s', st) -> st <> ACADOS_SUCCESS ->
  st = ACADOS_MINSTEP /\ ds_out s' = ds_out s /\ ds_cost s' = ds_cost s /\ ds_step s' = ds_step s /\ ds_alpha s' = n0.
Proof. intros H Hs. apply ddp_find_spec in H. destruct H as [(H & _)|H]; [contradiction|exact H]. Qed.
(** exact arithmetic: Armijo decrease, up to the constant 1e-18 *)
Lemma ddp_armijo_real (o : mopts real) iterate n trial qc (s s' : dstate real iterate) :
  ddp_find o n trial qc s = Some (s', ACADOS_SUCCESS) ->
  ds_cost s' <= ds_cost s /\ ds_cost s' <= ds_cost s - mo_eps o * ds_step s' * Rmax (- qc) 0 + / 10 ^ 18.
Proof.
  intros H. apply ddp_find_spec in H. destruct H as [(_ & _ & _ & H)|(H & _)]; [|discriminate H].
  unfold ddp_ok in H. rewrite nmin_real, nmax_real in H. cbn in H.
  destruct (Rleb_spec (ds_cost s' - ds_cost s) (Rmin (- mo_eps o * ds_step s' * Rmax (- qc) 0 + 1 / 1000000000000000000) 0)) as [L|L]; [|discriminate H].
  pose proof (Rmin_l (- mo_eps o * ds_step s' * Rmax (- qc) 0 + 1 / 1000000000000000000) 0) as L1.
  pose proof (Rmin_r (- mo_eps o * ds_step s' * Rmax (- qc) 0 + 1 / 1000000000000000000) 0) as L2.
  replace (/ 10 ^ 18) with (1 / 1000000000000000000) by lra. split; lra.
Qed.

(** *** termination on doubles *)
Section TERM.
Variable o : mopts dbl.
Hypothesis Hr0 : flt f0 (mo_alpha_reduction o) = true.
Hypothesis Hr1 : flt (mo_alpha_reduction o) f1 = true.
Hypothesis Ha : flt dbl_min (mo_alpha_min o) = true.

Lemma one_level : exists k, (0 <= k)%Z /\ B2R f1 = IZR k * eta.
Proof.
  destruct (level_of f1) as [k Ek]. exists k. split; [|exact Ek]. rewrite B2R_f1 in Ek. apply le_IZR. pose proof eta_pos.
  apply Rmult_le_reg_r with eta; [assumption|]. lra.
Qed.
Lemma ddp_loop_terminates iterate n : forall trial pred (s : dstate dbl iterate) a k, is_finite a = true -> 0 <= B2R a -> B2R a = IZR k * eta ->
  flt a (mo_alpha_min o) = false -> (k <= Z.of_nat n)%Z -> ddp_loop o (S n) trial pred a s <> None.
Proof.
  induction n as [|n IH]; intros trial pred s a k Fa Ha0 Ea El Hk;
    destruct (backtrack_level _ _ Hr0 Hr1 Ha a k Fa Ha0 Ea El) as (F & H0 & k' & E' & H); [exfalso; lia|].
  cbn [ddp_loop]; destruct (trial (ds_out s) a) as [x c]; destruct (ddp_ok o (ds_cost s) pred c a); [discriminate|].
  change (@nmul dbl) with fmul. change (@nltb dbl) with flt.
  destruct (flt (fmul a (mo_alpha_reduction o)) (mo_alpha_min o)) eqn:E2; [discriminate|].
  apply (IH _ _ _ _ k'); auto. lia.
Qed.
Lemma ddp_terminates iterate : exists n, forall trial qc (s : dstate dbl iterate), ddp_find o n trial qc s <> None.
Proof.
  destruct one_level as (k & Hk & Ek). exists (S (S (Z.to_nat k))). intros trial qc s. unfold ddp_find.
  destruct (flt f1 (mo_alpha_min o)) eqn:E.
  - cbn [ddp_loop]. destruct (trial (ds_out s) n1) as [x c]; destruct (ddp_ok o (ds_cost s) _ c _); [discriminate|].
    change (@nmul dbl) with fmul. change (@nltb dbl) with flt. change (@n1 dbl) with f1.
    replace (flt (fmul f1 (mo_alpha_reduction o)) (mo_alpha_min o)) with true; [discriminate|]. symmetry.
    apply fle_flt_trans with (2 := E). destruct (unit_fin _ Hr0 Hr1) as (Fr & R0 & R1).
    destruct (shrink f1 _ fin_f1 Fr ltac:(rewrite B2R_f1; lra) (Rlt_le _ _ R0) R1) as (F & [S1 S2] & _).
    apply fle_fin; [exact F|exact fin_f1|exact S2].
  - apply (ddp_loop_terminates _ _ _ _ _ _ k); [exact fin_f1|change (@n1 dbl) with f1; rewrite B2R_f1; lra|exact Ek|exact E|].
    rewrite Nat2Z.inj_succ, Z2Nat.id by exact Hk. lia.
Qed.
Lemma merit_loop_terminates n : forall mer m0 dm a m1 k, is_finite a = true -> 0 <= B2R a -> B2R a = IZR k * eta ->
  (k <= Z.of_nat n)%Z -> merit_loop o (S n) mer m0 dm a m1 <> None.
Proof.
  induction n as [|n IH]; intros mer m0 dm a m1 k Fa Ha0 Ea Hk; cbn [merit_loop];
    change (@nmul dbl) with fmul; change (@nltb dbl) with flt;
    (destruct (flt (mo_alpha_min o) (fmul a (mo_alpha_reduction o))) eqn:E; [|discriminate]);
    destruct (_ && _); try discriminate;
    (assert (El : flt a (mo_alpha_min o) = false);
    [ apply flt_asym; apply flt_fle_trans with (1 := E);
      destruct (unit_fin _ Hr0 Hr1) as (Fr & R0 & R1); destruct (shrink a _ Fa Fr Ha0 (Rlt_le _ _ R0) R1) as (F & [S1 S2] & _);
      apply fle_fin; [exact F|exact Fa|exact S2]|]);
    destruct (backtrack_level _ _ Hr0 Hr1 Ha a k Fa Ha0 Ea El) as (F & H0 & k' & E' & H).
  - exfalso. lia.
  - apply (IH mer m0 dm _ _ k'); auto. lia.
Qed.
Lemma merit_terminates : exists n, forall mer m0 g, merit_search o n mer m0 g <> None.
Proof.
  destruct one_level as (k & Hk & Ek). exists (S (Z.to_nat k)). intros mer m0 g. unfold merit_search.
  apply (merit_loop_terminates _ _ _ _ _ _ k); [exact fin_f1|change (@n1 dbl) with f1; rewrite B2R_f1; lra|exact Ek|].
  rewrite Z2Nat.id by exact Hk. lia.
Qed.
End TERM.
