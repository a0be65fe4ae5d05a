(** The penalty parameter of the funnel on IEEE doubles never becomes NaN or negative and never grows
    (the assertion at ocp_nlp_globalization_funnel.c:236 cannot fire). *)
From Coq Require Import ZArith List Bool Lia Reals Lra Psatz.
From Flocq Require Import Core IEEE754.BinarySingleNaN Relative.
From Verif Require Import FP FPProofs FPRound FPStep Arith SqpModel RtiModel FunnelModel FunnelProofs FunnelIeee FunnelWidth.
Import ListNotations.
Open Scope R_scope.

Lemma fin_nn (x : double) : is_finite x = true -> isnan x = false. Proof. destruct x; reflexivity || discriminate. Qed.

Section P.
Variables c e u nine : double.
Hypothesis consts : is_finite c = true /\ is_finite e = true /\ is_finite u = true /\ is_finite nine = true /\
  flt f0 c = true /\ fle c f1 = true /\ flt f0 e = true /\ fle e f1 = true /\ flt f0 u = true /\ fle u f1 = true /\ flt f0 nine = true /\
  fle dbl_tiny (fmul u dbl_tiny) = true.
Hypothesis Se : Bsign e = false.
Hypothesis Eu : fsub f1 e = u.
Hypothesis E9 : dcst 1 (-9) = nine.

Lemma unit_mul a p : is_finite a = true -> is_finite p = true -> flt f0 a = true -> fle a f1 = true ->
  is_finite (fmul a p) = true /\ (0 <= B2R p -> 0 <= B2R (fmul a p) <= B2R p) /\ (B2R p <= 0 -> B2R p <= B2R (fmul a p) <= 0).
Proof.
  intros Fa Fp A0 A1. apply (flt_fin f0 _ eq_refl Fa) in A0. apply (fle_fin _ _ Fa fin_f1) in A1. rewrite B2R_f1 in A1. rewrite B2R_f0 in A0.
  destruct (fmul_spec a p Fa Fp) as (_ & _ & S). pose proof (B2R_bound p). pose proof BIG_pos.
  destruct (Rle_lt_dec 0 (B2R p)) as [L|L].
  - assert (R1 : 0 <= rnd (B2R a * B2R p)) by (rewrite <- rnd_0; apply rnd_le, Rmult_le_pos; lra).
    assert (R2 : rnd (B2R a * B2R p) <= B2R p) by (rewrite <- (rnd_id p) at 2; apply rnd_le; nra).
    destruct S as [F E]; [lra|]. rewrite E. split; [exact F|]. split; intros; [lra|].
    assert (Ep : B2R p = 0) by lra. rewrite Ep in *. lra.
  - assert (R1 : rnd (B2R a * B2R p) <= 0) by (rewrite <- rnd_0; apply rnd_le; nra).
    assert (R2 : B2R p <= rnd (B2R a * B2R p)) by (rewrite <- (rnd_id p) at 1; apply rnd_le; nra).
    destruct S as [F E]; [lra|]. rewrite E. split; [exact F|]. split; intros; lra.
Qed.

(** u * p = 0 only for p = 0 *)
Lemma u_zero p : is_finite p = true -> B2R (fmul u p) = 0 -> B2R p = 0.
Proof.
  intros Fp H. destruct consts as (_ & _ & Fu & _ & _ & _ & _ & _ & U0 & U1 & _ & Ut).
  destruct (fmul_spec u p Fu Fp) as (_ & E & _). destruct (unit_mul u p Fu Fp U0 U1) as (F & _).
  rewrite er_fin in E by exact F. rewrite H in E.
  destruct B2R_tiny as [Ft Pt]. apply (flt_fin f0 _ eq_refl Ft) in Pt. rewrite B2R_f0 in Pt.
  destruct (fmul_spec u dbl_tiny Fu Ft) as (_ & E2 & _). apply fle_er in Ut. rewrite E2, (er_fin _ Ft) in Ut.
  apply (flt_fin f0 _ eq_refl Fu) in U0. rewrite B2R_f0 in U0.
  assert (Min : forall r, is_finite p = true -> B2R p = r -> r <> 0 -> B2R dbl_tiny <= Rabs r).
  { intros r _ <- Hr. assert (Et : B2R dbl_tiny = bpow radix2 (-1074)).
    { destruct (B2R_fz2 1 (-1074)) as [_ Q]; [reflexivity|lia|lia|]. unfold dbl_tiny. rewrite Q. apply Rmult_1_l. }
    rewrite Et. apply (abs_B2R_ge_emin 53 1024). destruct p; try reflexivity; try discriminate Fp. exfalso; apply Hr; reflexivity. }
  destruct (Req_dec (B2R p) 0) as [Z|Z]; [exact Z|]. exfalso. specialize (Min _ Fp eq_refl Z).
  destruct (Rle_lt_dec 0 (B2R p)) as [L|L].
  - rewrite Rabs_pos_eq in Min by exact L.
    assert (crnd (B2R u * B2R dbl_tiny) <= crnd (B2R u * B2R p)) by (apply crnd_le, Rmult_le_compat_l; lra). lra.
  - rewrite Rabs_left in Min by exact L.
    assert (M : crnd (B2R u * B2R dbl_tiny) <= crnd (- (B2R u * B2R p))) by (apply crnd_le; nra).
    assert (O : crnd (- (B2R u * B2R p)) = - crnd (B2R u * B2R p)).
    { rewrite !crnd_in, ?rnd_opp; try reflexivity; rewrite ?rnd_opp;
        destruct (fmul_spec u p Fu Fp) as (_ & Q & _); rewrite er_fin in Q by exact F; rewrite H in Q; unfold crnd in Q;
        pose proof BIG_pos; (split; [destruct (Rle_lt_dec (rnd (B2R u * B2R p)) (-BIG)) as [K|K]|destruct (Rle_lt_dec BIG (rnd (B2R u * B2R p))) as [K|K]]);
        try lra; try (rewrite (crnd_lo _ K) in E; lra); try (rewrite (crnd_hi _ K) in E; lra).
      - destruct (Rle_lt_dec BIG (rnd (B2R u * B2R p))) as [K2|K2]; [rewrite (crnd_hi _ K2) in E|]; lra.
      - destruct (Rle_lt_dec (rnd (B2R u * B2R p)) (-BIG)) as [K2|K2]; [rewrite (crnd_lo _ K2) in E|]; lra. }
    lra.
Qed.

Lemma fdiv_by_zero (n : double) s : is_finite n = true -> B2R n <> 0 -> isnan (fdiv n (B754_zero s)) = false.
Proof. destruct n as [s1|s1| |s1 m1 q1 Hm1]; intros F H; [exfalso; apply H; reflexivity|discriminate F|discriminate F|reflexivity]. Qed.
Lemma fdiv_by_inf (n : double) s : is_finite n = true -> isnan (fdiv n (B754_infinity s)) = false.
Proof. destruct n as [s1|s1| |s1 m1 q1 Hm1]; intros F; [reflexivity|discriminate F|discriminate F|reflexivity]. Qed.
Lemma B2R_zero_inv (d : double) : is_finite d = true -> B2R d = 0 -> exists s, d = B754_zero s.
Proof.
  destruct d as [s|s| |s m q Hm]; intros F Z; [exists s; reflexivity|discriminate F|discriminate F|].
  exfalso. change (F2R (Float radix2 (cond_Zopp s (Zpos m)) q) = 0) in Z. apply eq_0_F2R in Z. destruct s; discriminate Z.
Qed.
Lemma not_fin_inv (d : double) : is_finite d = false -> isnan d = false -> exists s, d = B754_infinity s.
Proof. destruct d as [s|s| |s m q Hm]; intros F Z; try discriminate F; try discriminate Z. exists s; reflexivity. Qed.

Lemma div_not_nan (n d : double) : is_finite n = true -> isnan d = false -> (B2R d = 0 -> is_finite d = true -> B2R n <> 0) -> isnan (fdiv n d) = false.
Proof.
  intros Fn Nd H. destruct (is_finite d) eqn:Fd.
  - destruct (Req_dec (B2R d) 0) as [Z|Z]; [|destruct (fdiv_spec n d Fn Z) as (K & _); exact K].
    specialize (H Z eq_refl). destruct (B2R_zero_inv d Fd Z) as [s ->]. exact (fdiv_by_zero n s Fn H).
  - destruct (not_fin_inv d Fd Nd) as [s ->]. exact (fdiv_by_inf n s Fn).
Qed.

Lemma fmul_nan_r (x : double) : isnan (fmul x B754_nan) = true.
Proof. destruct x; reflexivity. Qed.
Lemma fadd_nan_l (x : double) : isnan (fadd B754_nan x) = true.
Proof. destruct x; reflexivity. Qed.
Lemma isnan_eq (x : double) : isnan x = true -> x = B754_nan.
Proof. destruct x; intros H; discriminate H || reflexivity. Qed.
Lemma flt_0_zero s : flt f0 (B754_zero s) = false. Proof. destruct s; reflexivity. Qed.
Lemma fmul_inf_r (x : double) s : is_finite x = true -> Bsign x = false -> flt f0 x = true -> fmul x (B754_infinity s) = B754_infinity s.
Proof.
  destruct x as [s1|s1| |s1 m1 q1 Hm1]; intros F S P; try discriminate F; [rewrite flt_0_zero in P; discriminate P|].
  cbn in S. subst s1. destruct s; reflexivity.
Qed.
Lemma fadd_inf_fin (x : double) s : is_finite x = true -> fadd (fopp (B754_infinity s)) x = B754_infinity (negb s).
Proof. destruct x; intros F; try discriminate F; reflexivity. Qed.
Lemma fadd_inf_l (x : double) s : is_finite x = true -> fadd (B754_infinity s) x = B754_infinity s.
Proof. destruct x; intros F; try discriminate F; reflexivity. Qed.
Lemma fadd_nan_fin (x : double) : isnan (fadd (fopp B754_nan) x) = true.
Proof. destruct x; reflexivity. Qed.
Lemma nan_not_fin (x : double) : isnan x = true -> is_finite x = false.
Proof. destruct x; intros H; discriminate H || reflexivity. Qed.
Lemma inf_lt_irrefl s : flt (B754_infinity s) (B754_infinity s) = false.
Proof. destruct s; reflexivity. Qed.
Lemma fopp_fin (x : double) : is_finite x = true -> is_finite (fopp x) = true.
Proof. destruct x; intros F; discriminate F || reflexivity. Qed.
Lemma add_inf_r x s : isnan (fadd x (B754_infinity s)) = true \/ fadd x (B754_infinity s) = B754_infinity s.
Proof. destruct x as [s1|s1| |s1 m1 q1 Hm1]; [right; reflexivity| |left; reflexivity|right; reflexivity].
  destruct s1, s; (left; reflexivity) || (right; reflexivity). Qed.

Variable o : fopts dbl.
Hypothesis Ho1 : fo_eta o = e.
Hypothesis Ho2 : fo_contraction o = c.

Lemma penalty_ok pen po pi : fle f0 pen = true -> is_finite pen = true ->
  is_finite (update_penalty o pen po pi) = true /\ fle f0 (update_penalty o pen po pi) = true /\
  fle (update_penalty o pen po pi) pen = true.
Proof.
  intros P0 Fp. assert (Np := fin_nn _ Fp).
  assert (Keep : is_finite pen = true /\ fle f0 pen = true /\ fle pen pen = true) by (auto using fle_refl).
  unfold update_penalty. rewrite Ho1, Ho2. 
  set (po' := if _ && _ then _ else po). clearbody po'. clear po. rename po' into po.
  destruct consts as (Fc & Fe & Fu & F9 & C0 & C1 & E0 & E1 & U0 & U1 & N0 & Ut).
  change (@nmul dbl) with fmul. change (@nadd dbl) with fadd. change (@ndiv dbl) with fdiv. change (@nsub dbl) with fsub.
  change (@nopp dbl) with fopp. change (@nltb dbl) with flt. change (@n0 dbl) with f0. change (@n1 dbl) with f1. change (@ncst dbl) with dcst.
  rewrite Eu, E9.
  destruct (flt (fadd (fmul pen po) pi) (fmul e pi)) eqn:Hc; [|exact Keep].
  destruct (flt_nn _ _ Hc) as [Hn1 Hn2].
  apply (fle_fin f0 _ eq_refl Fp) in P0. rewrite B2R_f0 in P0.
  (* pi is finite *)
  assert (Fpi : is_finite pi = true).
  { destruct pi as [s|s| |s m q Hm]; try reflexivity; [exfalso|rewrite fmul_nan_r in Hn2; discriminate Hn2].
    destruct (add_inf_r (fmul pen po) s) as [K|K]; [congruence|]. rewrite K in Hc.
    rewrite (fmul_inf_r e s Fe Se E0), inf_lt_irrefl in Hc. discriminate Hc. }
  destruct (unit_mul c pen Fc Fp C0 C1) as (Fa & A1 & _). specialize (A1 P0).
  destruct (unit_mul u pi Fu Fpi U0 U1) as (Fn & _).
  set (b := fdiv (fmul u pi) (fadd (fopp po) nine)).
  assert (Nb : isnan b = false).
  { unfold b. apply div_not_nan; [exact Fn| |].
    - (* denominator is not NaN *)
      destruct (is_finite po) eqn:Fpo.
      + assert (Fo : is_finite (fopp po) = true) by (apply fopp_fin; exact Fpo).
        apply (fadd_spec _ _ Fo F9).
      + assert (Npo : isnan po = false).
        { destruct po; try reflexivity; try discriminate Fpo. exfalso. rewrite (isnan_eq _ (fmul_nan_r pen)), fadd_nan_l in Hn1. discriminate Hn1. }
        destruct (not_fin_inv po Fpo Npo) as [s ->]. rewrite (fadd_inf_fin _ _ F9). reflexivity.
    - intros Z Fd Hn. apply (u_zero pi Fpi) in Hn.
      (* then po > 0 and the test cannot have succeeded *)
      assert (Fpo : is_finite po = true).
      { destruct po as [s|s| |s m q Hm]; try reflexivity; exfalso.
        - rewrite (fadd_inf_fin _ _ F9) in Fd. discriminate Fd.
        - rewrite (nan_not_fin _ (fadd_nan_fin nine)) in Fd. discriminate Fd. }
      assert (Fo : is_finite (fopp po) = true) by (apply fopp_fin; exact Fpo).
      destruct (fadd_spec _ _ Fo F9) as (_ & Ed & _). rewrite er_fin in Ed by exact Fd. rewrite Z in Ed.
      apply (flt_fin f0 _ eq_refl F9) in N0. rewrite B2R_f0 in N0.
      assert (Hpo : 0 < B2R po).
      { destruct (Rle_lt_dec (B2R po) 0) as [L|L]; [exfalso|exact L].
        unfold fopp in Ed. rewrite B2R_Bopp in Ed.
        assert (K : B2R nine <= crnd (- B2R po + B2R nine)) by (apply crnd_ge_f; lra). lra. }
      (* pen * po >= 0 *)
      destruct (fmul_spec pen po Fp Fpo) as (Nx & Ex & Sx).
      assert (X0 : 0 <= er (fmul pen po)) by (rewrite Ex; apply crnd_ge0, Rmult_le_pos; lra).
      destruct (unit_mul e pi Fe Fpi E0 E1) as (Fr & R1 & R2).
      assert (Er : B2R (fmul e pi) = 0) by (specialize (R1 ltac:(lra)); lra).
      apply flt_er in Hc. rewrite (er_fin _ Fr), Er in Hc.
      destruct (is_finite (fmul pen po)) eqn:Fx.
      + destruct (fadd_spec _ _ Fx Fpi) as (_ & Ea & _). rewrite Ea in Hc. rewrite er_fin in X0 by exact Fx.
        assert (0 <= crnd (B2R (fmul pen po) + B2R pi)) by (apply crnd_ge0; lra). lra.
      + pose proof BIG_pos. destruct (not_fin_inv _ Fx Nx) as [s Q]. rewrite Q in X0, Hc. destruct s; [cbn in X0; lra|].
        rewrite (fadd_inf_l _ _ Fpi) in Hc. cbn in Hc. lra. }
  assert (Zmax : forall r, isnan r = false -> fle r pen = true ->
     is_finite (if flt r f0 then f0 else r) = true /\ fle f0 (if flt r f0 then f0 else r) = true /\ fle (if flt r f0 then f0 else r) pen = true).
  { intros r Nr Hr. destruct (flt r f0) eqn:L.
    - split; [reflexivity|]. split; [reflexivity|]. apply fle_fin; [reflexivity|exact Fp|]. rewrite B2R_f0. exact P0.
    - assert (K : fle f0 r = true) by (apply nlt_le; auto; reflexivity).
      split; [apply (fin_between r f0 pen); auto|auto]. }
  assert (Ka : fle (fmul c pen) pen = true) by (apply fle_fin; [exact Fa|exact Fp|lra]).
  unfold nmax, nmin. change (@nltb dbl) with flt. fold b.
  destruct (flt (fmul c pen) b) eqn:Lb; apply Zmax; auto using fin_nn.
  apply fle_trans with (2 := Ka). apply nlt_le; auto using fin_nn.
Qed.
End P.

Lemma penalty_consts : let c := dcst 5 (-1) in let e := dcst 1 (-6) in let u := fsub f1 e in let nine := dcst 1 (-9) in
  is_finite c = true /\ is_finite e = true /\ is_finite u = true /\ is_finite nine = true /\
  flt f0 c = true /\ fle c f1 = true /\ flt f0 e = true /\ fle e f1 = true /\ flt f0 u = true /\ fle u f1 = true /\ flt f0 nine = true /\
  fle dbl_tiny (fmul u dbl_tiny) = true.
Proof. repeat split; vm_compute; reflexivity. Qed.

Section C57.
Variable o : fopts dbl.
Hypothesis Ho1 : fo_eta o = dcst 1 (-6).
Hypothesis Ho2 : fo_contraction o = dcst 5 (-1).
Lemma funnel_penalty pen po pi : fle f0 pen = true -> is_finite pen = true ->
  is_finite (update_penalty o pen po pi) = true /\ fle f0 (update_penalty o pen po pi) = true /\
  fle (update_penalty o pen po pi) pen = true.
Proof.
  apply (penalty_ok (dcst 5 (-1)) (dcst 1 (-6)) (fsub f1 (dcst 1 (-6))) (dcst 1 (-9)) penalty_consts
    ltac:(vm_compute; reflexivity) eq_refl eq_refl o Ho1 Ho2).
Qed.

Variable iterate : Type.
Notation gstate := (gstate dbl iterate).
Lemma run_penalty fuel (pick : gstate -> direction dbl iterate) steps : forall (s s' : gstate) st,
  fle f0 (g_mult s) = true -> is_finite (g_mult s) = true ->
  funnel_run o fuel steps pick s = Some (s', st) ->
  is_finite (g_mult s') = true /\ fle f0 (g_mult s') = true /\ fle (g_mult s') (g_mult s) = true.
Proof.
  induction steps as [|k IH]; intros s s' st P F H; cbn [funnel_run] in H.
  - injection H as <- <-. auto using fle_refl, fin_nn.
  - destruct (funnel_step o fuel (pick s) s) as [[s1 st1]|] eqn:E; [|discriminate H].
    apply step_spec in E. destruct E as [E _].
    destruct (funnel_penalty (g_mult s) (d_pred_obj (pick s)) (d_pred_inf (pick s)) P F) as (Q1 & Q2 & Q3).
    rewrite <- E in Q1, Q2, Q3.
    destruct (Z.eqb st1 ACADOS_SUCCESS); [|injection H as <- <-; auto].
    destruct (IH _ _ _ Q2 Q1 H) as (R1 & R2 & R3). split; [exact R1|]. split; [exact R2|]. apply fle_trans with (1 := R3). exact Q3.
Qed.
(** the multiplier starts at one (ocp_nlp_sqp.c:517) *)
Lemma funnel_solve_penalty fuel steps (pick : gstate -> direction dbl iterate) cost inf (s s' : gstate) st :
  funnel_solve o fuel steps pick cost inf s = Some (s', st) ->
  is_finite (g_mult s') = true /\ fle f0 (g_mult s') = true /\ fle (g_mult s') f1 = true.
Proof. intros H. apply run_penalty in H; [exact H|reflexivity|reflexivity]. Qed.
End C57.
