(** Merit weights (C23) and the witnesses for the merit line search. *)
From Coq Require Import ZArith List Bool Lia Reals Lra Psatz.
From Flocq Require Import Core IEEE754.BinarySingleNaN.
From Verif Require Import FP FPProofs FPRound FPStep Arith SqpModel RtiModel FunnelModel FunnelIeee FunnelWidth FunnelPenalty FunnelL1 MeritModel MeritProofs.
Import ListNotations.
Open Scope R_scope.

Lemma er_inf s : er (B754_infinity s : double) = if s then - BIG else BIG. Proof. destruct s; reflexivity. Qed.
(** the sum of nonnegative doubles is at least each of them *)
Lemma add_ge (t w : double) : fle f0 t = true -> fle f0 w = true -> fle t (fadd t w) = true /\ fle w (fadd t w) = true.
Proof.
  intros Ht Hw. destruct (fle_nn _ _ Ht) as [_ Nt]. destruct (fle_nn _ _ Hw) as [_ Nw].
  destruct (is_finite t) eqn:Ft, (is_finite w) eqn:Fw.
  - apply (fle_fin f0 _ eq_refl Ft) in Ht. apply (fle_fin f0 _ eq_refl Fw) in Hw. rewrite B2R_f0 in *.
    destruct (fadd_spec t w Ft Fw) as (N & E & _).
    split; (apply fle_spec; [assumption|exact N|]; rewrite E, er_fin by assumption; apply crnd_ge_f; lra).
  - destruct (not_fin_inv w Fw Nw) as [s ->]. destruct s; [discriminate Hw|].
    assert (E : fadd t (B754_infinity false) = B754_infinity false) by (destruct t; try discriminate Ft; reflexivity).
    rewrite E. split; [|reflexivity]. apply fle_spec; [exact Nt|reflexivity|]. rewrite er_inf. apply er_bound.
  - destruct (not_fin_inv t Ft Nt) as [s ->]. destruct s; [discriminate Ht|].
    rewrite (fadd_inf_l _ _ Fw). split; [reflexivity|]. apply fle_spec; [exact Nw|reflexivity|]. rewrite er_inf. apply er_bound.
  - destruct (not_fin_inv t Ft Nt) as [s ->]. destruct (not_fin_inv w Fw Nw) as [u ->].
    destruct s; [discriminate Ht|]. destruct u; [discriminate Hw|]. split; reflexivity.
Qed.
Notation half := (MeritModel.half dbl).
Lemma half_val : is_finite half = true /\ 0 < B2R half < 1.
Proof. apply unit_fin; vm_compute; reflexivity. Qed.
Lemma half_mono (x y : double) : fle f0 x = true -> fle x y = true -> isnan (fmul half y) = false /\ fle (fmul half x) (fmul half y) = true.
Proof.
  intros Hx Hy. destruct half_val as [Fh [H0 H1]]. destruct (fle_nn _ _ Hx) as [_ Nx]. destruct (fle_nn _ _ Hy) as [_ Ny].
  assert (Inf : fmul half (B754_infinity false) = B754_infinity false).
  { apply fmul_inf_r; [exact Fh|apply sign_pos, H0|]. apply flt_fin; [reflexivity|exact Fh|rewrite B2R_f0; exact H0]. }
  destruct (is_finite y) eqn:Fy.
  - assert (Fx : is_finite x = true) by (apply (fin_between x f0 y); auto).
    destruct (fmul_spec half x Fh Fx) as (N1 & E1 & _). destruct (fmul_spec half y Fh Fy) as (N2 & E2 & _).
    split; [exact N2|]. apply fle_spec; [exact N1|exact N2|]. rewrite E1, E2. apply crnd_le.
    apply (fle_fin _ _ Fx Fy) in Hy. apply Rmult_le_compat_l; lra.
  - destruct (not_fin_inv y Fy Ny) as [s ->]. destruct s.
    { apply (fle_trans _ _ _ Hx) in Hy. discriminate Hy. }
    rewrite Inf. split; [reflexivity|]. destruct (is_finite x) eqn:Fx.
    + destruct (fmul_spec half x Fh Fx) as (N1 & E1 & _). apply fle_spec; [exact N1|reflexivity|]. rewrite er_inf. apply er_bound.
    + destruct (not_fin_inv x Fx Nx) as [s ->]. destruct s; [discriminate Hx|]. rewrite Inf. reflexivity.
Qed.

(** one entry on doubles: the new weight covers the multiplier and half of the old weight *)
Lemma upd_weight_dbl (t w : double) : fle f0 t = true -> fle f0 w = true ->
  fle t (upd_weight t w) = true /\ fle (fmul half w) (upd_weight t w) = true /\ fle f0 (upd_weight t w) = true.
Proof.
  intros Ht Hw. destruct (add_ge t w Ht Hw) as [G1 G2].
  assert (Hs : fle f0 (fadd t w) = true) by (apply fle_trans with (1 := Ht); exact G1).
  destruct (half_mono w (fadd t w) Hw G2) as [N M].
  destruct (half_mono f0 (fadd t w) eq_refl Hs) as [_ M0].
  assert (H0 : fle f0 (fmul half f0) = true) by (vm_compute; reflexivity).
  apply (fle_trans _ _ _ H0) in M0. destruct (fle_nn _ _ Ht) as [_ Nt].
  unfold upd_weight. change (@nmul dbl) with fmul. change (@nadd dbl) with fadd. change (@nltb dbl) with flt.
  destruct (flt (fmul half (fadd t w)) t) eqn:E.
  - split; [apply fle_refl; exact Nt|]. split; [|exact Ht]. apply fle_trans with (1 := M). apply flt_fle. exact E.
  - split; [apply nlt_le; assumption|]. auto.
Qed.
Lemma upd_weight_real t w : Rmax t ((t + w) / 2) = upd_weight (A := real) t w.
Proof.
  unfold upd_weight, MeritModel.half. cbn. destruct (Rltb_spec (5 / 10 * (t + w)) t); [rewrite Rmax_left|rewrite Rmax_right]; lra.
Qed.

(** shapes: each QP has as many multipliers as there are weights *)
Definition same_shape {X Y} (l : list (list X)) (m : list (list Y)) : Prop := Forall2 (Forall2 (fun _ _ => True)) l m.
Definition all2 {X} (P : X -> Prop) (l : list (list X)) : Prop := Forall (Forall P) l.
Definition covers (R : double -> double -> Prop) (l m : list (list double)) : Prop := Forall2 (Forall2 R) l m.

Lemma map2_cover {X Y} (f : X -> Y -> double) (R : X -> double -> Prop) (P : X -> Prop) (Q : Y -> Prop)
  (H : forall x y, P x -> Q y -> R x (f x y)) : forall l m, Forall2 (fun _ _ => True) l m -> Forall P l -> Forall Q m -> Forall2 R l (map2 f l m).
Proof.
  intros l m S. induction S as [|x y l m _ S IH]; intros HP HQ; [constructor|]. inversion HP; subst. inversion HQ; subst.
  unfold map2. cbn [combine map fst snd]. constructor; [apply H; assumption|]. apply IH; assumption.
Qed.
Lemma map2_map2_cover {X Y} (f : X -> Y -> double) (R : X -> double -> Prop) (P : X -> Prop) (Q : Y -> Prop)
  (H : forall x y, P x -> Q y -> R x (f x y)) : forall l m, same_shape l m -> all2 P l -> all2 Q m -> Forall2 (Forall2 R) l (map2 (map2 f) l m).
Proof.
  intros l m S. induction S as [|x y l m Sx S IH]; intros HP HQ; [constructor|]. inversion HP; subst. inversion HQ; subst.
  unfold map2 at 1. cbn [combine map fst snd]. constructor; [apply (map2_cover f R P Q H); assumption|]. apply IH; assumption.
Qed.
Lemma map2_cover_r {X Y} (f : X -> Y -> double) (R : Y -> double -> Prop) (P : X -> Prop) (Q : Y -> Prop)
  (H : forall x y, P x -> Q y -> R y (f x y)) : forall l m, Forall2 (fun _ _ => True) l m -> Forall P l -> Forall Q m -> Forall2 R m (map2 f l m).
Proof.
  intros l m S. induction S as [|x y l m _ S IH]; intros HP HQ; [constructor|]. inversion HP; subst. inversion HQ; subst.
  unfold map2. cbn [combine map fst snd]. constructor; [apply H; assumption|]. apply IH; assumption.
Qed.
Lemma map2_map2_cover_r {X Y} (f : X -> Y -> double) (R : Y -> double -> Prop) (P : X -> Prop) (Q : Y -> Prop)
  (H : forall x y, P x -> Q y -> R y (f x y)) : forall l m, same_shape l m -> all2 P l -> all2 Q m -> Forall2 (Forall2 R) m (map2 (map2 f) l m).
Proof.
  intros l m S. induction S as [|x y l m Sx S IH]; intros HP HQ; [constructor|]. inversion HP; subst. inversion HQ; subst.
  unfold map2 at 1. cbn [combine map fst snd]. constructor; [apply (map2_cover_r f R P Q H); assumption|]. apply IH; assumption.
Qed.

Definition numeric (x : double) := isnan x = false.
Definition nneg (x : double) := fle f0 x = true.
Lemma nneg_abs x : numeric x -> nneg (fabs x).
Proof. unfold numeric, nneg. destruct x as [s|s| |s m e B]; intros N; [reflexivity|reflexivity|discriminate N|reflexivity]. Qed.

(** multipliers of a QP: equality multipliers not NaN, inequality multipliers nonnegative *)
Definition qp_duals (q : duals dbl) := all2 numeric (du_pi q) /\ all2 nneg (du_lam q).
Definition nonneg_weights (w : duals dbl) := all2 nneg (du_pi w) /\ all2 nneg (du_lam w).
Definition dominates (w q : duals dbl) :=
  covers (fun t w => fle (fabs t) w = true) (du_pi q) (du_pi w) /\ covers (fun t w => fle t w = true) (du_lam q) (du_lam w).
Definition keeps_half (w w' : duals dbl) :=
  covers (fun a b => fle (fmul half a) b = true) (du_pi w) (du_pi w') /\ covers (fun a b => fle (fmul half a) b = true) (du_lam w) (du_lam w').
Definition shaped (w q : duals dbl) := same_shape (du_pi q) (du_pi w) /\ same_shape (du_lam q) (du_lam w).

Lemma cover_all2 {X} (R : X -> double -> Prop) (Q : double -> Prop) (H : forall x y, R x y -> Q y) l m : Forall2 (Forall2 R) l m -> all2 Q m.
Proof.
  induction 1 as [|x y l m Hx _ IH]; constructor; [|exact IH]. clear IH. induction Hx; constructor; eauto.
Qed.
Lemma update_weights_spec (w q : duals dbl) : shaped w q -> nonneg_weights w -> qp_duals q ->
  dominates (update_weights w q) q /\ keeps_half w (update_weights w q) /\ nonneg_weights (update_weights w q).
Proof.
  intros [S1 S2] [N1 N2] [Q1 Q2]. unfold update_weights, dominates, keeps_half, nonneg_weights, covers. cbn [du_pi du_lam].
  repeat split.
  - apply (map2_map2_cover _ _ numeric nneg); auto. intros x y Hx Hy. apply upd_weight_dbl; [apply nneg_abs, Hx|exact Hy].
  - apply (map2_map2_cover _ _ nneg nneg); auto. intros x y Hx Hy. apply upd_weight_dbl; assumption.
  - apply (map2_map2_cover_r _ _ numeric nneg); auto. intros x y Hx Hy. apply upd_weight_dbl; [apply nneg_abs, Hx|exact Hy].
  - apply (map2_map2_cover_r _ _ nneg nneg); auto. intros x y Hx Hy. apply upd_weight_dbl; assumption.
  - apply (cover_all2 (fun x y => nneg y) nneg (fun x y H => H) (du_pi q)).
    apply (map2_map2_cover _ _ numeric nneg); auto. intros x y Hx Hy. apply upd_weight_dbl; [apply nneg_abs, Hx|exact Hy].
  - apply (cover_all2 (fun x y => nneg y) nneg (fun x y H => H) (du_lam q)).
    apply (map2_map2_cover _ _ nneg nneg); auto. intros x y Hx Hy. apply upd_weight_dbl; assumption.
Qed.
Lemma map_cover (f : double -> double) (R : double -> double -> Prop) (P : double -> Prop) (H : forall x, P x -> R x (f x)) l :
  Forall P l -> Forall2 R l (map f l).
Proof. induction 1; constructor; auto. Qed.
Lemma init_weights_spec (q : duals dbl) : qp_duals q -> dominates (init_weights q) q /\ nonneg_weights (init_weights q).
Proof.
  intros [Q1 Q2]. unfold dominates, nonneg_weights, init_weights, covers. cbn [du_pi du_lam]. repeat split.
  - change (@nabs dbl) with fabs. induction Q1 as [|v l Hv Hl IH]; constructor; [|exact IH].
    apply (map_cover _ _ numeric); [|exact Hv]. intros x Hx. apply fle_refl. unfold numeric in Hx. destruct x as [s|s| |s m e B]; [reflexivity|reflexivity|discriminate Hx|reflexivity].
  - induction Q2 as [|v l Hv Hl IH]; constructor; [|exact IH]. clear IH Hl Q1 q l.
    induction Hv as [|x v Hx Hv IH]; constructor; [|exact IH]. apply fle_refl. destruct (fle_nn _ _ Hx). assumption.
  - change (@nabs dbl) with fabs. induction Q1 as [|v l Hv Hl IH]; constructor; [|exact IH]. clear IH Hl Q2 q l.
    induction Hv as [|x v Hx Hv IH]; constructor; [|exact IH]. apply nneg_abs, Hx.
  - exact Q2.
Qed.

(** weights along a whole solve: QP solutions [q0] of iteration 0, then [qs] *)
Definition weights_run (q0 : duals dbl) (qs : list (duals dbl)) : duals dbl :=
  snd (fold_left (fun (s : Z * duals dbl) q => ((fst s + 1)%Z, weights_at (fst s) (snd s) q)) qs (1%Z, weights_at 0 q0 q0)).
Lemma weights_run_snoc q0 qs q : weights_run q0 (qs ++ [q]) = update_weights (weights_run q0 qs) q.
Proof.
  unfold weights_run. rewrite fold_left_app. cbn [fold_left snd].
  assert (G : forall l s, (1 <= fst s)%Z -> (1 <= fst (fold_left (fun (s : Z * duals dbl) q => ((fst s + 1)%Z, weights_at (fst s) (snd s) q)) l s))%Z).
  { induction l as [|x l IH]; intros s Hs; [exact Hs|]. cbn [fold_left]. apply IH. cbn [fst]. lia. }
  specialize (G qs (1%Z, weights_at 0 q0 q0) (Z.le_refl 1)). unfold weights_at at 1.
  destruct (Z.eqb_spec (fst (fold_left (fun (s : Z * duals dbl) q => ((fst s + 1)%Z, weights_at (fst s) (snd s) q)) qs (1%Z, weights_at 0 q0 q0))) 0) as [E|E];
    [exfalso; rewrite E in G; lia|reflexivity].
Qed.
Lemma same_shape_cover {X} (R : X -> double -> Prop) (l : list (list X)) m : Forall2 (Forall2 R) l m -> same_shape l m.
Proof. induction 1 as [|x y l m Hx _ IH]; constructor; [|exact IH]. clear IH. induction Hx; constructor; auto. Qed.
Lemma same_shape_trans {X Y Z} (l : list (list X)) (m : list (list Y)) (k : list (list Z)) : same_shape m l -> same_shape m k -> same_shape l k.
Proof.
  intros H. revert k. induction H as [|x y l' m' Hx _ IH]; intros k K; inversion K; subst; constructor; [|apply IH; assumption].
  clear IH K. match goal with H1 : Forall2 _ x ?z |- _ => revert z H1 end. induction Hx; intros z Hz; inversion Hz; subst; constructor; auto.
Qed.
Lemma same_shape_sym {X Y} (a : list (list X)) (b : list (list Y)) : same_shape a b -> same_shape b a.
Proof. induction 1 as [|x y l m Hx _ IH]; constructor; [|exact IH]. clear IH. induction Hx; constructor; auto. Qed.
Lemma weights_run_shape q0 qs : qp_duals q0 -> Forall (fun q => shaped q0 q /\ qp_duals q) qs ->
  dominates (weights_run q0 qs) (last qs q0) /\ nonneg_weights (weights_run q0 qs) /\
  same_shape (du_pi q0) (du_pi (weights_run q0 qs)) /\ same_shape (du_lam q0) (du_lam (weights_run q0 qs)).
Proof.
  intros H0. induction qs as [|q l IH] using rev_ind; intros F.
  - destruct (init_weights_spec q0 H0) as [D N]. unfold weights_run. cbn [fold_left snd last].
    change (weights_at 0 q0 q0) with (init_weights q0). split; [exact D|]. split; [exact N|].
    destruct D as [D1 D2]. split; [apply same_shape_cover in D1; exact D1|apply same_shape_cover in D2; exact D2].
  - apply Forall_app in F. destruct F as [F1 F2]. inversion F2 as [|? ? [[A1 A2] Dq] _]; subst.
    destruct (IH F1) as (_ & N & S1 & S2). rewrite weights_run_snoc, last_last.
    assert (Sh : shaped (weights_run q0 l) q).
    { apply same_shape_sym in A1, A2.
      split; [apply (same_shape_trans _ (du_pi q0)); [exact A1|exact S1]|apply (same_shape_trans _ (du_lam q0)); [exact A2|exact S2]]. }
    destruct (update_weights_spec _ q Sh N Dq) as (D & _ & N'). split; [exact D|]. split; [exact N'|].
    destruct D as [D1 D2]. apply same_shape_cover in D1, D2.
    split; [apply (same_shape_trans _ (du_pi q)); [exact A1|exact D1]|apply (same_shape_trans _ (du_lam q)); [exact A2|exact D2]].
Qed.
Lemma weights_run_spec q0 qs : qp_duals q0 -> Forall (fun q => shaped q0 q /\ qp_duals q) qs ->
  dominates (weights_run q0 qs) (last qs q0) /\ nonneg_weights (weights_run q0 qs) /\
  (forall q, shaped q0 q -> qp_duals q -> keeps_half (weights_run q0 qs) (weights_run q0 (qs ++ [q]))).
Proof.
  intros H0 H. destruct (weights_run_shape q0 qs H0 H) as (D & N & S1 & S2). split; [exact D|]. split; [exact N|].
  intros q [A1 A2] Hq. rewrite weights_run_snoc. apply update_weights_spec; auto. apply same_shape_sym in A1, A2.
  split; [apply (same_shape_trans _ (du_pi q0)); [exact A1|exact S1]|apply (same_shape_trans _ (du_lam q0)); [exact A2|exact S2]].
Qed.

(** a negative inequality multiplier is not covered *)
Lemma weights_negative : exists (w q : duals dbl), shaped w q /\ nonneg_weights w /\
  ~ covers (fun t w => fle (fabs t) (fabs w) = true) (du_lam q) (du_lam (update_weights w q)).
Proof.
  exists (mkDuals [] [[f0]]), (mkDuals [] [[dcst (-4) 0]]). split; [repeat constructor|]. split; [repeat constructor|].
  intros H. inversion H as [|? ? ? ? H1 _]; subst. inversion H1 as [|? ? ? ? H2 _]; subst. vm_compute in H2. discriminate H2.
Qed.

(** *** C24: the step taken after an unsuccessful search *)
Definition bad_merit (a : double) : double := if flt a (dcst 6 (-2)) then fnan else fadd f1 a.
Definition bad_prob : prob dbl double unit :=
  mkProb (fun _ => mkDuals [] []) (fun _ _ x a => bad_merit a) (fun _ _ _ => f0) (fun _ _ _ => f0) (fun _ x a => fadd x a) (fun q _ => (q, false)).
Definition mopts_d : mopts dbl := merit_default dbl.
Definition ms0 : mstate dbl double := mkM f0 (mkDuals [] []) f0 0 f0.
Definition mcheck (P : mstate dbl double -> Z -> bool) (r : option (mstate dbl double * unit * Z)) : bool :=
  match r with Some (s, _, st) => P s st | None => false end.
(** the search rejects every point it evaluates, the solver continues with a step that was never
    evaluated and where the merit function is NaN *)
Lemma merit_minstep_taken : exists (P : prob dbl double unit) s s',
  merit_find mopts_d 20 P 3 tt s = Some (s', tt, ACADOS_SUCCESS) /\
  ms_out s' = p_step P tt (ms_out s) (ms_step s') /\
  merit_search mopts_d 20 (p_merit P tt (ms_w s) (ms_out s)) (p_merit P tt (ms_w s) (ms_out s) f0) f0 = Some (ACADOS_MINSTEP, ms_step s') /\
  isnan (p_merit P tt (ms_w s) (ms_out s) (ms_step s')) = true.
Proof.
  assert (C : (match merit_search mopts_d 20 bad_merit (bad_merit f0) f0 with
     Some (st, a) => Z.eqb st ACADOS_MINSTEP && isnan (bad_merit a) | None => false end) = true) by (vm_compute; reflexivity).
  destruct (merit_search mopts_d 20 bad_merit (bad_merit f0) f0) as [[st a]|] eqn:E; [|discriminate C].
  apply andb_prop in C. destruct C as [C1 C2]. apply Z.eqb_eq in C1. subst st.
  exists bad_prob, ms0, (mkM (fadd f0 a) (mkDuals [] []) a 0%Z a). cbn [ms_step ms_out p_step p_merit bad_prob ms_w ms0].
  split; [|split; [reflexivity|]; split; [exact E|exact C2]].
  unfold merit_find. change (mo_soc mopts_d) with false. cbn iota. cbn [ms_out ms0 p_duals bad_prob ms_w ms_status p_merit p_grad p_step].
  change (weights_at 3 (mkDuals [] []) (mkDuals (A := dbl) [] [])) with (mkDuals (A := dbl) [] []).
  change (@n0 dbl) with f0. change (fun a0 : double => bad_merit a0) with bad_merit.
  change (merit_search mopts_d 20 (fun a0 : num dbl => bad_merit a0) (bad_merit f0) f0) with (merit_search mopts_d 20 bad_merit (bad_merit f0) f0).
  rewrite E. reflexivity.
Qed.
