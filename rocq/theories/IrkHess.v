(** The Hessian of the implicit integrator is the second derivative of the exact integration map. *)
From Coq Require Import ZArith List Bool Arith Lia Reals Lra.
From Coquelicot Require Import Coquelicot.
From Verif Require Import Arith Vec LinModel CollModel CollTop RSum BghAdjProofs MeritGradProofs IrkModel IrkSpec IrkProofs IrkSens IrkFwd IrkAdj.
Import ListNotations.
Open Scope R_scope.

Section S.
Variable MM : vecR -> irk_model real.
Variable p : vecR.
Notation M := (MM p).
Variable o : irk_opts real.
Variable inp : irk_in real.
Variable lu_solve lu_solve_t : nat -> matR -> vecR -> vecR.
Notation nx := (o_nx o). Notation nu := (o_nu o). Notation nz := (o_nz o). Notation np := (o_np o). Notation ns := (o_ns o).
Notation nf := (nx + nz)%nat.
Notation nK := ((nx + nz) * ns)%nat.
Notation nv := (2 * nx + nz + nu)%nat.
Notation h := (step o inp).
Notation u := (n_u inp).
Hypothesis HC : irk_consistent MM nx nu nz np.
Hypothesis HH : irk_hess_ok M nx nu nz.
Variable m : irk_mem real.
Variable F0 : matR.
Notation xs := (xs MM p o inp lu_solve m F0).
Notation Ks := (Ks MM p o inp lu_solve m F0).
Notation tm := (tm o inp).
Notation fwd := (forward M o inp lu_solve m F0).
Notation regular := (regular MM p o inp lu_solve m F0).
Notation lams := (lams MM p o inp lu_solve lu_solve_t m F0).
Notation sdx := (sens_dx MM p o inp lu_solve m F0).
Notation sdk := (sens_dk MM p o inp lu_solve m F0).
Notation pair := (pair o).
Notation bw N n := (backward M o inp lu_solve_t n (s_rec (fwd N))).
Hypothesis LU : lu_ok nK lu_solve.
Hypothesis LUT : lu_t_ok nK lu_solve_t.
Hypothesis WH : o_sens_hess o = true.

(** quadratic term of a stage at the computed point *)
Definition hf n i (l : vecR) : matR := m_hess M (stage_x o inp (xs n) (Ks n) i) (shift (A := real) (i * nx) (Ks n)) u (shift (A := real) (ns * nx + i * nz) (Ks n)) (shift (A := real) (i * nf) l) (stage_t o inp n i).
Definition yv i (dx dk du : vecR) : vecR := var4 nx nz (rk_stage o h dx dk i) (fun k => dk (i * nx + k)%nat) (fun k => dk (ns * nx + i * nz + k)%nat) du.
Definition qstage n i (l y : vecR) : R := sum nv (fun a => sum nv (fun b => y a * hf n i l a b * y b)).
Lemma back_quad N n (lam : vecR) (H : matR) (d lam1 : vecR) (H1 : matR) : (n < N)%nat -> back_step M o inp lu_solve_t n (s_rec (fwd N) n) (lam, H) = (lam1, H1) ->
  quad (nx + nu) H1 d = quad (nx + nu) H d + sum ns (fun i => qstage n i (lams n lam) (yv i (sdx d (fun _ => 0) n) (sdk d (fun _ => 0) n) (fun c => d (nx + c)%nat))).
Proof.
  intros Hn E. unfold back_step in E. cbv zeta in E. injection E as _ E. revert E.
  pose proof (back_F MM p o inp lu_solve m F0 N n Hn) as EF. rewrite WH in *. rewrite EF. clear EF.
  destruct (rec_val MM p o inp lu_solve m F0 N n Hn) as [-> [-> [_ [-> E]]]]. destruct (E (orb_true_intro _ _ (or_intror WH))) as [_ ->]. clear E.
  fold (lams n lam). intros <-.
  assert (L : forall k, (k <= ns)%nat -> quad (nx + nu) (loop k (fun i H => hess_stage o (m_hess M (stage_x o inp (xs n) (Ks n) i) (shift (i * nx) (Ks n)) u (shift (ns * nx + i * nz) (Ks n)) (shift (i * nf) (lams n lam)) (stage_t o inp n i))
       (dw o inp (Ss MM p o inp lu_solve m F0 n) (dKs MM p o inp lu_solve m F0 n) i) H) H) d =
     quad (nx + nu) H d + sum k (fun i => qstage n i (lams n lam) (yv i (sdx d (fun _ => 0) n) (sdk d (fun _ => 0) n) (fun c => d (nx + c)%nat)))).
  { induction k as [|k IH]; intros Hk; [cbn [loop sum]; cbn; lra|]. rewrite loop_S, sum_S, <- Rplus_assoc. rewrite <- IH by lia. clear IH.
    rewrite hess_stage_quad by (intros; apply (ih_sym _ _ _ _ HH)). f_equal. unfold qstage. apply sum_ext. intros a Ha. apply sum_ext. intros b Hb.
    rewrite !(dw_full MM p) by (assumption || lia). reflexivity. }
  exact (L ns (Nat.le_refl ns)).
Qed.

Variable N : nat.
Variable U : R -> vecR.
Variable X KK : nat -> R -> vecR.
Hypothesis HX : irk_curve o h (n_t0 inp) N MM (fun _ => p) U X KK.
Hypothesis U0 : agree nu (U 0) u.
Hypothesis X0 : agree nx (X 0%nat 0) (n_x inp).
Hypothesis K0 : forall n, (n < N)%nat -> agree nK (KK n 0) (Ks n).
Variable X1 U1 : R -> vecR. Variable K1 : nat -> R -> vecR.
Variable X2 U2 : vecR. Variable K2 : nat -> vecR.
Hypothesis TX : twice nx (X 0%nat) X1 X2.
Hypothesis TU : twice nu U U1 U2.
Hypothesis TK : forall n, (n < N)%nat -> twice nK (KK n) (K1 n) (K2 n).
Hypothesis HR : regular N.
Definition xd n e := ddx o inp (X1 e) (fun n => K1 n e) n.
Definition xdd n := ddx o inp X2 K2 n.
Lemma next_derive_at (Y Q : R -> vecR) (dy dq : vecR) r e : (r < nx)%nat -> is_derive (fun e => Y e r) e (dy r) -> (forall k, (k < nK)%nat -> is_derive (fun e => Q e k) e (dq k)) ->
  is_derive (fun e => rk_next o h (Y e) (Q e) r) e (rk_next o h dy dq r).
Proof.
  intros Hr HY HQ. unfold rk_next. apply plus_der; [exact HY|]. apply scal_der. apply (is_derive_sum ns (fun j e => o_b o j * Q e (j * nx + r)%nat)). intros j Hj. apply scal_der, HQ.
  pose proof (blk_lt j ns r nx Hj Hr). nia.
Qed.
Lemma stage_derive_at (Y Q : R -> vecR) (dy dq : vecR) i r e : (r < nx)%nat -> is_derive (fun e => Y e r) e (dy r) -> (forall k, (k < nK)%nat -> is_derive (fun e => Q e k) e (dq k)) ->
  is_derive (fun e => rk_stage o h (Y e) (Q e) i r) e (rk_stage o h dy dq i r).
Proof.
  intros Hr HY HQ. unfold rk_stage. apply plus_der; [exact HY|]. apply scal_der. apply (is_derive_sum ns (fun j e => o_A o i j * Q e (j * nx + r)%nat)). intros j Hj. apply scal_der, HQ.
  pose proof (blk_lt j ns r nx Hj Hr). nia.
Qed.
Lemma loc_all n (Q : nat -> R -> Prop) : (forall k, (k < n)%nat -> locally 0 (Q k)) -> locally 0 (fun e => forall k, (k < n)%nat -> Q k e).
Proof.
  induction n as [|n IH]; intros H; [apply filter_forall; intros e k Hk; lia|].
  generalize (IH ltac:(intros; apply H; lia)) (H n ltac:(lia)). intros A B. generalize (filter_and _ _ A B). apply filter_imp. intros e [E1 E2] k Hk.
  destruct (Nat.eq_dec k n) as [->|NE]; [exact E2|apply E1; lia].
Qed.
Lemma twice_X n : (n <= N)%nat -> twice nx (X n) (xd n) (xdd n).
Proof.
  induction n as [|n IH]; intros Hn; [exact TX|]. destruct (IH ltac:(lia)) as [A B]. destruct (TK n ltac:(lia)) as [C D]. split; intros r Hr.
  - pose proof (locally_locally _ _ HX) as LX. pose proof (loc_all nK _ C) as LK.
    generalize (filter_and _ _ LX (filter_and _ _ LK (A r Hr))). apply filter_imp. intros e [E1 [E2 E3]].
    apply (is_derive_locally_eq (fun e => rk_next o h (X n e) (KK n e) r)).
    + generalize E1. apply filter_imp. intros e' He. destruct (He n ltac:(lia)) as [_ E]. exact (E r Hr).
    + apply next_derive_at; [exact Hr|exact E3|exact E2].
  - unfold xd, xdd. cbn [ddx]. apply (next_derive_at (xd n) (K1 n)); [exact Hr|apply B; exact Hr|exact D].
Qed.
Lemma twice_stage n i : (n < N)%nat -> twice nx (fun e => rk_stage o h (X n e) (KK n e) i) (fun e => rk_stage o h (xd n e) (K1 n e) i) (rk_stage o h (xdd n) (K2 n) i).
Proof.
  intros Hn. destruct (twice_X n ltac:(lia)) as [A B]. destruct (TK n Hn) as [C D]. split; intros r Hr.
  - generalize (filter_and _ _ (loc_all nK _ C) (A r Hr)). apply filter_imp. intros e [E2 E3]. apply stage_derive_at; [exact Hr|exact E3|exact E2].
  - apply (stage_derive_at (xd n) (K1 n)); [exact Hr|apply B; exact Hr|exact D].
Qed.
Lemma second_stage n i (l : vecR) : (n < N)%nat -> (i < ns)%nat ->
  sum nf (fun q => l (i * nf + q)%nat * rk_lin o h M (tm n) (xs n) u (Ks n) i q (xdd n) (K2 n) U2) + qstage n i l (yv i (xd n 0) (K1 n 0) (U1 0)) = 0.
Proof.
  intros Hn Hi.
  assert (TKi : twice nx (fun e k => KK n e (i * nx + k)%nat) (fun e k => K1 n e (i * nx + k)%nat) (fun k => K2 n (i * nx + k)%nat)).
  { destruct (TK n Hn) as [C D]. split; intros c Hc; pose proof (blk_lt i ns c nx Hi Hc); [apply C|apply D]; nia. }
  assert (TZi : twice nz (fun e k => KK n e (ns * nx + i * nz + k)%nat) (fun e k => K1 n e (ns * nx + i * nz + k)%nat) (fun k => K2 n (ns * nx + i * nz + k)%nat)).
  { destruct (TK n Hn) as [C D]. split; intros c Hc; pose proof (blk_lt i ns c nz Hi Hc); [apply C|apply D]; nia. }
  destruct (ih_second _ _ _ _ HH _ _ _ _ _ _ _ _ _ _ _ _ (tm n + o_c o i * h) (fun q => l (i * nf + q)%nat) (twice_stage n i Hn) TKi TU TZi) as [phi [P1 P2]].
  assert (P0 : locally 0 (fun e => phi e = 0)).
  { generalize (filter_and _ _ (locally_locally _ _ HX) P1). apply filter_imp. intros e [E1 E2]. rewrite <- (is_derive_unique _ _ _ E2). apply is_derive_unique.
    apply (is_derive_locally_eq (fun _ => 0)); [|apply (is_derive_const (V := R_NormedModule) 0 e)]. generalize E1. apply filter_imp. intros e' He. apply sum_zero. intros q Hq.
    destruct (He n Hn) as [A _]. pose proof (A i q Hi Hq) as Z. unfold rk_arg in Z. rewrite <- (tm_INR o inp n) in Z. apply Rmult_eq_0_compat_l. exact Z. }
  assert (P3 : is_derive phi 0 0) by (apply (is_derive_locally_eq (fun _ => 0) phi); [exact P0|apply (is_derive_const (V := R_NormedModule) 0 0)]).
  pose proof (is_derive_unique _ _ _ P2) as V. rewrite (is_derive_unique _ _ _ P3) in V. refine (eq_trans _ (eq_sym V)). clear V P0 P1 P2 P3 phi.
  assert (Ax : agree nx (xs n) (X n 0)) by (intros r Hr; symmetry; apply (curve_start MM p o inp lu_solve m F0 N (fun _ => p) U X KK HX X0 K0 n ltac:(lia) r Hr)).
  assert (Ak : agree nK (Ks n) (KK n 0)) by (intros k Hk; symmetry; now apply K0).
  assert (Au : agree nu u (U 0)) by (intros c Hc; symmetry; now apply U0).
  f_equal.
  - apply sum_ext. intros q Hq. f_equal. rewrite (rk_lin_ext MM p o inp HC (tm n) _ _ _ _ _ _ i q (xdd n) (K2 n) U2 Hi Hq Ax Au Ak). reflexivity.
  - unfold qstage. apply sum_ext. intros a Ha. apply sum_ext. intros b Hb. apply (f_equal (fun v => yv i (xd n 0) (K1 n 0) (U1 0) a * v * yv i (xd n 0) (K1 n 0) (U1 0) b)).
    unfold hf. apply (ih_loc _ _ _ _ HH); try assumption.
    + intros r Hr. rewrite (stage_agree o inp (xs n) (Ks n) i r Hr). apply (stage_ext o inp); assumption.
    + exact (k_ext o (Ks n) (KK n 0) i Hi Ak).
    + exact (z_ext o (Ks n) (KK n 0) i Hi Ak).
    + intros q _. reflexivity.
Qed.
Variable d : vecR.
Hypothesis HI : n_identity_seed inp = true -> forall r c, (r < nx)%nat -> (c < nx + nu)%nat -> n_S_forw inp r c = if (r =? c)%nat then 1 else 0.
Hypothesis D0 : forall r, (r < nx)%nat -> X1 0 r = sum (nx + nu) (fun c => n_S_forw inp r c * d c).
Hypothesis DU : forall c, (c < nu)%nat -> U1 0 c = d (nx + c)%nat.
Lemma twice_at n Y Y1 Y2 c : twice n Y Y1 Y2 -> (c < n)%nat -> is_derive (fun e => Y e c) 0 (Y1 0 c).
Proof. intros [A _] Hc. exact (locally_singleton _ _ (A c Hc)). Qed.
Lemma first_agree n : (n <= N)%nat -> agree nx (xd n 0) (sdx d (fun _ => 0) n) /\ ((n < N)%nat -> agree nK (K1 n 0) (sdk d (fun _ => 0) n)).
Proof.
  intros Hn. unfold xd. apply (forward_derivative MM p o inp lu_solve HC m F0 N (fun _ => p) U X KK HX eq_refl U0 X0 K0 (X1 0) (fun n => K1 n 0) (U1 0) (fun _ => 0)); try assumption.
  - intros k j Hk Hj. exact (twice_at _ _ _ _ j (TK k Hk) Hj).
  - intros r Hr. exact (twice_at _ _ _ _ r TX Hr).
  - intros c Hc. exact (twice_at _ _ _ _ c TU Hc).
  - intros c Hc. apply (is_derive_const (V := R_NormedModule) (p c) 0).
  - left. unfold with_sens. rewrite WH. apply orb_true_r.
  - right. reflexivity.
Qed.
Lemma yv_agree n i a : (n < N)%nat -> (i < ns)%nat -> (a < nv)%nat -> yv i (xd n 0) (K1 n 0) (U1 0) a = yv i (sdx d (fun _ => 0) n) (sdk d (fun _ => 0) n) (fun c => d (nx + c)%nat) a.
Proof.
  intros Hn Hi Ha. destruct (first_agree n ltac:(lia)) as [A B]. specialize (B Hn). unfold yv, var4.
  destruct (Nat.ltb_spec a nx); [apply (stage_ext o inp); assumption|]. destruct (Nat.ltb_spec a (2 * nx)); [apply (k_ext o _ _ i Hi B (a - nx)%nat); lia|].
  destruct (Nat.ltb_spec a (2 * nx + nz)); [apply (z_ext o _ _ i Hi B (a - 2 * nx)%nat); lia|]. apply DU. lia.
Qed.
Lemma backward_quad n : (n <= N)%nat -> forall lam H, pair (fst (bw N n (lam, H))) (xdd 0) U2 + quad (nx + nu) (snd (bw N n (lam, H))) d = pair lam (xdd n) U2 + quad (nx + nu) H d.
Proof.
  induction n as [|n IH]; intros Hn lam H; [reflexivity|]. cbn [backward]. destruct (back_step M o inp lu_solve_t n (s_rec (fwd N) n) (lam, H)) as [lam1 H1] eqn:E.
  rewrite IH by lia. pose proof (back_pair' MM p o inp lu_solve lu_solve_t HC m F0 LUT N n lam H (xdd n) (K2 n) U2 lam1 H1 ltac:(lia) (HR n ltac:(lia)) E) as BP.
  rewrite (back_quad N n lam H d lam1 H1 ltac:(lia) E). rewrite BP.
  change (rk_next o h (xdd n) (K2 n)) with (xdd (S n)).
  assert (Z : sum ns (fun i => sum nf (fun q => lams n lam (i * nf + q)%nat * rk_lin o h M (tm n) (xs n) u (Ks n) i q (xdd n) (K2 n) U2)) +
      sum ns (fun i => qstage n i (lams n lam) (yv i (sdx d (fun _ => 0) n) (sdk d (fun _ => 0) n) (fun c => d (nx + c)%nat))) = 0).
  { rewrite <- sum_plus. apply sum_zero. intros i Hi. refine (eq_trans _ (second_stage n i (lams n lam) ltac:(lia) Hi)). apply (f_equal2 Rplus); [reflexivity|]. unfold qstage. apply sum_ext. intros a Ha. apply sum_ext. intros b Hb.
    rewrite !yv_agree by (assumption || lia). reflexivity. }
  lra.
Qed.
End S.
