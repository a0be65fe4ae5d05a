(** The sensitivities are derivatives of the exact integration map. *)
From Coq Require Import ZArith List Bool Arith Lia Reals Lra.
From Coquelicot Require Import Coquelicot.
From Verif Require Import Arith Vec LinModel CollModel CollTop RSum BghAdjProofs MeritGradProofs IrkModel IrkSpec IrkProofs IrkSens.
Import ListNotations.
Open Scope R_scope.

Lemma scal_der (a : R) (f : R -> R) x l : is_derive f x l -> is_derive (fun e => a * f e) x (a * l).
Proof. intros H. apply (is_derive_scal f x a l H). Qed.
Lemma plus_der (f g : R -> R) x l k : is_derive f x l -> is_derive g x k -> is_derive (fun e => f e + g e) x (l + k).
Proof. intros H1 H2. apply (is_derive_plus f g x l k H1 H2). Qed.

Section S.
Variable MM : vecR -> irk_model real.
Variable p : vecR.
Notation M := (MM p).
Variable o : irk_opts real.
Variable inp : irk_in real.
Variable lu_solve lu_solve_t : nat -> matR -> vecR -> vecR.
Notation nx := (o_nx o). Notation nu := (o_nu o). Notation nz := (o_nz o). Notation np := (o_np o). Notation ns := (o_ns o).
Notation nf := (nx + nz)%nat.
Notation nK := ((nx + nz) * ns)%nat.
Notation h := (step o inp).
Notation u := (n_u inp).
Hypothesis HC : irk_consistent MM nx nu nz np.
Variable m : irk_mem real.
Variable F0 : matR.
Notation xs := (xs MM p o inp lu_solve m F0).
Notation Ks := (Ks MM p o inp lu_solve m F0).
Notation tm := (tm o inp).
Notation tangent := (tangent MM p o inp lu_solve m F0).
Variable N : nat.
Variable P U : R -> vecR.
Variable X KK : nat -> R -> vecR.
Hypothesis HX : irk_curve o h (n_t0 inp) N MM P U X KK.
Hypothesis P0 : P 0 = p.
Hypothesis U0 : agree nu (U 0) u.
Hypothesis X0 : agree nx (X 0%nat 0) (n_x inp).
Hypothesis K0 : forall n, (n < N)%nat -> agree nK (KK n 0) (Ks n).
Lemma tm_INR n : tm n = n_t0 inp + INR n * h.
Proof. unfold IrkSens.tm. rewrite of_nat_real. reflexivity. Qed.
Lemma curve_start n : (n <= N)%nat -> agree nx (X n 0) (xs n).
Proof.
  induction n as [|n IH]; intros Hn; [exact X0|]. intros r Hr. pose proof (locally_singleton _ _ HX n ltac:(lia)) as [_ E]. rewrite (E r Hr).
  rewrite (xs_S MM p o inp lu_solve m F0 n r Hr). unfold rk_next. rewrite (IH ltac:(lia) r Hr). f_equal. f_equal. apply sum_ext. intros j Hj. f_equal.
  apply K0; [lia|]. pose proof (blk_lt j ns r nx Hj Hr). nia.
Qed.
Fixpoint ddx (dx0 : vecR) (dk : nat -> vecR) (n : nat) : vecR := match n with O => dx0 | S n => rk_next o h (ddx dx0 dk n) (dk n) end.
Variable dx0 : vecR. Variable dk : nat -> vecR. Variable du dp : vecR.
Hypothesis DK : forall n k, (n < N)%nat -> (k < nK)%nat -> is_derive (fun e => KK n e k) 0 (dk n k).
Hypothesis DX : forall r, (r < nx)%nat -> is_derive (fun e => X 0%nat e r) 0 (dx0 r).
Hypothesis DU : forall c, (c < nu)%nat -> is_derive (fun e => U e c) 0 (du c).
Hypothesis DP : forall c, (c < np)%nat -> is_derive (fun e => P e c) 0 (dp c).
Lemma next_derive (Y Q : R -> vecR) (dy dq : vecR) r : (r < nx)%nat -> is_derive (fun e => Y e r) 0 (dy r) -> (forall k, (k < nK)%nat -> is_derive (fun e => Q e k) 0 (dq k)) ->
  is_derive (fun e => rk_next o h (Y e) (Q e) r) 0 (rk_next o h dy dq r).
Proof.
  intros Hr HY HQ. unfold rk_next. apply plus_der; [exact HY|]. apply scal_der. apply (is_derive_sum ns (fun j e => o_b o j * Q e (j * nx + r)%nat)). intros j Hj. apply scal_der, HQ.
  pose proof (blk_lt j ns r nx Hj Hr). nia.
Qed.
Lemma stage_derive (Y Q : R -> vecR) (dy dq : vecR) i r : (r < nx)%nat -> is_derive (fun e => Y e r) 0 (dy r) -> (forall k, (k < nK)%nat -> is_derive (fun e => Q e k) 0 (dq k)) ->
  is_derive (fun e => rk_stage o h (Y e) (Q e) i r) 0 (rk_stage o h dy dq i r).
Proof.
  intros Hr HY HQ. unfold rk_stage. apply plus_der; [exact HY|]. apply scal_der. apply (is_derive_sum ns (fun j e => o_A o i j * Q e (j * nx + r)%nat)). intros j Hj. apply scal_der, HQ.
  pose proof (blk_lt j ns r nx Hj Hr). nia.
Qed.
Lemma curve_derive n : (n <= N)%nat -> forall r, (r < nx)%nat -> is_derive (fun e => X n e r) 0 (ddx dx0 dk n r).
Proof.
  induction n as [|n IH]; intros Hn r Hr; [now apply DX|]. cbn [ddx].
  apply (is_derive_locally_eq (fun e => rk_next o h (X n e) (KK n e) r)).
  - generalize HX; unfold irk_curve. apply filter_imp. intros e He. destruct (He n ltac:(lia)) as [_ E]. exact (E r Hr).
  - apply next_derive; [exact Hr|apply IH; [lia|exact Hr]|]. intros k Hk. now apply DK.
Qed.
Lemma curve_tangent : tangent N (ddx dx0 dk) dk du dp.
Proof.
  intros n Hn. split; [|intros r Hr; reflexivity]. intros i q Hi Hq.
  assert (E : is_derive (fun e => rk_arg o h (m_f (MM (P e))) (n_t0 inp + INR n * h) (X n e) (U e) (KK n e) i q) 0
      (rk_lin o h M (tm n) (X n 0) (U 0) (KK n 0) i q (ddx dx0 dk n) (dk n) du + sum np (fun c => rk_arg o h (m_fp M) (tm n) (X n 0) (U 0) (KK n 0) i q c * dp c))).
  { rewrite <- tm_INR. rewrite <- P0. unfold rk_arg, rk_lin.
    refine (is_derive_val _ _ _ _ (ic_diff _ _ _ _ _ HC P (fun e => rk_stage o h (X n e) (KK n e) i) (fun e k => KK n e (i * nx + k)%nat) U (fun e k => KK n e (ns * nx + i * nz + k)%nat)
       dp (rk_stage o h (ddx dx0 dk n) (dk n) i) (fun k => dk n (i * nx + k)%nat) du (fun k => dk n (ns * nx + i * nz + k)%nat) (tm n + o_c o i * h) DP _ _ DU _ q Hq) _).
    - intros c Hc. apply stage_derive; [exact Hc|apply curve_derive; [lia|exact Hc]|]. intros k Hk. now apply DK.
    - intros c Hc. apply DK; [exact Hn|]. pose proof (blk_lt i ns c nx Hi Hc). nia.
    - intros c Hc. apply DK; [exact Hn|]. pose proof (blk_lt i ns c nz Hi Hc). nia.
    - reflexivity. }
  assert (E0 : is_derive (fun e => rk_arg o h (m_f (MM (P e))) (n_t0 inp + INR n * h) (X n e) (U e) (KK n e) i q) 0 0).
  { apply (is_derive_locally_eq (fun _ => 0)); [|apply (is_derive_const (V := R_NormedModule) 0 0)]. generalize HX; unfold irk_curve. apply filter_imp. intros e He. destruct (He n Hn) as [A _]. exact (A i q Hi Hq). }
  pose proof (is_derive_unique _ _ _ E) as V. rewrite (is_derive_unique _ _ _ E0) in V. rewrite V.
  f_equal.
  - apply (rk_lin_ext MM p o inp HC); try assumption. + intros r Hr. symmetry. apply curve_start; [lia|exact Hr]. + intros c Hc. symmetry. now apply U0. + intros k Hk. symmetry. now apply K0.
  - apply sum_ext. intros c Hc. f_equal. apply (rk_fp_ext MM p o inp HC); try assumption. + intros r Hr. symmetry. apply curve_start; [lia|exact Hr]. + intros k Hk. symmetry. now apply U0. + intros k Hk. symmetry. now apply K0.
Qed.
Hypothesis LU : lu_ok nK lu_solve.
Hypothesis HR : regular MM p o inp lu_solve m F0 N.
Lemma forward_derivative d : with_sens o = true \/ (forall c, (c < nx + nu)%nat -> d c = 0) -> o_sens_forw_p o = true \/ (forall c, (c < np)%nat -> dp c = 0) ->
  (n_identity_seed inp = true -> forall r c, (r < nx)%nat -> (c < nx + nu)%nat -> n_S_forw inp r c = if (r =? c)%nat then 1 else 0) ->
  (forall r, (r < nx)%nat -> dx0 r = sum (nx + nu) (fun c => n_S_forw inp r c * d c)) -> (forall c, (c < nu)%nat -> du c = d (nx + c)%nat) ->
  forall n, (n <= N)%nat ->
    agree nx (ddx dx0 dk n) (sens_dx MM p o inp lu_solve m F0 d dp n) /\ ((n < N)%nat -> agree nK (dk n) (sens_dk MM p o inp lu_solve m F0 d dp n)).
Proof.
  intros W WP HI H0 Hu n Hn. apply (tangent_unique MM p o inp lu_solve m F0 N (ddx dx0 dk) dk _ _ du dp HR curve_tangent); [|intros r Hr|exact Hn].
  - intros k Hk. pose proof (fwd_tangent MM p o inp lu_solve HC m F0 LU N d dp HR W WP HI k Hk) as [A B]. split; [|exact B].
    intros i q Hi Hq. rewrite <- (A i q Hi Hq). f_equal. unfold rk_lin. f_equal. f_equal. apply sum_ext. intros c Hc. rewrite Hu by exact Hc. reflexivity.
  - cbn [ddx]. rewrite (H0 r Hr). unfold sens_dx. rewrite Ss_0. rewrite (sum_zero np); [ring|]. intros c Hc. change (0 * dp c = 0). ring.
Qed.
End S.
