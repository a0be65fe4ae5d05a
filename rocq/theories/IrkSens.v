(** Forward and adjoint sensitivities of the implicit integrator. *)
From Coq Require Import ZArith List Bool Arith Lia Reals Lra.
From Coquelicot Require Import Coquelicot.
From Verif Require Import Arith Vec LinModel CollModel RSum BghAdjProofs MeritGradProofs IrkModel IrkSpec IrkProofs.
Import ListNotations.
Open Scope R_scope.

Lemma loop_S {B} n (f : nat -> B -> B) x : loop (S n) f x = f n (loop n f x).
Proof. reflexivity. Qed.
Lemma sum_lin n m (f : vecR) (C : matR) (d : vecR) : sum n (fun k => f k * sum m (fun c => C k c * d c)) = sum m (fun c => sum n (fun k => f k * C k c) * d c).
Proof.
  rewrite (sum_ext n _ (fun k => sum m (fun c => f k * C k c * d c))) by (intros; rewrite <- sum_scal; apply sum_ext; intros; ring).
  rewrite sum_swap. apply sum_ext. intros c _. rewrite <- sum_scal_r. reflexivity.
Qed.

Section S.
Variable MM : vecR -> irk_model real.
Variable p : vecR.
Notation M := (MM p).
Variable o : irk_opts real.
Variable inp : irk_in real.
Variable lu_solve lu_solve_t : nat -> matR -> vecR -> vecR.
Notation nx := (o_nx o). Notation nu := (o_nu o). Notation nz := (o_nz o). Notation np := (o_np o). Notation ns := (o_ns o).
Notation nf := (nx + nz)%nat.
Notation nK := ((nx + nz) * ns)%nat.
Notation h := (step o inp).
Notation u := (n_u inp).
Definition tm (ss : nat) : R := n_t0 inp + of_nat (A := real) ss * h.
Hypothesis HC : irk_consistent MM nx nu nz np.

Lemma stage_agree (x K : vecR) i : agree nx (stage_x o inp x K i) (rk_stage o h x K i).
Proof. intros r Hr. apply stage_x_val. exact Hr. Qed.
Lemma at_fx ss (x K : vecR) i q c : (q < nf)%nat -> (c < nx)%nat -> at_stage o inp (m_fx M) ss x K i q c = rk_arg o h (m_fx M) (tm ss) x u K i q c.
Proof. intros Hq Hc. apply (ic_loc _ _ _ _ _ HC p); try assumption; try (intros k _; reflexivity). apply stage_agree. Qed.
Lemma at_fk ss (x K : vecR) i q c : (q < nf)%nat -> (c < nx)%nat -> at_stage o inp (m_fk M) ss x K i q c = rk_arg o h (m_fk M) (tm ss) x u K i q c.
Proof. intros Hq Hc. apply (ic_loc _ _ _ _ _ HC p); try assumption; try (intros k _; reflexivity). apply stage_agree. Qed.
Lemma at_fu ss (x K : vecR) i q c : (q < nf)%nat -> (c < nu)%nat -> at_stage o inp (m_fu M) ss x K i q c = rk_arg o h (m_fu M) (tm ss) x u K i q c.
Proof. intros Hq Hc. apply (ic_loc _ _ _ _ _ HC p); try assumption; try (intros k _; reflexivity). apply stage_agree. Qed.
Lemma at_fz ss (x K : vecR) i q c : (q < nf)%nat -> (c < nz)%nat -> at_stage o inp (m_fz M) ss x K i q c = rk_arg o h (m_fz M) (tm ss) x u K i q c.
Proof. intros Hq Hc. apply (ic_loc _ _ _ _ _ HC p); try assumption; try (intros k _; reflexivity). apply stage_agree. Qed.
Lemma at_fp ss (x K : vecR) i q c : (q < nf)%nat -> (c < np)%nat -> at_stage o inp (m_fp M) ss x K i q c = rk_arg o h (m_fp M) (tm ss) x u K i q c.
Proof. intros Hq Hc. apply (ic_loc _ _ _ _ _ HC p); try assumption; try (intros k _; reflexivity). apply stage_agree. Qed.
Lemma lin_rk ss (x K : vecR) i q (dx dK du : vecR) : (q < nf)%nat -> lin M o inp ss x K i q dx dK du = rk_lin o h M (tm ss) x u K i q dx dK du.
Proof.
  intros Hq. unfold lin, rk_lin. f_equal; [f_equal; [f_equal|]|]; apply sum_ext; intros c Hc; f_equal.
  - now apply at_fx.
  - now apply at_fk.
  - now apply at_fu.
  - now apply at_fz.
Qed.
Lemma stage_ext (x x' K K' : vecR) i : (i < ns)%nat -> agree nx x x' -> agree nK K K' -> agree nx (rk_stage o h x K i) (rk_stage o h x' K' i).
Proof.
  intros Hi Hx HK r Hr. unfold rk_stage. rewrite (Hx r Hr). f_equal. f_equal. apply sum_ext. intros j Hj. rewrite HK; [reflexivity|]. pose proof (blk_lt j ns r nx Hj Hr). nia.
Qed.
Lemma k_ext (K K' : vecR) i : (i < ns)%nat -> agree nK K K' -> agree nx (fun k => K (i * nx + k)%nat) (fun k => K' (i * nx + k)%nat).
Proof. intros Hi HK r Hr. apply HK. pose proof (blk_lt i ns r nx Hi Hr). nia. Qed.
Lemma z_ext (K K' : vecR) i : (i < ns)%nat -> agree nK K K' -> agree nz (fun k => K (ns * nx + i * nz + k)%nat) (fun k => K' (ns * nx + i * nz + k)%nat).
Proof. intros Hi HK r Hr. apply HK. pose proof (blk_lt i ns r nz Hi Hr). nia. Qed.
Lemma rk_lin_ext t (x x' w w' K K' : vecR) i q (dx dK du : vecR) : (i < ns)%nat -> (q < nf)%nat -> agree nx x x' -> agree nu w w' -> agree nK K K' ->
  rk_lin o h M t x w K i q dx dK du = rk_lin o h M t x' w' K' i q dx dK du.
Proof.
  intros Hi Hq Hx Hw HK. unfold rk_lin, rk_arg.
  destruct (ic_loc _ _ _ _ _ HC p _ _ _ _ _ _ _ _ (t + o_c o i * h) (stage_ext x x' K K' i Hi Hx HK) (k_ext K K' i Hi HK) Hw (z_ext K K' i Hi HK)) as [Ex [Ek [Eu [Ez _]]]].
  f_equal; [f_equal; [f_equal|]|]; apply sum_ext; intros c Hc; f_equal; auto.
Qed.
Lemma rk_fp_ext t (x x' w w' K K' : vecR) i q c : (i < ns)%nat -> (q < nf)%nat -> (c < np)%nat -> agree nx x x' -> agree nu w w' -> agree nK K K' ->
  rk_arg o h (m_fp M) t x w K i q c = rk_arg o h (m_fp M) t x' w' K' i q c.
Proof.
  intros Hi Hq Hc Hx Hw HK. unfold rk_arg.
  destruct (ic_loc _ _ _ _ _ HC p _ _ _ _ _ _ _ _ (t + o_c o i * h) (stage_ext x x' K K' i Hi Hx HK) (k_ext K K' i Hi HK) Hw (z_ext K K' i Hi HK)) as [_ [_ [_ [_ E]]]]. auto.
Qed.
Lemma regular_nonsing ss (x K : vecR) : rk_regular o h M (tm ss) x u K -> nonsing nK (dG_dK M o inp ss x K).
Proof.
  intros HR y Hy. apply HR. intros i q Hi Hq. rewrite <- lin_rk by exact Hq. rewrite <- dG_dK_row by assumption. apply Hy.
  pose proof (blk_lt i ns q nf Hi Hq). nia.
Qed.

(** the state before step n and the stage variables of step n *)
Variable m : irk_mem real.
Variable F0 : matR.
Notation fwd := (forward M o inp lu_solve m F0).
Definition xs n := s_x (fwd n).
Definition Ks n := s_K (fwd (S n)).
Definition Ss n := s_S (fwd n).
Definition Sps n := s_Sp (fwd n).
Definition dKs n : matR := lu_cols o lu_solve (dG_dK M o inp n (xs n) (Ks n)) (dK_rhs o inp n (dG_dxu M o inp n (xs n) (Ks n)) (Ss n)).
Definition dKps n : matR := lu_cols o lu_solve (dG_dK M o inp n (xs n) (Ks n)) (dK_dp M o inp n (xs n) (Ks n) (dG_dxu M o inp n (xs n) (Ks n)) (Sps n)).
Lemma fwd_S n : fwd (S n) = irk_step M o inp lu_solve n (fwd n).
Proof. reflexivity. Qed.
Lemma Ks_newton n : Ks n = fst (newton M o inp lu_solve (o_newton_iter o) 0 n (xs n) (s_K (fwd n)) (s_F (fwd n))).
Proof. unfold Ks, xs. rewrite fwd_S. unfold irk_step. destruct (newton _ _ _ _ _ _ _ _ _ _) as [K F]. reflexivity. Qed.
Lemma xs_S n : agree nx (xs (S n)) (rk_next o h (xs n) (Ks n)).
Proof.
  intros r Hr. unfold Ks, xs. rewrite fwd_S. unfold irk_step. destruct (newton _ _ _ _ _ _ _ _ _ _) as [K F]. cbn [s_x s_K].
  rewrite (loop_add (B := nat) ns (fun j r => h * o_b o j * K (j * nx + r)%nat)).
  - unfold rk_next. f_equal. rewrite <- sum_scal. apply sum_ext. intros. apply Rmult_assoc.
  - intros j y _. cbv zeta. rewrite (proj2 (Nat.ltb_lt _ _) Hr). apply Rplus_comm.
Qed.
Lemma Ss_S n : with_sens o = true -> Ss (S n) = add_stages o inp (nx + nu) (dKs n) (Ss n).
Proof. intros W. unfold Ss, dKs, Ks, xs. rewrite fwd_S. unfold irk_step. destruct (newton _ _ _ _ _ _ _ _ _ _) as [K F]. cbn [s_x s_K s_S]. rewrite W. reflexivity. Qed.
Lemma Sps_S n : o_sens_forw_p o = true -> (0 < np)%nat -> Sps (S n) = add_stages o inp np (dKps n) (Sps n).
Proof.
  intros W Hp. unfold Sps, dKps, Ks, xs. rewrite fwd_S. unfold irk_step. destruct (newton _ _ _ _ _ _ _ _ _ _) as [K F]. cbn [s_x s_K s_Sp]. rewrite W.
  rewrite (proj2 (Nat.ltb_lt _ _) Hp). cbn [andb]. rewrite orb_true_r. reflexivity.
Qed.

(** a solution of the linearized equations of the first N steps *)
Definition tangent (N : nat) (dx dk : nat -> vecR) (du dp : vecR) : Prop := forall n, (n < N)%nat ->
  (forall i q, (i < ns)%nat -> (q < nf)%nat -> rk_lin o h M (tm n) (xs n) u (Ks n) i q (dx n) (dk n) du + sum np (fun c => rk_arg o h (m_fp M) (tm n) (xs n) u (Ks n) i q c * dp c) = 0) /\
  agree nx (dx (S n)) (rk_next o h (dx n) (dk n)).
Definition regular N := forall n, (n < N)%nat -> rk_regular o h M (tm n) (xs n) u (Ks n).

Lemma rk_lin_split t (x w K : vecR) i q (dx dK du : vecR) :
  rk_lin o h M t x w K i q dx dK du = rk_lin o h M t x w K i q (fun _ => 0) dK (fun _ => 0) + rk_lin o h M t x w K i q dx (fun _ => 0) du.
Proof.
  unfold rk_lin. rewrite (sum_ext nx _ (fun c => rk_arg o h (m_fx M) t x w K i q c * rk_stage o h (fun _ => 0) dK i c + rk_arg o h (m_fx M) t x w K i q c * rk_stage o h dx (fun _ => 0) i c)).
  2:{ intros c _. unfold rk_stage. rewrite (sum_zero ns (fun j => o_A o i j * 0)) by (intros; ring). ring. }
  rewrite sum_plus. rewrite (sum_zero nx (fun c => rk_arg o h (m_fk M) t x w K i q c * 0)), (sum_zero nz (fun c => rk_arg o h (m_fz M) t x w K i q c * 0)), (sum_zero nu (fun c => rk_arg o h (m_fu M) t x w K i q c * 0)) by (intros; ring). lra.
Qed.
Lemma rk_lin_dk t (x w K : vecR) i q (a b : R) (dK dK' : vecR) :
  rk_lin o h M t x w K i q (fun _ => 0) (fun k => a * dK k + b * dK' k) (fun _ => 0) = a * rk_lin o h M t x w K i q (fun _ => 0) dK (fun _ => 0) + b * rk_lin o h M t x w K i q (fun _ => 0) dK' (fun _ => 0).
Proof.
  unfold rk_lin, rk_stage. rewrite (sum_zero nu (fun c => rk_arg o h (m_fu M) t x w K i q c * 0)) by (intros; ring).
  rewrite (sum_ext nx _ (fun c => a * (rk_arg o h (m_fx M) t x w K i q c * (0 + h * sum ns (fun j => o_A o i j * dK (j * nx + c)%nat))) + b * (rk_arg o h (m_fx M) t x w K i q c * (0 + h * sum ns (fun j => o_A o i j * dK' (j * nx + c)%nat))))).
  2:{ intros c _. rewrite (sum_ext ns _ (fun j => a * (o_A o i j * dK (j * nx + c)%nat) + b * (o_A o i j * dK' (j * nx + c)%nat))) by (intros; ring). rewrite sum_plus, !sum_scal. ring. }
  rewrite (sum_ext nx (fun c => rk_arg o h (m_fk M) t x w K i q c * _) (fun c => a * (rk_arg o h (m_fk M) t x w K i q c * dK (i * nx + c)%nat) + b * (rk_arg o h (m_fk M) t x w K i q c * dK' (i * nx + c)%nat))) by (intros; ring).
  rewrite (sum_ext nz _ (fun c => a * (rk_arg o h (m_fz M) t x w K i q c * dK (ns * nx + i * nz + c)%nat) + b * (rk_arg o h (m_fz M) t x w K i q c * dK' (ns * nx + i * nz + c)%nat))) by (intros; ring).
  rewrite !sum_plus, !sum_scal. ring.
Qed.
Lemma rk_lin_dx t (x w K : vecR) i q (dx dx' du : vecR) : agree nx dx dx' -> rk_lin o h M t x w K i q dx (fun _ => 0) du = rk_lin o h M t x w K i q dx' (fun _ => 0) du.
Proof.
  intros H. unfold rk_lin. f_equal. f_equal. f_equal. apply sum_ext. intros c Hc. unfold rk_stage. rewrite (H c Hc). reflexivity.
Qed.
(** two tangents with the same start agree *)
Lemma tangent_unique N dx dk dx' dk' du dp : regular N -> tangent N dx dk du dp -> tangent N dx' dk' du dp -> agree nx (dx 0%nat) (dx' 0%nat) ->
  forall n, (n <= N)%nat -> agree nx (dx n) (dx' n) /\ ((n < N)%nat -> agree nK (dk n) (dk' n)).
Proof.
  intros HR T1 T2 H0. assert (HK : forall n, (n < N)%nat -> agree nx (dx n) (dx' n) -> agree nK (dk n) (dk' n)).
  { intros n Hn Hx k Hk. assert (E : 1 * dk n k + (-1) * dk' n k = 0); [|lra]. apply (HR n Hn (fun k => 1 * dk n k + (-1) * dk' n k)); [|exact Hk].
    intros i q Hi Hq. rewrite rk_lin_dk. pose proof (proj1 (T1 n Hn) i q Hi Hq) as A1. pose proof (proj1 (T2 n Hn) i q Hi Hq) as A2.
    rewrite rk_lin_split in A1, A2. rewrite (rk_lin_dx _ _ _ _ _ _ _ _ _ Hx) in A1. lra. }
  induction n as [|n IH]; intros Hn; [split; [exact H0|intros L; apply HK; [exact L|exact H0]]|].
  destruct (IH ltac:(lia)) as [Hx Hk]. specialize (Hk ltac:(lia)).
  assert (Hx' : agree nx (dx (S n)) (dx' (S n))).
  { intros r Hr. rewrite (proj2 (T1 n ltac:(lia)) r Hr), (proj2 (T2 n ltac:(lia)) r Hr). unfold rk_next. rewrite (Hx r Hr). f_equal. f_equal. apply sum_ext. intros j Hj. f_equal.
    apply Hk. pose proof (blk_lt j ns r nx Hj Hr). nia. }
  split; [exact Hx'|]. intros L. now apply HK.
Qed.

(** the forward sensitivities as a tangent *)
Hypothesis LU : lu_ok nK lu_solve.
Definition sens_dx (d dp : vecR) (n : nat) : vecR := fun r => sum (nx + nu) (fun c => Ss n r c * d c) + sum np (fun c => Sps n r c * dp c).
Definition sens_dk (d dp : vecR) (n : nat) : vecR := fun k => - (sum (nx + nu) (fun c => dKs n k c * d c) + sum np (fun c => dKps n k c * dp c)).
Lemma cols_solve (F R : matR) n (d : vecR) k : nonsing nK F -> (k < nK)%nat ->
  sum nK (fun j => F k j * sum n (fun c => lu_cols o lu_solve F R j c * d c)) = sum n (fun c => R k c * d c).
Proof.
  intros HF Hk. rewrite sum_lin. apply sum_ext. intros c _. f_equal. unfold lu_cols. apply (LU F (fun k => R k c) HF k Hk).
Qed.
Lemma rhs_row n (G S : matR) (d : vecR) k : (k < nK)%nat ->
  (n_identity_seed inp = true -> n = 0%nat -> forall r c, (r < nx)%nat -> (c < nx + nu)%nat -> S r c = if (r =? c)%nat then 1 else 0) ->
  sum (nx + nu) (fun c => dK_rhs o inp n G S k c * d c) = sum nx (fun j => G k j * sum (nx + nu) (fun c => S j c * d c)) + sum nu (fun c => G k (nx + c)%nat * d (nx + c)%nat).
Proof.
  intros Hk HI. unfold dK_rhs. destruct (n_identity_seed inp && (n =? 0)%nat) eqn:E.
  - apply andb_true_iff in E as [E1 E2]. apply Nat.eqb_eq in E2. rewrite sum_split. f_equal. apply sum_ext. intros j Hj. f_equal.
    rewrite (sum_one (nx + nu) j); [|lia|].
    + rewrite (HI E1 E2 j j) by lia. rewrite Nat.eqb_refl. ring.
    + intros c Hc N. rewrite (HI E1 E2 j c) by lia. rewrite (proj2 (Nat.eqb_neq j c)) by lia. ring.
  - clear E HI. rewrite sum_lin.
    rewrite (sum_ext (nx + nu) (fun c => gead _ _ _ _ _ _ _ _ _ * _) (fun c => sum nx (fun j => G k j * S j c) * d c + (if (nx <=? c)%nat then G k c else 0) * d c)).
    + rewrite sum_plus. f_equal. rewrite sum_split. rewrite (sum_zero nx) by (intros c Hc; destruct (Nat.leb_spec nx c); [lia|ring]).
      rewrite Rplus_0_l. apply sum_ext. intros c _. destruct (Nat.leb_spec nx (nx + c)); [reflexivity|lia].
    + intros c Hc. rewrite gead_real. rewrite (proj2 (inblk_in 0 _ k)) by lia. cbn [andb]. rewrite Nat.sub_0_r.
      change (vsum (A := real) nx (fun k0 => nmul (a := real) (G k k0) (S k0 c))) with (sum nx (fun j => G k j * S j c)).
      match goal with |- ?a = ?b => change (@eq R a b) end. destruct (Nat.leb_spec nx c) as [L|L].
      * rewrite (proj2 (inblk_in nx nu c)) by lia. replace (nx + (c - nx))%nat with c by lia. cbn. ring.
      * rewrite (inblk_out nx nu c) by lia. cbn. ring.
Qed.
Lemma dKdp_row n (x K : vecR) (G Sp : matR) (dp : vecR) i q : (i < ns)%nat -> (q < nf)%nat ->
  sum np (fun c => dK_dp M o inp n x K G Sp (i * nf + q)%nat c * dp c) =
    sum nx (fun j => G (i * nf + q)%nat j * sum np (fun c => Sp j c * dp c)) + sum np (fun c => rk_arg o h (m_fp M) (tm n) x u K i q c * dp c).
Proof.
  intros Hi Hq. rewrite sum_lin, <- sum_plus. apply sum_ext. intros c Hc. unfold dK_dp.
  rewrite (loop_add2 ns (fun j => if (j =? i)%nat then at_stage o inp (m_fp M) n x K i q c else 0)).
  - rewrite (sum_one ns i); [|exact Hi|intros j _ N; rewrite (proj2 (Nat.eqb_neq j i) N); reflexivity]. rewrite Nat.eqb_refl, at_fp by assumption.
    change (vsum (A := real) nx (fun k0 => nmul (a := real) (G (i * nf + q)%nat k0) (Sp k0 c))) with (sum nx (fun j => G (i * nf + q)%nat j * Sp j c)). cbn. ring.
  - intros j D _. rewrite gead_real, inblk_blk by exact Hq. rewrite (proj2 (inblk_in 0 np c)) by lia. rewrite Nat.eqb_sym, andb_true_r.
    destruct (Nat.eqb_spec j i) as [->|N]; [|reflexivity]. rewrite blk_sub, Nat.sub_0_r. cbn. ring.
Qed.
Lemma Ss_next d n : with_sens o = true \/ (forall c, (c < nx + nu)%nat -> d c = 0) ->
  forall r, (r < nx)%nat -> sum (nx + nu) (fun c => Ss (S n) r c * d c) = sum (nx + nu) (fun c => Ss n r c * d c) - h * sum ns (fun j => o_b o j * sum (nx + nu) (fun c => dKs n (j * nx + r)%nat c * d c)).
Proof.
  intros [W|Z] r Hr.
  - rewrite Ss_S by exact W. rewrite sum_lin, <- sum_scal, <- sum_minus. apply sum_ext. intros c Hc. rewrite add_stages_val by assumption. ring.
  - rewrite !(sum_zero (nx + nu)) by (intros c Hc; rewrite (Z c Hc); ring). rewrite (sum_zero ns); [ring|].
    intros j Hj. rewrite (sum_zero (nx + nu)); [ring|]. intros c Hc. rewrite (Z c Hc). ring.
Qed.
Lemma Sps_next dp n : o_sens_forw_p o = true \/ (forall c, (c < np)%nat -> dp c = 0) ->
  forall r, (r < nx)%nat -> sum np (fun c => Sps (S n) r c * dp c) = sum np (fun c => Sps n r c * dp c) - h * sum ns (fun j => o_b o j * sum np (fun c => dKps n (j * nx + r)%nat c * dp c)).
Proof.
  intros [W|Z] r Hr.
  - rewrite sum_lin, <- sum_scal, <- sum_minus. apply sum_ext. intros c Hc. rewrite Sps_S by (assumption || lia). rewrite add_stages_val by assumption. ring.
  - rewrite !(sum_zero np) by (intros c Hc; rewrite (Z c Hc); ring). rewrite (sum_zero ns); [ring|].
    intros j Hj. rewrite (sum_zero np); [ring|]. intros c Hc. rewrite (Z c Hc). ring.
Qed.
Lemma Ss_0 : Ss 0 = n_S_forw inp. Proof. reflexivity. Qed.
Lemma fwd_tangent N d dp : regular N -> with_sens o = true \/ (forall c, (c < nx + nu)%nat -> d c = 0) -> o_sens_forw_p o = true \/ (forall c, (c < np)%nat -> dp c = 0) ->
  (n_identity_seed inp = true -> forall r c, (r < nx)%nat -> (c < nx + nu)%nat -> n_S_forw inp r c = if (r =? c)%nat then 1 else 0) ->
  tangent N (sens_dx d dp) (sens_dk d dp) (fun c => d (nx + c)%nat) dp.
Proof.
  intros HR W WP HI n Hn. split.
  - intros i q Hi Hq. rewrite rk_lin_split. rewrite <- !lin_rk by exact Hq. rewrite <- dG_dK_row, <- dG_dxu_row by assumption.
    assert (Hk : (i * nf + q < nK)%nat) by (pose proof (blk_lt i ns q nf Hi Hq); nia).
    pose proof (regular_nonsing n (xs n) (Ks n) (HR n Hn)) as HF.
    rewrite (sum_ext nK _ (fun k => - (dG_dK M o inp n (xs n) (Ks n) (i * nf + q)%nat k * sum (nx + nu) (fun c => dKs n k c * d c) +
        dG_dK M o inp n (xs n) (Ks n) (i * nf + q)%nat k * sum np (fun c => dKps n k c * dp c)))) by (intros; unfold sens_dk; ring).
    rewrite sum_opp, sum_plus. unfold dKs, dKps. rewrite !cols_solve by assumption. rewrite dKdp_row by assumption.
    rewrite rhs_row; [|exact Hk|].
    + unfold sens_dx at 1. rewrite (sum_ext nx (fun k => dG_dxu M o inp n (xs n) (Ks n) (i * nf + q)%nat k * (_ + _)) (fun k => dG_dxu M o inp n (xs n) (Ks n) (i * nf + q)%nat k * sum (nx + nu) (fun c => Ss n k c * d c) +
         dG_dxu M o inp n (xs n) (Ks n) (i * nf + q)%nat k * sum np (fun c => Sps n k c * dp c))) by (intros; ring). rewrite sum_plus. ring.
    + intros E1 ->. rewrite Ss_0. exact (HI E1).
  - intros r Hr. unfold sens_dx at 1. rewrite Ss_next, Sps_next by assumption. unfold rk_next, sens_dx, sens_dk.
    rewrite (sum_ext ns (fun j => o_b o j * - (_ + _)) (fun j => - (o_b o j * sum (nx + nu) (fun c => dKs n (j * nx + r)%nat c * d c) + o_b o j * sum np (fun c => dKps n (j * nx + r)%nat c * dp c)))) by (intros; ring).
    rewrite sum_opp, sum_plus. ring.
Qed.
End S.
