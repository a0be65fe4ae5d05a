(** The spectral regularisations with the eigendecomposition of the library (reals). *)
From Coq Require Import ZArith List Bool Reals Lia Lra.
From Verif Require Import Arith Vec LinModel RSum RegModel PadeProofs InterpProofs RegProofs TredModel TqlModel TqlTop TqlCases.
Open Scope R_scope.

(** acados_eigen_decomposition as called by the regularisations; d0 and e0 are what the workspaces hold *)
Definition eigq (eps : R) (d0 e0 : vecR) (n : nat) (M : matR) : ql real := fst (eigen (A := real) sqrt eps n M d0 e0).
Definition eigf (eps : R) (d0 e0 : vecR) (n : nat) (M : matR) : matR * vecR := (tV (q_st (eigq eps d0 e0 n M)), td (q_st (eigq eps d0 e0 n M))).
(** the run of the decomposition for the Hessian M of a stage *)
Definition run (eps : R) (d0 e0 : vecR) (n : nat) (M : matR) : ql real := eigq eps d0 e0 n (fun i j => symmetrise (A := real) n M j i).

Section R.
Variables (eps : R) (d0 e0 : vecR) (r : reg real) (n : nat) (M : matR).
Hypothesis (He : 0 <= eps) (Sp : spectral r) (Ok : q_ok (run eps d0 e0 n M) = true).
Let S := symmetrise (A := real) n M.
Let V : matR := tV (q_st (run eps d0 e0 n M)).
Let d : vecR := td (q_st (run eps d0 e0 n M)).
Let tau := 2 * INR n * eps * q_tst1 (run eps d0 e0 n M).
Let R := reg_stage (A := real) (eigf eps d0 e0) r n M.
Lemma run_spec : (forall i j, (i < n)%nat -> (j < n)%nat -> sum n (fun a => V a i * V a j) = if (i =? j)%nat then 1 else 0) /\
  forall v, Rabs (quad n S v - quad n (reconstruct (A := real) n V d) v) <= tau * nrm2 n v.
Proof.
  assert (HS : forall a b, (a < n)%nat -> (b < n)%nat -> S a b = S b a) by (intros; apply symmetrise_sym; assumption).
  destruct (eigen_spec n eps (fun i j => S j i) d0 e0 S He) as (O & B).
  - intros a b Ha Hb. apply HS; lia.
  - exact HS.
  - exact Ok.
  - split; [exact O|]. intros v. specialize (B (proj n V v)). cbv zeta in B.
    assert (Y : forall a, (a < n)%nat -> sum n (fun j => V a j * proj n V v j) = v a).
    { intros a Ha. unfold proj. rewrite (sum_ext n _ (fun j => sum n (fun i => V a j * V i j * v i))) by (intros; rewrite <- sum_scal; apply sum_ext; intros; lra).
      rewrite sum_swap. rewrite (sum_ext n _ (fun i => (if (a =? i)%nat then 1 else 0) * v i)).
      - rewrite (sum_one n a); [rewrite Nat.eqb_refl; lra|exact Ha|]. intros k _ NE. destruct (Nat.eqb_spec a k); [congruence|lra].
      - intros i Hi. rewrite sum_scal_r. rewrite (orth_rows n V O a i Ha Hi). reflexivity. }
    rewrite quad_recon, <- (norm_proj n V v O).
    replace (quad n S v) with (sum n (fun a => sum n (fun b => sum n (fun j => V a j * proj n V v j) * S a b * sum n (fun j => V b j * proj n V v j)))); [exact B|].
    unfold quad. apply sum_ext. intros a Ha. apply sum_ext. intros b Hb. rewrite !Y by assumption. reflexivity.
Qed.
Lemma Ees : eigensystem n (reconstruct (A := real) n V d) V d.
Proof. apply (recon_eigen n (fun i j => sum n (fun k => V i k * d k * V j k)) V d). destruct run_spec as (O & _). split; [exact O|]. intros i k Hi Hk.
  rewrite (sum_ext n _ (fun j => sum n (fun l => V i l * d l * (V j l * V j k)))) by (intros; rewrite <- sum_scal_r; apply sum_ext; intros; lra).
  rewrite sum_swap, (sum_ext n _ (fun l => V i l * d l * (if (l =? k)%nat then 1 else 0))) by (intros; rewrite sum_scal, O by assumption; reflexivity).
  rewrite (sum_one n k); [rewrite Nat.eqb_refl; lra|exact Hk|]. intros l Hl NE. destruct (Nat.eqb_spec l k); [congruence|lra]. Qed.
Lemma Eeig : eigf eps d0 e0 n (fun i j => symmetrise (A := real) n M j i) = (V, d). Proof. reflexivity. Qed.
Lemma req : meq n R (reconstruct (A := real) n V (new_eig r n d)). Proof. exact (reg_spectral (eigf eps d0 e0) r n M V d Sp Eeig). Qed.
Lemma eig_pd v : reg_eps r n d * nrm2 n v <= quad n R v.
Proof. rewrite (quad_ext n _ _ v req). apply (quad_lower n _ V d _ v Ees). intros k _. apply Rmax_r. Qed.
Lemma eig_above v : quad n S v - tau * nrm2 n v <= quad n R v.
Proof.
  destruct run_spec as (O & B). specialize (B v). pose proof (Rle_abs (quad n S v - quad n (reconstruct (A := real) n V d) v)).
  assert (L : quad n (reconstruct (A := real) n V d) v <= quad n R v).
  { rewrite (quad_ext n _ _ v req), !quad_recon. apply sum_le. intros k Hk. apply Rmult_le_compat_r; [apply Rle_0_sqr|]. unfold new_eig. apply Rle_trans with (2 := Rmax_l _ _). destruct (mirrors r); [apply Rle_abs|lra]. }
  lra.
Qed.
Lemma eig_kept : (forall k, (k < n)%nat -> reg_eps r n d <= d k) -> (mirrors r = true -> forall k, (k < n)%nat -> 0 <= d k) -> forall v, Rabs (quad n R v - quad n S v) <= tau * nrm2 n v.
Proof.
  intros H P v. destruct run_spec as (O & B). rewrite Rabs_minus_sym. rewrite (quad_ext n _ _ v req).
  rewrite (quad_ext n (reconstruct (A := real) n V (new_eig r n d)) (reconstruct (A := real) n V d) v); [apply B|]. intros i j _ _. apply recon_ext.
  intros k Hk. unfold new_eig. destruct (mirrors r) eqn:Mr; [rewrite Rabs_right by (specialize (P eq_refl k Hk); lra)|]; apply Rmax_left, H, Hk.
Qed.
Lemma eig_cond c m : r = RProjectAdaptive c m \/ r = RMirrorAdaptive c m -> 1 <= c -> 0 < m -> forall v w, quad n R v * nrm2 n w <= c * (quad n R w * nrm2 n v).
Proof.
  intros K Hc Hm v w. set (M' := reconstruct (A := real) n V d).
  assert (SM : sym n M') by (intros i j Hi Hj; apply recon_sym; assumption).
  assert (E' : eigensystem n (symmetrise (A := real) n M') V d).
  { destruct Ees as (O & E). split; [exact O|]. intros i k Hi Hk. rewrite <- E by assumption. apply sum_ext. intros j Hj. rewrite (symmetrise_id n M' SM) by assumption. reflexivity. }
  pose proof (stage_cond (fun _ _ => (V, d)) r n M' V d Sp eq_refl E' c m K Hc Hm v w) as X.
  pose proof (reg_spectral (fun _ _ => (V, d)) r n M' V d Sp eq_refl) as Q.
  rewrite !(quad_ext n _ _ _ Q) in X. rewrite !(quad_ext n _ _ _ req). exact X.
Qed.
End R.
(** dimension two: no hypothesis on the run *)
Lemma run_two eps d0 e0 M : 0 <= eps -> q_ok (run eps d0 e0 2 M) = true.
Proof. intros H. apply two_ok. exact H. Qed.
