(** Regularisation in exact arithmetic. *)
From Coq Require Import ZArith List Bool Lia Reals Lra Psatz.
From Verif Require Import Arith Vec LinModel LinProofs LinSolve PadeModel RSum PadeProofs PadeTop InterpProofs RegModel.
Import ListNotations.
Open Scope R_scope.

Definition sym (n : nat) (M : matR) : Prop := forall i j, (i < n)%nat -> (j < n)%nat -> M i j = M j i.
(** what an exact eigendecomposition returns: orthonormal columns that are eigenvectors *)
Definition eigensystem (n : nat) (M V : matR) (d : vecR) : Prop :=
  (forall a b, (a < n)%nat -> (b < n)%nat -> sum n (fun k => V k a * V k b) = if (a =? b)%nat then 1 else 0) /\
  (forall i k, (i < n)%nat -> (k < n)%nat -> sum n (fun j => M i j * V j k) = d k * V i k).

(** orthonormal columns of a square matrix give orthonormal rows *)
Lemma orth_rows n (V : matR) : (forall a b, (a < n)%nat -> (b < n)%nat -> sum n (fun k => V k a * V k b) = if (a =? b)%nat then 1 else 0) ->
  forall i j, (i < n)%nat -> (j < n)%nat -> sum n (fun k => V i k * V j k) = if (i =? j)%nat then 1 else 0.
Proof.
  intros O. set (Vt := fun i j => V j i). assert (L : meq n (mm n Vt V) idm) by (intros a b Ha Hb; apply (O a b Ha Hb)).
  assert (NS : ~ singular n V).
  { intros (v & (k & Hk & Vk) & K). apply Vk.
    assert (E : sum n (fun b => mm n Vt V k b * v b) = 0).
    { unfold mm. rewrite (sum_ext n _ (fun b => sum n (fun l => Vt k l * V l b * v b))) by (intros; symmetry; apply sum_scal_r).
      rewrite sum_swap. apply sum_zero. intros l Hl. rewrite (sum_ext n _ (fun b => Vt k l * (V l b * v b))) by (intros; lra).
      rewrite sum_scal. unfold mv in K. rewrite K by exact Hl. lra. }
    rewrite (sum_ext n _ (fun b => idm k b * v b)) in E by (intros b Hb; rewrite L by assumption; reflexivity).
    rewrite (sum_one n k) in E; [|exact Hk|]. { unfold idm in E. rewrite Nat.eqb_refl in E. lra. }
    intros b Hb N. unfold idm. destruct (Nat.eqb_spec k b); [congruence|lra]. }
  destruct (dgesv_returns n V idm (fun _ => 0%nat)) as (R & _). specialize (R NS). set (Y := fst (dgesv n n V idm (fun _ => 0%nat))) in R.
  assert (EY : meq n Y Vt).
  { intros i j Hi Hj. rewrite <- (mm_id_l n Y i j Hi Hj). rewrite <- (mm_ext n _ _ Y Y L) by (try assumption; intros ? ? _ _; reflexivity).
    rewrite mm_assoc. rewrite (mm_ext n Vt Vt (mm n V Y) idm) by (try assumption; intros ? ? _ _; reflexivity). apply mm_id_r; assumption. }
  intros i j Hi Hj. change (mm n V Vt i j = idm i j). rewrite <- (R i j Hi Hj). apply mm_ext; try assumption; [intros ? ? _ _; reflexivity|apply meq_sym, EY].
Qed.
Lemma recon_eq n (V : matR) (d : vecR) i j : reconstruct (A := real) n V d i j = sum n (fun k => V i k * d k * V j k).
Proof.
  unfold reconstruct, recon_entry. destruct (j <=? i)%nat; rewrite vsum_sum; [reflexivity|]. apply sum_ext. intros k _.
  change (V j k * d k * V i k = V i k * d k * V j k). lra.
Qed.
Lemma recon_sym n V d : sym n (reconstruct (A := real) n V d).
Proof. intros i j _ _. rewrite !recon_eq. apply sum_ext. intros; lra. Qed.
(** the decomposition determines the matrix *)
Lemma eig_recon n M V d : eigensystem n M V d -> meq n (reconstruct (A := real) n V d) M.
Proof.
  intros (O & E) i j Hi Hj. rewrite recon_eq. pose proof (orth_rows n V O) as Rw.
  rewrite (sum_ext n _ (fun k => sum n (fun l => M i l * V l k * V j k))).
  2:{ intros k Hk. rewrite sum_scal_r, E by assumption. lra. }
  rewrite sum_swap. rewrite (sum_ext n _ (fun l => M i l * sum n (fun k => V l k * V j k))).
  2:{ intros l Hl. rewrite <- sum_scal. apply sum_ext. intros; lra. }
  rewrite (sum_one n j); [rewrite Rw, Nat.eqb_refl by assumption; lra|exact Hj|].
  intros l Hl N. rewrite Rw by assumption. destruct (Nat.eqb_spec l j); [congruence|lra].
Qed.
(** the quadratic form in the eigenbasis *)
Definition proj (n : nat) (V : matR) (v : vecR) (k : nat) : R := sum n (fun i => V i k * v i).
Lemma quad_ext n M M' v : meq n M M' -> quad n M v = quad n M' v.
Proof. intros H. unfold quad. apply sum_ext. intros i Hi. apply sum_ext. intros j Hj. rewrite H by assumption. reflexivity. Qed.
Lemma sum_prod n (f g : vecR) : sum n f * sum n g = sum n (fun i => sum n (fun j => f i * g j)).
Proof. rewrite <- sum_scal_r. apply sum_ext. intros. symmetry. apply sum_scal. Qed.
Lemma quad_recon n V d v : quad n (reconstruct (A := real) n V d) v = sum n (fun k => d k * (proj n V v k * proj n V v k)).
Proof.
  unfold quad, proj. rewrite (sum_ext n _ (fun i => sum n (fun j => sum n (fun k => d k * (V i k * v i * (V j k * v j)))))).
  2:{ intros i Hi. apply sum_ext. intros j Hj. rewrite recon_eq. replace (v i * sum n (fun k => V i k * d k * V j k) * v j) with ((v i * v j) * sum n (fun k => V i k * d k * V j k)) by lra.
      rewrite <- sum_scal. apply sum_ext. intros; lra. }
  rewrite (sum_ext n _ (fun i => sum n (fun k => sum n (fun j => d k * (V i k * v i * (V j k * v j)))))) by (intros; apply sum_swap).
  rewrite sum_swap. apply sum_ext. intros k Hk. rewrite sum_prod, <- sum_scal. apply sum_ext. intros i Hi. rewrite <- sum_scal. reflexivity.
Qed.
Lemma norm_proj n V v : (forall a b, (a < n)%nat -> (b < n)%nat -> sum n (fun k => V k a * V k b) = if (a =? b)%nat then 1 else 0) ->
  sum n (fun k => proj n V v k * proj n V v k) = nrm2 n v.
Proof.
  intros O. pose proof (orth_rows n V O) as Rw. pose proof (quad_recon n V (fun _ => 1) v) as Q.
  rewrite (sum_ext n (fun k => proj n V v k * proj n V v k) (fun k => 1 * (proj n V v k * proj n V v k))) by (intros; lra). rewrite <- Q.
  unfold quad, nrm2. apply sum_ext. intros i Hi. rewrite (sum_one n i); [|exact Hi|].
  - rewrite recon_eq. rewrite (sum_ext n _ (fun k => V i k * V i k)) by (intros; lra). rewrite Rw, Nat.eqb_refl by assumption. lra.
  - intros j Hj N. rewrite recon_eq, (sum_ext n _ (fun k => V i k * V j k)) by (intros; lra). rewrite Rw by assumption.
    destruct (Nat.eqb_spec i j); [congruence|lra].
Qed.
Lemma quad_lower n M V d c v : eigensystem n M V d -> forall f, (forall k, (k < n)%nat -> c <= f k) -> c * nrm2 n v <= quad n (reconstruct (A := real) n V f) v.
Proof.
  intros (O & _) f H. rewrite quad_recon, <- (norm_proj n V v O), <- sum_scal. apply sum_le. intros k Hk. apply Rmult_le_compat_r; [apply Rle_0_sqr|apply H, Hk].
Qed.
Lemma quad_upper n M V d c v : eigensystem n M V d -> forall f, (forall k, (k < n)%nat -> f k <= c) -> quad n (reconstruct (A := real) n V f) v <= c * nrm2 n v.
Proof.
  intros (O & _) f H. rewrite quad_recon, <- (norm_proj n V v O), <- sum_scal. apply sum_le. intros k Hk. apply Rmult_le_compat_r; [apply Rle_0_sqr|apply H, Hk].
Qed.
Lemma recon_ext n V d d' : (forall k, (k < n)%nat -> d k = d' k) -> forall i j, reconstruct (A := real) n V d i j = reconstruct (A := real) n V d' i j.
Proof. intros H i j. rewrite !recon_eq. apply sum_ext. intros k Hk. rewrite H by exact Hk. reflexivity. Qed.
(** eigenvectors are kept, eigenvalues are mapped *)
Lemma recon_eigen n M V d f : eigensystem n M V d -> eigensystem n (reconstruct (A := real) n V f) V f.
Proof.
  intros (O & _). split; [exact O|]. intros i k Hi Hk. rewrite (sum_ext n _ (fun j => sum n (fun l => V i l * f l * (V j l * V j k)))).
  2:{ intros j Hj. rewrite recon_eq, <- sum_scal_r. apply sum_ext. intros; lra. }
  rewrite sum_swap. rewrite (sum_ext n _ (fun l => V i l * f l * (if (l =? k)%nat then 1 else 0))).
  2:{ intros l Hl. rewrite sum_scal, O by assumption. reflexivity. }
  rewrite (sum_one n k); [rewrite Nat.eqb_refl; lra|exact Hk|]. intros l Hl N. destruct (Nat.eqb_spec l k); [congruence|lra].
Qed.

(** eigenvalue maps *)
Lemma project_eig_spec (eps x : R) : project_eig (A := real) eps x = Rmax x eps.
Proof. unfold project_eig. cbn. destruct (Rltb_spec x eps); unfold Rmax; destruct (Rle_dec _ _); lra. Qed.
Lemma mirror_eig_spec (eps x : R) : mirror_eig (A := real) eps x = Rmax (Rabs x) eps.
Proof.
  unfold mirror_eig. cbn. unfold Rmax, Rabs. destruct (Rleb_spec (- eps) x), (Rleb_spec x eps), (Rltb_spec x 0), (Rcase_abs x); cbn; destruct (Rle_dec _ _); lra.
Qed.
Fixpoint maxof (n : nat) (f : vecR) : R := match n with O => 0 | S m => Rmax (maxof m f) (f m) end.
Lemma maxof_ge n f : 0 <= maxof n f /\ forall k, (k < n)%nat -> f k <= maxof n f.
Proof.
  induction n as [|n [IH1 IH2]]; [split; [cbn; lra|lia]|]. cbn. pose proof (Rmax_l (maxof n f) (f n)). pose proof (Rmax_r (maxof n f) (f n)). split; [lra|].
  intros k Hk. destruct (Nat.eq_dec k n) as [->|]; [assumption|]. specialize (IH2 k ltac:(lia)). lra.
Qed.
Lemma maxof_loop n (f : vecR) : loop n (fun i m => nmax (A := real) m (f i)) 0 = maxof n f.
Proof. induction n as [|n IH]; [reflexivity|]. cbn [loop maxof]. rewrite IH. apply nmax_real. Qed.
Lemma eps_project_eq n d c m : eps_project (A := real) n d c m = Rmax (maxof n d / c) m.
Proof. unfold eps_project. rewrite nmax_real. f_equal. change (@ndiv real) with Rdiv. f_equal. apply maxof_loop. Qed.
Lemma eps_mirror_eq n d c m : eps_mirror (A := real) n d c m = Rmax (maxof n (fun i => Rabs (d i)) / c) m.
Proof. unfold eps_mirror. rewrite nmax_real. f_equal. change (@ndiv real) with Rdiv. f_equal. exact (maxof_loop n (fun i => Rabs (d i))). Qed.

(** the eigenvalue map of each spectral regularisation and its threshold *)
Definition reg_eps (r : reg real) (n : nat) (d : vecR) : R :=
  match r with
  | RProject e | RMirror e | RGlm e => e
  | RProjectAdaptive c m => Rmax (maxof n d / c) m
  | RMirrorAdaptive c m => Rmax (maxof n (fun i => Rabs (d i)) / c) m
  end.
Definition mirrors (r : reg real) : bool := match r with RMirror _ | RMirrorAdaptive _ _ => true | _ => false end.
Definition spectral (r : reg real) : Prop := match r with RGlm _ => False | _ => True end.
Definition new_eig (r : reg real) (n : nat) (d : vecR) (k : nat) : R := Rmax (if mirrors r then Rabs (d k) else d k) (reg_eps r n d).

Lemma symmetrise_sym n (M : matR) : sym n (symmetrise (A := real) n M).
Proof.
  intros i j Hi Hj. unfold symmetrise. destruct (Nat.ltb_spec i j), (Nat.ltb_spec j n), (Nat.ltb_spec j i), (Nat.ltb_spec i n); cbn; try lia; try reflexivity.
  replace j with i by lia. reflexivity.
Qed.
Lemma symmetrise_lower n (M : matR) i j : (j <= i)%nat -> symmetrise (A := real) n M i j = M i j.
Proof. intros H. unfold symmetrise. destruct (Nat.ltb_spec i j); [lia|reflexivity]. Qed.
Lemma symmetrise_id n (M : matR) : sym n M -> meq n (symmetrise (A := real) n M) M.
Proof. intros S i j Hi Hj. unfold symmetrise. destruct (Nat.ltb_spec i j), (Nat.ltb_spec j n); cbn; try reflexivity. apply S; assumption. Qed.
Lemma eigensystem_t n (M V : matR) d : sym n M -> eigensystem n M V d <-> eigensystem n (fun i j => M j i) V d.
Proof.
  intros S. split; intros (O & E); (split; [exact O|]); intros i k Hi Hk; rewrite <- E by assumption; apply sum_ext; intros j Hj; rewrite (S i j) by assumption; reflexivity.
Qed.
Lemma reg_spectral eig r n (M : matR) V d : spectral r -> eig n (fun i j => symmetrise (A := real) n M j i) = (V, d) ->
  meq n (reg_stage (A := real) eig r n M) (reconstruct (A := real) n V (new_eig r n d)).
Proof.
  intros Sp E i j Hi Hj. destruct r as [eps|eps|c m|c m|eps]; [| | | |destruct Sp]; unfold reg_stage, dense, new_eig, acados_project, acados_mirror, acados_project_adaptive, acados_mirror_adaptive; cbn [reg_eps mirrors] in *;
  change (num real) with R in *; rewrite E; destruct (Nat.ltb_spec i n); try lia; destruct (Nat.ltb_spec j n); try lia; cbn [andb];
  rewrite (recon_sym n V _ j i Hj Hi); apply recon_ext; intros k Hk.
  - apply project_eig_spec.
  - apply mirror_eig_spec.
  - rewrite eps_project_eq. apply project_eig_spec.
  - rewrite eps_mirror_eq. apply mirror_eig_spec.
Qed.

(** *** Gershgorin Levenberg-Marquardt *)
Lemma diag_quad n a (M : matR) v : quad n (diag_add (A := real) n a M) v = quad n M v + a * nrm2 n v.
Proof.
  unfold quad, nrm2. rewrite <- sum_scal, <- sum_plus. apply sum_ext. intros i Hi.
  rewrite (sum_ext n _ (fun j => v i * M i j * v j + (if (j =? i)%nat then a * (v i * v i) else 0))).
  2:{ intros j Hj. unfold diag_add. rewrite (Nat.eqb_sym i j). destruct (Nat.eqb_spec j i) as [->|]; cbn [andb].
      - destruct (Nat.ltb_spec i n); [|lia]. change (@nadd real) with Rplus. lra.
      - lra. }
  rewrite sum_plus. f_equal. rewrite (sum_one n i); [rewrite Nat.eqb_refl; reflexivity|exact Hi|]. intros k _ N. destruct (Nat.eqb_spec k i); [congruence|reflexivity].
Qed.
Lemma diag_sym n a (M : matR) : sym n M -> sym n (diag_add (A := real) n a M).
Proof.
  intros S i j Hi Hj. unfold diag_add. rewrite (Nat.eqb_sym j i). destruct (Nat.eqb_spec i j) as [->|]; cbn [andb]; [reflexivity|apply S; assumption].
Qed.
Lemma glm_pd eig eps n (M : matR) v : eps * nrm2 n v <= quad n (reg_stage (A := real) eig (RGlm eps) n M) v.
Proof.
  unfold reg_stage. set (S := symmetrise (A := real) n M). pose proof (gersh_quad n S v (symmetrise_sym n M)) as G.
  assert (P : 0 <= nrm2 n v) by (apply sum_nonneg; intros; apply Rle_0_sqr).
  revert G. generalize (gersh_min (A := real) n S). change (num real) with R. intros t G. change (@nltb real) with Rltb.
  destruct (Rltb_spec t eps) as [L|L].
  - rewrite diag_quad. unfold glm_alpha. change (@nltb real) with Rltb. change (@nadd real) with Rplus. change (@nabs real) with Rabs. change (@n0 real) with 0.
    destruct (Rltb_spec t 0) as [Z|Z]; [rewrite (Rabs_left t) by exact Z|]; nra.
  - nra.
Qed.
Lemma glm_sym eig eps n (M : matR) : sym n (reg_stage (A := real) eig (RGlm eps) n M).
Proof. unfold reg_stage. destruct (nltb _ _); [apply diag_sym|]; apply symmetrise_sym. Qed.
Lemma glm_unchanged eig eps n (M : matR) : eps <= gersh_min (A := real) n (symmetrise (A := real) n M) ->
  forall i j, reg_stage (A := real) eig (RGlm eps) n M i j = symmetrise (A := real) n M i j.
Proof.
  intros H i j. unfold reg_stage. change (@nltb real) with Rltb. destruct (Rltb_spec (gersh_min (A := real) n (symmetrise (A := real) n M)) eps) as [L|L]; [|reflexivity].
  exfalso. exact (Rlt_not_le _ _ L H).
Qed.
(** the whole sweep *)
Lemma regularize_stage eig r N n M : forall i, regularize (A := real) eig r N n M i = if (i <=? N)%nat then reg_stage (A := real) eig r (n i) (M i) else M i.
Proof.
  unfold regularize. intros i. rewrite Nat.add_1_r.
  assert (G : forall m, loop m (fun i M k => if (k =? i)%nat then reg_stage (A := real) eig r (n i) (M i) else M k) M i = if (i <? m)%nat then reg_stage (A := real) eig r (n i) (M i) else M i).
  { induction m as [|m IH]; [reflexivity|]. cbn [loop]. destruct (Nat.eqb_spec i m) as [->|Ne].
    - rewrite IH. destruct (Nat.ltb_spec m m); [lia|]. destruct (Nat.ltb_spec m (S m)); [reflexivity|lia].
    - rewrite IH. destruct (Nat.ltb_spec i m), (Nat.ltb_spec i (S m)); try lia; reflexivity. }
  rewrite G. destruct (Nat.ltb_spec i (S N)), (Nat.leb_spec i N); try lia; reflexivity.
Qed.

(** *** statements per stage *)
Section Stage.
Variables (eig : nat -> matR -> matR * vecR) (r : reg real) (n : nat) (M V : matR) (d : vecR).
Hypothesis (Sp : spectral r) (E : eig n (fun i j => symmetrise (A := real) n M j i) = (V, d)) (Ei : eigensystem n (symmetrise (A := real) n M) V d).
Let R := reg_stage (A := real) eig r n M.
Lemma stage_sym : sym n R.
Proof. intros i j Hi Hj. unfold R. rewrite !(reg_spectral eig r n M V d Sp E) by assumption. apply recon_sym; assumption. Qed.
Lemma stage_eigen : eigensystem n R V (new_eig r n d).
Proof.
  destruct (recon_eigen n _ V d (new_eig r n d) Ei) as (O & H). split; [exact O|]. intros i k Hi Hk. rewrite <- H by assumption.
  apply sum_ext. intros j Hj. unfold R. rewrite (reg_spectral eig r n M V d Sp E) by assumption. reflexivity.
Qed.
Lemma stage_pd v : reg_eps r n d * nrm2 n v <= quad n R v.
Proof.
  unfold R. rewrite (quad_ext n _ _ v (reg_spectral eig r n M V d Sp E)). apply (quad_lower n _ V d _ v Ei). intros k Hk. apply Rmax_r.
Qed.
Lemma stage_unchanged : (forall k, (k < n)%nat -> reg_eps r n d <= d k) -> (mirrors r = true -> forall k, (k < n)%nat -> 0 <= d k) -> meq n R (symmetrise (A := real) n M).
Proof.
  intros H P i j Hi Hj. unfold R. rewrite (reg_spectral eig r n M V d Sp E) by assumption. rewrite <- (eig_recon n _ V d Ei i j Hi Hj). apply recon_ext.
  intros k Hk. unfold new_eig. destruct (mirrors r) eqn:Mr; [rewrite Rabs_right by (specialize (P eq_refl k Hk); lra)|]; apply Rmax_left, H, Hk.
Qed.
Lemma stage_cond c m : r = RProjectAdaptive c m \/ r = RMirrorAdaptive c m -> 1 <= c -> 0 < m ->
  forall v w, quad n R v * nrm2 n w <= c * (quad n R w * nrm2 n v).
Proof.
  intros K Hc Hm v w. set (e := reg_eps r n d).
  assert (He : 0 < e /\ forall k, (k < n)%nat -> (if mirrors r then Rabs (d k) else d k) <= c * e).
  { unfold e. destruct K as [-> | ->]; cbn [reg_eps mirrors].
    - pose proof (maxof_ge n d) as [M0 M1]. pose proof (Rmax_l (maxof n d / c) m). pose proof (Rmax_r (maxof n d / c) m). split; [lra|].
      intros k Hk. specialize (M1 k Hk). apply Rle_trans with (1 := M1). apply Rle_trans with (c * (maxof n d / c)); [right; field; lra|]. apply Rmult_le_compat_l; lra.
    - pose proof (maxof_ge n (fun i => Rabs (d i))) as [M0 M1]. pose proof (Rmax_l (maxof n (fun i => Rabs (d i)) / c) m). pose proof (Rmax_r (maxof n (fun i => Rabs (d i)) / c) m). split; [lra|].
      intros k Hk. specialize (M1 k Hk). cbv beta in M1. apply Rle_trans with (1 := M1). apply Rle_trans with (c * (maxof n (fun i => Rabs (d i)) / c)); [right; field; lra|]. apply Rmult_le_compat_l; lra. }
  destruct He as [He Hk]. pose proof (stage_pd w) as L. fold e in L.
  assert (U : quad n R v <= (c * e) * nrm2 n v).
  { unfold R. rewrite (quad_ext n _ _ v (reg_spectral eig r n M V d Sp E)). apply (quad_upper n _ V d _ v Ei). intros k Hk'. unfold new_eig. fold e.
    apply Rmax_lub; [apply Hk, Hk'|nra]. }
  assert (P1 : 0 <= nrm2 n v) by (apply sum_nonneg; intros; apply Rle_0_sqr). assert (P2 : 0 <= nrm2 n w) by (apply sum_nonneg; intros; apply Rle_0_sqr).
  apply Rle_trans with (c * e * nrm2 n v * nrm2 n w); [apply Rmult_le_compat_r; assumption|].
  replace (c * e * nrm2 n v * nrm2 n w) with (c * ((e * nrm2 n w) * nrm2 n v)) by lra. apply Rmult_le_compat_l; [lra|]. apply Rmult_le_compat_r; assumption.
Qed.
End Stage.

(** a 2 x 2 Hessian with eigenvalues -25 and 50 *)
Definition ex_H : matR := fun i j => match i, j with 0%nat, 0%nat => 23 | 1%nat, 1%nat => 2 | _, _ => -36 end.
Definition ex_V : matR := fun i j => match i, j with 0%nat, 0%nat => 3 / 5 | 0%nat, _ => - (4 / 5) | _, 0%nat => 4 / 5 | _, _ => 3 / 5 end.
Definition ex_d : vecR := fun k => match k with 0%nat => -25 | _ => 50 end.
Lemma ex_eigensystem : eigensystem 2 (symmetrise (A := real) 2 ex_H) ex_V ex_d.
Proof.
  split.
  - intros a b Ha Hb. destruct a as [|[|a]], b as [|[|b]]; try lia; unfold ex_V; cbn; lra.
  - intros i k Hi Hk. destruct i as [|[|i]], k as [|[|k]]; try lia; unfold symmetrise, ex_H, ex_V, ex_d; cbn; lra.
Qed.
Lemma ex_project : let R := reg_stage (A := real) (fun _ _ => (ex_V, ex_d)) (RProject (1%R : R)) 2 ex_H in
  R 0%nat 0%nat = 809 / 25 /\ R 0%nat 1%nat = - (588 / 25) /\ R 1%nat 0%nat = - (588 / 25) /\ R 1%nat 1%nat = 466 / 25.
Proof.
  cbv zeta. pose proof (reg_spectral (fun _ _ => (ex_V, ex_d)) (RProject (1%R : R)) 2 ex_H ex_V ex_d I eq_refl) as Q.
  rewrite !Q by lia. rewrite !recon_eq. unfold new_eig, ex_V, ex_d. cbn [sum mirrors reg_eps]. rewrite (Rmax_right (-25) 1), (Rmax_left 50 1) by lra. repeat split; lra.
Qed.
Lemma ex_glm : let R := reg_stage (A := real) (fun _ _ => (ex_V, ex_d)) (RGlm (1%R : R)) 2 ex_H in
  R 0%nat 0%nat = 58 /\ R 0%nat 1%nat = -36 /\ R 1%nat 1%nat = 37.
Proof.
  cbv zeta. unfold reg_stage. assert (G : gersh_min (A := real) 2 (symmetrise (A := real) 2 ex_H) = -34).
  { assert (A1 : Rabs (-36) = 36) by (rewrite Rabs_left; lra).
    change (gersh_min (A := real) 2 (symmetrise (A := real) 2 ex_H)) with (loop 2 (fun i m => nmin (A := real) m (symmetrise (A := real) 2 ex_H i i - radius 2 (symmetrise (A := real) 2 ex_H) i)) 10000000000).
    cbn [loop]. rewrite !nmin_real. unfold radius, symmetrise, ex_H. cbn. rewrite A1. unfold Rmin. repeat (destruct (Rle_dec _ _)); lra. }
  change (num real) with R in *. rewrite G. change (@nltb real) with Rltb. destruct (Rltb_spec (-34) 1); [|lra].
  unfold glm_alpha. change (@nltb real) with Rltb. change (@n0 real) with 0. destruct (Rltb_spec (-34) 0); [|lra].
  change (@nabs real) with Rabs. change (@nadd real) with Rplus. rewrite (Rabs_left (-34)) by lra. unfold diag_add, symmetrise, ex_H. cbn. repeat split; lra.
Qed.
