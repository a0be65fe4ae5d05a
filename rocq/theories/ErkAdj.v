(** The adjoint sweep of the explicit integrator. *)
From Coq Require Import ZArith List Bool Lia Reals Lra Psatz.
From Coquelicot Require Import Coquelicot.
From Verif Require Import Arith Vec LinModel LinProofs RSum Poly CollModel ErkModel ErkProofs ErkSens.
Import ListNotations.
Open Scope R_scope.

Lemma tri_swap n (X : nat -> nat -> R) : sum n (fun s => sum (n - (s + 1)) (fun t => X s (s + 1 + t)%nat)) = sum n (fun s => sum s (fun j => X j s)).
Proof.
  induction n as [|n IH]; [reflexivity|]. rewrite !sum_S. replace (S n - (n + 1))%nat with 0%nat by lia. cbn [sum]. rewrite Rplus_0_r, <- IH, <- sum_plus.
  apply sum_ext. intros s Hs. replace (S n - (s + 1))%nat with (S (n - (s + 1))) by lia. rewrite sum_S. do 2 f_equal. lia.
Qed.
(** one step: transposition with a forcing term *)
Lemma adj_identity nx ns (h : R) (A : nat -> nat -> R) (b mu v : vecR) (J : nat -> matR) (kp w F lam g : nat -> vecR) :
  (forall s i, (s < ns)%nat -> (i < nx)%nat -> w s i = v i + sum s (fun j => h * A j s * kp j i)) ->
  (forall s i, (s < ns)%nat -> (i < nx)%nat -> kp s i = sum nx (fun k => J s i k * w s k) + F s i) ->
  (forall s i, (s < ns)%nat -> (i < nx)%nat -> lam s i = h * b s * mu i + sum (ns - (s + 1)) (fun t => h * A s (s + 1 + t)%nat * g (s + 1 + t)%nat i)) ->
  (forall s k, (s < ns)%nat -> (k < nx)%nat -> g s k = sum nx (fun r => J s r k * lam s r)) ->
  sum nx (fun i => mu i * (v i + sum ns (fun s => h * b s * kp s i))) =
  sum nx (fun i => (mu i + sum ns (fun s => g s i)) * v i) + sum ns (fun s => sum nx (fun i => lam s i * F s i)).
Proof.
  intros Hw Hk Hl Hg. set (dt := fun a c : vecR => sum nx (fun i => a i * c i)).
  assert (L : sum nx (fun i => mu i * (v i + sum ns (fun s => h * b s * kp s i))) = dt mu v + sum ns (fun s => h * b s * dt mu (kp s))).
  { unfold dt. rewrite (sum_ext nx _ (fun i => mu i * v i + sum ns (fun s => h * b s * (mu i * kp s i)))).
    2:{ intros i _. rewrite Rmult_plus_distr_l, <- sum_scal. f_equal. apply sum_ext. intros s _. lra. }
    rewrite sum_plus, sum_swap. f_equal. apply sum_ext. intros s _. apply sum_scal. }
  assert (Rr : sum nx (fun i => (mu i + sum ns (fun s => g s i)) * v i) = dt mu v + sum ns (fun s => dt (g s) v)).
  { unfold dt. rewrite (sum_ext nx _ (fun i => mu i * v i + sum ns (fun s => g s i * v i))).
    2:{ intros i _. rewrite Rmult_plus_distr_r, <- sum_scal_r. reflexivity. }
    rewrite sum_plus, sum_swap. reflexivity. }
  assert (E1 : forall s, (s < ns)%nat -> dt (lam s) (kp s) = h * b s * dt mu (kp s) + sum (ns - (s + 1)) (fun t => h * A s (s + 1 + t)%nat * dt (g (s + 1 + t)%nat) (kp s))).
  { intros s Hs. unfold dt. rewrite (sum_ext nx _ (fun i => h * b s * (mu i * kp s i) + sum (ns - (s + 1)) (fun t => h * A s (s + 1 + t)%nat * (g (s + 1 + t)%nat i * kp s i)))).
    2:{ intros i Hi. rewrite Hl by assumption. rewrite Rmult_plus_distr_r, <- sum_scal_r. f_equal; [lra|]. apply sum_ext. intros t _. lra. }
    rewrite sum_plus, sum_swap, sum_scal. f_equal. apply sum_ext. intros t _. apply sum_scal. }
  assert (E2 : forall s, (s < ns)%nat -> dt (lam s) (kp s) = dt (g s) v + sum s (fun j => h * A j s * dt (g s) (kp j)) + dt (lam s) (F s)).
  { intros s Hs. assert (E : dt (lam s) (kp s) = dt (g s) (w s) + dt (lam s) (F s)).
    { unfold dt. rewrite (sum_ext nx _ (fun i => sum nx (fun k => lam s i * (J s i k * w s k)) + lam s i * F s i)).
      2:{ intros i Hi. rewrite Hk by assumption. rewrite Rmult_plus_distr_l, <- sum_scal. reflexivity. }
      rewrite sum_plus, sum_swap. f_equal. apply sum_ext. intros k Hk'. rewrite Hg by assumption. rewrite <- sum_scal_r. apply sum_ext. intros r _. lra. }
    rewrite E. f_equal. unfold dt. rewrite (sum_ext nx _ (fun i => g s i * v i + sum s (fun j => h * A j s * (g s i * kp j i)))).
    2:{ intros i Hi. rewrite Hw by assumption. rewrite Rmult_plus_distr_l, <- sum_scal. f_equal. apply sum_ext. intros j _. lra. }
    rewrite sum_plus, sum_swap. f_equal. apply sum_ext. intros j _. apply sum_scal. }
  rewrite L, Rr. fold (dt mu v). change (sum ns (fun s => sum nx (fun i => lam s i * F s i))) with (sum ns (fun s => dt (lam s) (F s))).
  assert (E3 : sum ns (fun s => h * b s * dt mu (kp s)) + sum ns (fun s => sum (ns - (s + 1)) (fun t => h * A s (s + 1 + t)%nat * dt (g (s + 1 + t)%nat) (kp s))) =
    sum ns (fun s => dt (g s) v) + sum ns (fun s => sum s (fun j => h * A j s * dt (g s) (kp j))) + sum ns (fun s => dt (lam s) (F s))).
  { rewrite <- !sum_plus. apply sum_ext. intros s Hs. rewrite <- E1, E2 by exact Hs. reflexivity. }
  rewrite (tri_swap ns (fun s j => h * A s j * dt (g j) (kp s))) in E3. lra.
Qed.

Section Adj.
Variable M : erk_model real.
Variable nx nu np : nat.
Variable Jx Ju Jp : jac.
Hypothesis HM : consistent M nx nu np Jx Ju Jp.
Variable o : erk_opts real.
Hypothesis Ox : e_nx o = nx.
Hypothesis Ou : e_nu o = nu.
Hypothesis Op : e_np o = np.
Variable inp : erk_in real.
Let N := e_num_steps o.
Let p := i_p inp.
Let u := i_u inp.
Let z n := erk_traj M o inp n.
Let K n := erk_K M o inp (z n) (i_stale inp n).
Let a n s := stage_arg o inp s (z n) (K n).
(** the multipliers of step n *)
Definition AG n := adj_G M o inp (z n) (K n) (adj_traj M o inp (N - 1 - n)) (i_stale_adj inp n).
Definition AL n s := adj_lam o inp s (adj_traj M o inp (N - 1 - n)) (AG n).

Lemma AG_grad n s : (s < e_ns o)%nat -> (forall k, (k < nx)%nat -> AG n s k = sum nx (fun r => Jx p (a n s) u r k * AL n s r)) /\
  (forall k, (k < nu)%nat -> AG n s (nx + k)%nat = sum nx (fun r => Ju p (a n s) u r k * AL n s r)).
Proof.
  intros Hs. assert (E : AG n s = adj_rhs M o inp (a n s) (AL n s) (i_stale_adj inp n s)) by (unfold AG; apply adj_G_row, Hs). rewrite E. unfold adj_rhs. rewrite Ox, Ou.
  destruct (e_sens_hess o).
  - destruct (expl_ode_hes M (i_p inp) (a n s) (view nx (a n s)) (view (off_Su o) (a n s)) (AL n s) (i_u inp)) as [g H] eqn:EH.
    destruct (c_hes_adj _ _ _ _ _ _ _ HM _ _ _ _ _ _ _ _ EH) as [G1 G2]. split; intros k Hk; rewrite inb_ge by lia.
    + destruct (Nat.ltb_spec k (nx + nu)); [|lia]. apply G1, Hk.
    + destruct (Nat.ltb_spec (nx + k) (nx + nu)); [|lia]. apply G2, Hk.
  - destruct (c_adj _ _ _ _ _ _ _ HM (i_p inp) (a n s) (AL n s) (i_u inp)) as [G1 G2]. split; intros k Hk.
    + destruct (Nat.ltb_spec k (nx + nu)); [|lia]. apply G1, Hk.
    + destruct (Nat.ltb_spec (nx + k) (nx + nu)); [|lia]. apply G2, Hk.
Qed.
Lemma adj_traj_step n : (n < N)%nat -> forall j, adj_traj M o inp (N - n) j = adj_traj M o inp (N - 1 - n) j + sum (e_ns o) (fun s => AG n s j).
Proof.
  intros Hn j. replace (N - n)%nat with (S (N - 1 - n)) by lia. cbn [adj_traj]. fold N. replace (N - 1 - (N - 1 - n))%nat with n by lia. apply adj_step_sum.
Qed.
Lemma adj_total j : adj_traj M o inp N j = adj_init o inp j + sum N (fun n => sum (e_ns o) (fun s => AG n s j)).
Proof.
  assert (G : forall m, (m <= N)%nat -> adj_traj M o inp N j = adj_traj M o inp (N - m) j + sum m (fun n => sum (e_ns o) (fun s => AG n s j))).
  { induction m as [|m IH]; intros Hm; [rewrite Nat.sub_0_r; cbn [sum]; lra|]. rewrite IH by lia. rewrite adj_traj_step by lia. cbn [sum]. replace (N - S m)%nat with (N - 1 - m)%nat by lia. lra. }
  rewrite (G N (le_n N)), Nat.sub_diag. reflexivity.
Qed.
(** the tangent recursion of a column, with forcing term F *)
Definition tangent (n : nat) (v v' : vecR) (F : nat -> vecR) : Prop := exists kp w : nat -> vecR,
  (forall s i, (s < e_ns o)%nat -> (i < nx)%nat -> w s i = v i + sum s (fun j => e_step o inp * e_A o j s * kp j i)) /\
  (forall s i, (s < e_ns o)%nat -> (i < nx)%nat -> kp s i = sum nx (fun k => Jx p (a n s) u i k * w s k) + F s i) /\
  (forall i, (i < nx)%nat -> v' i = v i + sum (e_ns o) (fun s => e_step o inp * e_b o s * kp s i)).
Lemma adj_run (v : nat -> vecR) (F : nat -> nat -> vecR) : (forall n, (n < N)%nat -> tangent n (v n) (v (S n)) (F n)) ->
  sum nx (fun i => i_S_adj inp i * v N i) = sum nx (fun i => adj_traj M o inp N i * v 0%nat i) + sum N (fun n => sum (e_ns o) (fun s => sum nx (fun i => AL n s i * F n s i))).
Proof.
  intros HT. assert (St : forall n, (n < N)%nat -> sum nx (fun i => adj_traj M o inp (N - S n) i * v (S n) i) =
    sum nx (fun i => adj_traj M o inp (N - n) i * v n i) + sum (e_ns o) (fun s => sum nx (fun i => AL n s i * F n s i))).
  { intros n Hn. destruct (HT n Hn) as (kp & w & Hw & Hk & Hv). replace (N - S n)%nat with (N - 1 - n)%nat by lia.
    rewrite (sum_ext nx _ (fun i => adj_traj M o inp (N - 1 - n) i * (v n i + sum (e_ns o) (fun s => e_step o inp * e_b o s * kp s i)))) by (intros i Hi; rewrite Hv by exact Hi; reflexivity).
    rewrite (adj_identity nx (e_ns o) (e_step o inp) (e_A o) (e_b o) _ _ (fun s => Jx p (a n s) u) kp w (F n) (AL n) (AG n) Hw Hk).
    - f_equal. apply sum_ext. intros i Hi. rewrite adj_traj_step by exact Hn. reflexivity.
    - intros s i _ _. apply adj_lam_sum.
    - intros s k Hs Hk'. apply (proj1 (AG_grad n s Hs) k Hk'). }
  assert (G : forall m, (m <= N)%nat -> sum nx (fun i => adj_traj M o inp (N - m) i * v m i) =
    sum nx (fun i => adj_traj M o inp N i * v 0%nat i) + sum m (fun n => sum (e_ns o) (fun s => sum nx (fun i => AL n s i * F n s i)))).
  { induction m as [|m IH]; intros Hm; [rewrite Nat.sub_0_r; cbn [sum]; lra|]. rewrite St by lia. rewrite IH by lia. cbn [sum]. lra. }
  pose proof (G N (le_n N)) as E. rewrite Nat.sub_diag in E. rewrite <- E. apply sum_ext. intros i Hi. cbn [adj_traj]. unfold adj_init. rewrite Ox. destruct (Nat.ltb_spec i nx); [reflexivity|lia].
Qed.

(** ** the derivative of the end state along a curve *)
Variable f fp ad hs : bool.
Let o' := with_sens o f fp ad hs.
Variable inpt : R -> erk_in real.
Variable dX dU : vecR.
Hypothesis IT : forall t, i_T (inpt t) = i_T inp.
Hypothesis Ip0 : agree np (i_p (inpt 0)) p.
Hypothesis Iu0 : agree nu (i_u (inpt 0)) u.
Hypothesis Ix0 : agree nx (i_x (inpt 0)) (i_x inp).
Hypothesis Ipd : forall k, (k < np)%nat -> is_derive (fun t => i_p (inpt t) k) 0 0.
Hypothesis Iud : forall k, (k < nu)%nat -> is_derive (fun t => i_u (inpt t) k) 0 (dU k).
Hypothesis Ixd : forall k, (k < nx)%nat -> is_derive (fun t => i_x (inpt t) k) 0 (dX k).
Definition FU n s : vecR := fun i => sum nu (fun k => Ju p (a n s) u i k * dU k).
Let zt t n := erk_traj M o' (inpt t) n.
Let Kt t n := erk_K M o' (inpt t) (zt t n) (i_stale (inpt t) n).
Let at_ t n s := stage_arg o' (inpt t) s (zt t n) (Kt t n).

Lemma arg_sum' t n s i : at_ t n s i = zt t n i + sum s (fun j => e_step o inp * e_A o j s * Kt t n j i).
Proof. unfold at_. rewrite stage_arg_sum. unfold e_step. rewrite IT. reflexivity. Qed.
Lemma curve_stage n (v : vecR) : agree nx (zt 0 n) (z n) -> (forall i, (i < nx)%nat -> is_derive (fun t => zt t n i) 0 (v i)) ->
  forall s, (s < e_ns o)%nat -> agree nx (at_ 0 n s) (a n s) /\
  (forall i, (i < nx)%nat -> is_derive (fun t => at_ t n s i) 0 (v i + sum s (fun j => e_step o inp * e_A o j s * Derive (fun t => Kt t n j i) 0))) /\
  forall i, (i < nx)%nat -> Kt 0 n s i = K n s i /\ is_derive (fun t => Kt t n s i) 0 (sum nx (fun k => Jx p (a n s) u i k * (v k + sum s (fun j => e_step o inp * e_A o j s * Derive (fun t => Kt t n j k) 0))) + FU n s i).
Proof.
  intros Z0 Zd. induction s as [s IH] using lt_wf_ind. intros Hs.
  assert (A0 : agree nx (at_ 0 n s) (a n s)).
  { intros i Hi. rewrite arg_sum'. unfold a. rewrite stage_arg_sum. rewrite (Z0 i Hi). f_equal. apply sum_ext. intros j Hj. destruct (IH j Hj ltac:(lia)) as (_ & _ & E). rewrite (proj1 (E i Hi)). reflexivity. }
  assert (Ad : forall i, (i < nx)%nat -> is_derive (fun t => at_ t n s i) 0 (v i + sum s (fun j => e_step o inp * e_A o j s * Derive (fun t => Kt t n j i) 0))).
  { intros i Hi. apply is_derive_ext with (fun t => zt t n i + sum s (fun j => e_step o inp * e_A o j s * Kt t n j i)); [intros t; symmetry; apply arg_sum'|].
    apply derive_plus; [apply Zd, Hi|]. apply (derive_sum s (fun j t => e_step o inp * e_A o j s * Kt t n j i) 0 (fun j => e_step o inp * e_A o j s * Derive (fun t => Kt t n j i) 0)).
    intros j Hj. apply derive_scal. apply Derive_correct. destruct (IH j Hj ltac:(lia)) as (_ & _ & E). eexists. apply (E i Hi). }
  split; [exact A0|]. split; [exact Ad|]. intros i Hi.
  assert (Rt : forall t, Kt t n s i = expl_ode_fun M (i_p (inpt t)) (at_ t n s) (i_u (inpt t)) i).
  { intros t. unfold Kt. rewrite erk_K_row by exact Hs. apply (rhs_x M nx nu np Jx Ju Jp HM o' Ox), Hi. }
  assert (RK : K n s = stage_rhs M o inp (a n s) (i_stale inp n s)) by (unfold K; apply erk_K_row, Hs).
  pose proof (c_loc _ _ _ _ _ _ _ HM (i_p (inpt 0)) p (at_ 0 n s) (a n s) (i_u (inpt 0)) u Ip0 A0 Iu0 i Hi) as (L0 & L1 & L2 & _).
  split; [rewrite Rt, RK, (rhs_x M nx nu np Jx Ju Jp HM o Ox) by exact Hi; exact L0|].
  apply is_derive_ext with (fun t => expl_ode_fun M (i_p (inpt t)) (at_ t n s) (i_u (inpt t)) i); [intros t; symmetry; apply Rt|].
  pose proof (c_diff _ _ _ _ _ _ _ HM (fun t => i_p (inpt t)) (fun t => at_ t n s) (fun t => i_u (inpt t)) (fun _ => 0) _ dU Ipd Ad Iud i Hi) as Dv. cbv beta in Dv.
  rewrite (sum_zero np) in Dv by (intros; lra). rewrite Rplus_0_r in Dv. unfold FU.
  rewrite (sum_ext nx (fun k => Jx p (a n s) u i k * _) (fun k => Jx (i_p (inpt 0)) (at_ 0 n s) (i_u (inpt 0)) i k * (v k + sum s (fun j => e_step o inp * e_A o j s * Derive (fun t => Kt t n j k) 0)))) by (intros k Hk; rewrite L1 by exact Hk; reflexivity).
  rewrite (sum_ext nu (fun k => Ju p (a n s) u i k * dU k) (fun k => Ju (i_p (inpt 0)) (at_ 0 n s) (i_u (inpt 0)) i k * dU k)) by (intros k Hk; rewrite L2 by exact Hk; reflexivity).
  exact Dv.
Qed.
Lemma curve_step n (v : vecR) : agree nx (zt 0 n) (z n) -> (forall i, (i < nx)%nat -> is_derive (fun t => zt t n i) 0 (v i)) ->
  agree nx (zt 0 (S n)) (z (S n)) /\ exists v', tangent n v v' (FU n) /\ forall i, (i < nx)%nat -> is_derive (fun t => zt t (S n) i) 0 (v' i).
Proof.
  intros Z0 Zd. pose proof (curve_stage n v Z0 Zd) as CS.
  assert (Et : forall t i, zt t (S n) i = zt t n i + sum (e_ns o) (fun s => e_step o inp * e_b o s * Kt t n s i)).
  { intros t i. unfold zt. cbn [erk_traj]. rewrite erk_step_sum. unfold e_step. rewrite IT. reflexivity. }
  split.
  - intros i Hi. rewrite Et. unfold z. cbn [erk_traj]. rewrite erk_step_sum. rewrite (Z0 i Hi). f_equal. apply sum_ext. intros s Hs. destruct (CS s Hs) as (_ & _ & E). rewrite (proj1 (E i Hi)). reflexivity.
  - exists (fun i => v i + sum (e_ns o) (fun s => e_step o inp * e_b o s * Derive (fun t => Kt t n s i) 0)). split.
    + exists (fun s i => Derive (fun t => Kt t n s i) 0), (fun s i => v i + sum s (fun j => e_step o inp * e_A o j s * Derive (fun t => Kt t n j i) 0)). split; [reflexivity|split; [|reflexivity]].
      intros s i Hs Hi. apply is_derive_unique. apply (CS s Hs). exact Hi.
    + intros i Hi. apply is_derive_ext with (fun t => zt t n i + sum (e_ns o) (fun s => e_step o inp * e_b o s * Kt t n s i)); [intros t; symmetry; apply Et|].
      apply derive_plus; [apply Zd, Hi|]. apply (derive_sum (e_ns o) (fun s t => e_step o inp * e_b o s * Kt t n s i) 0 (fun s => e_step o inp * e_b o s * Derive (fun t => Kt t n s i) 0)).
      intros s Hs. apply derive_scal, Derive_correct. destruct (CS s Hs) as (_ & _ & E). eexists. apply (E i Hi).
Qed.
Lemma curve_traj n : agree nx (zt 0 n) (z n) /\ (forall i, (i < nx)%nat -> ex_derive (fun t => zt t n i) 0) /\
  forall m, (m < n)%nat -> tangent m (fun i => Derive (fun t => zt t m i) 0) (fun i => Derive (fun t => zt t (S m) i) 0) (FU m).
Proof.
  induction n as [|n (IH0 & IHd & IHt)].
  - split; [|split; [|intros; lia]].
    + intros i Hi. unfold zt, z. cbn [erk_traj]. rewrite (init_x nx o' Ox), (init_x nx o Ox) by exact Hi. apply Ix0, Hi.
    + intros i Hi. exists (dX i). apply is_derive_ext with (fun t => i_x (inpt t) i); [|apply Ixd, Hi]. intros t. unfold zt. cbn [erk_traj]. rewrite (init_x nx o' Ox) by exact Hi. reflexivity.
  - destruct (curve_step n (fun i => Derive (fun t => zt t n i) 0) IH0) as (A0 & v' & Tg & Dv).
    { intros i Hi. apply Derive_correct, IHd, Hi. }
    split; [exact A0|]. split; [intros i Hi; eexists; apply Dv, Hi|]. intros m Hm. destruct (Nat.eq_dec m n) as [->|Ne]; [|apply IHt; lia].
    destruct Tg as (kp & w & T1 & T2 & T3). exists kp, w. split; [exact T1|]. split; [exact T2|]. intros i Hi. rewrite <- T3 by exact Hi. apply is_derive_unique, Dv, Hi.
Qed.
Theorem adjoint_derivative : is_derive (fun t => sum nx (fun i => i_S_adj inp i * zt t N i)) 0
  (sum nx (fun k => adj_traj M o inp N k * dX k) + sum nu (fun k => adj_traj M o inp N (nx + k)%nat * dU k)).
Proof.
  destruct (curve_traj N) as (_ & ED & Tg). pose proof (adj_run (fun n i => Derive (fun t => zt t n i) 0) FU Tg) as E. cbv beta in E.
  assert (ES : sum nx (fun i => i_S_adj inp i * Derive (fun t => zt t N i) 0) = sum nx (fun k => adj_traj M o inp N k * dX k) + sum nu (fun k => adj_traj M o inp N (nx + k)%nat * dU k)).
  { rewrite E. f_equal.
    - apply sum_ext. intros i Hi. f_equal. apply is_derive_unique. apply is_derive_ext with (fun t => i_x (inpt t) i); [|apply Ixd, Hi]. intros t. unfold zt. cbn [erk_traj]. rewrite (init_x nx o' Ox) by exact Hi. reflexivity.
    - assert (G : forall n s, (s < e_ns o)%nat -> sum nx (fun i => AL n s i * FU n s i) = sum nu (fun k => AG n s (nx + k)%nat * dU k)).
      { intros n s Hs. unfold FU. rewrite (sum_ext nx _ (fun i => sum nu (fun k => AL n s i * (Ju p (a n s) u i k * dU k)))) by (intros i _; rewrite <- sum_scal; reflexivity).
        rewrite sum_swap. apply sum_ext. intros k Hk. rewrite (proj2 (AG_grad n s Hs) k Hk), <- sum_scal_r. apply sum_ext. intros r _. lra. }
      rewrite (sum_ext N _ (fun n => sum nu (fun k => sum (e_ns o) (fun s => AG n s (nx + k)%nat) * dU k))).
      2:{ intros n _. rewrite (sum_ext (e_ns o) _ (fun s => sum nu (fun k => AG n s (nx + k)%nat * dU k))) by (intros s Hs; apply G, Hs). rewrite sum_swap. apply sum_ext. intros k _. apply sum_scal_r. }
      rewrite sum_swap. apply sum_ext. intros k Hk. rewrite sum_scal_r. f_equal. rewrite adj_total. unfold adj_init. rewrite Ox. destruct (Nat.ltb_spec (nx + k) nx); [lia|]. rr; change (num real) with R in *; lra. }
  rewrite <- ES. apply (derive_sum nx (fun i t => i_S_adj inp i * zt t N i) 0 (fun i => i_S_adj inp i * Derive (fun t => zt t N i) 0)). intros i Hi. apply derive_scal, Derive_correct, ED, Hi.
Qed.
End Adj.
