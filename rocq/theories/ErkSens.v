(** Forward and adjoint sensitivities of the explicit integrator. *)
From Coq Require Import ZArith List Bool Lia Reals Lra Psatz.
From Coquelicot Require Import Coquelicot.
From Verif Require Import Arith Vec LinModel LinProofs RSum Poly CollModel ErkModel ErkProofs.
Import ListNotations.
Open Scope R_scope.

(** [J p x u r k]: row r, column k of a Jacobian block *)
Notation jac := (vecR -> vecR -> vecR -> nat -> nat -> R).
Definition agree (n : nat) (v w : vecR) := forall k, (k < n)%nat -> v k = w k.
(** what the user promises about the generated functions: only the first nx, nu, np entries of the
    arguments matter, the Jacobians describe the derivative of the ODE along every differentiable curve, and
    the variational functions are built from them *)
Record consistent (M : erk_model real) (nx nu np : nat) (Jx Ju Jp : jac) : Prop := mkConsistent {
  c_loc : forall p p' x x' u u', agree np p p' -> agree nx x x' -> agree nu u u' -> forall r, (r < nx)%nat ->
    expl_ode_fun M p x u r = expl_ode_fun M p' x' u' r /\ (forall k, (k < nx)%nat -> Jx p x u r k = Jx p' x' u' r k) /\
    (forall k, (k < nu)%nat -> Ju p x u r k = Ju p' x' u' r k) /\ (forall k, (k < np)%nat -> Jp p x u r k = Jp p' x' u' r k);
  c_diff : forall (P X U : R -> vecR) (dP dX dU : vecR),
    (forall k, (k < np)%nat -> is_derive (fun t => P t k) 0 (dP k)) -> (forall k, (k < nx)%nat -> is_derive (fun t => X t k) 0 (dX k)) ->
    (forall k, (k < nu)%nat -> is_derive (fun t => U t k) 0 (dU k)) -> forall r, (r < nx)%nat ->
    is_derive (fun t => expl_ode_fun M (P t) (X t) (U t) r) 0
      (sum nx (fun k => Jx (P 0) (X 0) (U 0) r k * dX k) + sum nu (fun k => Ju (P 0) (X 0) (U 0) r k * dU k) + sum np (fun k => Jp (P 0) (X 0) (U 0) r k * dP k));
  c_for : forall p x Sx Su u f fx fu, expl_vde_for M p x Sx Su u = (f, fx, fu) -> forall r, (r < nx)%nat ->
    f r = expl_ode_fun M p x u r /\
    (forall c, (c < nx)%nat -> fx (nx * c + r)%nat = sum nx (fun k => Jx p x u r k * Sx (nx * c + k)%nat)) /\
    (forall c, (c < nu)%nat -> fu (nx * c + r)%nat = sum nx (fun k => Jx p x u r k * Su (nx * c + k)%nat) + Ju p x u r c);
  c_for_p : forall p x Sp u r c, (r < nx)%nat -> (c < np)%nat -> expl_vde_for_p M p x Sp u (nx * c + r)%nat = sum nx (fun k => Jx p x u r k * Sp (nx * c + k)%nat) + Jp p x u r c;
  c_adj : forall p x lam u, (forall k, (k < nx)%nat -> expl_vde_adj M p x lam u k = sum nx (fun r => Jx p x u r k * lam r)) /\
    (forall k, (k < nu)%nat -> expl_vde_adj M p x lam u (nx + k)%nat = sum nx (fun r => Ju p x u r k * lam r));
  c_hes_adj : forall p x Sx Su lam u g H, expl_ode_hes M p x Sx Su lam u = (g, H) ->
    (forall k, (k < nx)%nat -> g k = sum nx (fun r => Jx p x u r k * lam r)) /\ (forall k, (k < nu)%nat -> g (nx + k)%nat = sum nx (fun r => Ju p x u r k * lam r)) }.

(** options with the sensitivity flags replaced *)
Definition with_sens {A} (o : erk_opts A) (f fp a hh : bool) : erk_opts A :=
  mkErkOpts (e_nx o) (e_nu o) (e_np o) (e_ns o) (e_num_steps o) (e_A o) (e_b o) f fp a hh.

Lemma inb_ge a n r : (r < a)%nat -> inb a n r = false.
Proof. intros Hr. unfold inb. destruct (Nat.leb_spec a r); [lia|reflexivity]. Qed.
Section State.
Variable M : erk_model real.
Variable nx nu np : nat.
Variable Jx Ju Jp : jac.
Hypothesis HM : consistent M nx nu np Jx Ju Jp.
Variable o : erk_opts real.
Hypothesis Ox : e_nx o = nx.
Variable inp : erk_in real.
Lemma rhs_x (r old : vecR) i : (i < nx)%nat -> stage_rhs M o inp r old i = expl_ode_fun M (i_p inp) r (i_u inp) i.
Proof.
  intros Hi. unfold stage_rhs. destruct (e_fwd o) eqn:Fwd.
  - destruct (expl_vde_for M (i_p inp) r (view (e_nx o) r) (view (off_Su o) r) (i_u inp)) as [[f fx] fu] eqn:E.
    rewrite !inb_ge by (unfold off_Sp, off_Su; lia). rewrite Ox. destruct (Nat.ltb_spec i nx); [|lia]. apply (c_for _ _ _ _ _ _ _ HM _ _ _ _ _ _ _ _ E i Hi).
  - rewrite Ox. destruct (Nat.ltb_spec i nx); [reflexivity|lia].
Qed.
Lemma init_x i : (i < nx)%nat -> erk_init o inp i = i_x inp i.
Proof.
  intros Hi. unfold erk_init. rewrite !inb_ge by (unfold off_Sp; lia). rewrite andb_false_r, Ox. destruct (Nat.ltb_spec i nx); [reflexivity|lia].
Qed.
End State.

Section Tangent.
Variable M : erk_model real.
Variable nx nu np : nat.
Variable Jx Ju Jp : jac.
Hypothesis HM : consistent M nx nu np Jx Ju Jp.
Variable o : erk_opts real.
Hypothesis Ox : e_nx o = nx.
Hypothesis Ou : e_nu o = nu.
Hypothesis Op : e_np o = np.
Variable inp : erk_in real.
Hypothesis Fwd : e_fwd o = true.

Definition nfp := e_nfp o.
(** the inhomogeneity of column q *)
Definition D (p x u : vecR) (q r : nat) : R :=
  if (q <? nx)%nat then 0 else if (q <? nx + nu)%nat then Ju p x u r (q - nx) else Jp p x u r (q - (nx + nu)).
Definition col (z : vecR) (q : nat) : vecR := fun r => z (nx + nx * q + r)%nat.

Lemma nf_eq : e_nf o = (nx + nu)%nat.
Proof. unfold e_nf. rewrite Fwd, Ox, Ou. reflexivity. Qed.
Lemma Sp_eq : off_Sp o = (nx + nx * (nx + nu))%nat.
Proof. unfold off_Sp. rewrite nf_eq, Ox. reflexivity. Qed.
Lemma Su_eq : off_Su o = (nx + nx * nx)%nat.
Proof. unfold off_Su. rewrite Ox. reflexivity. Qed.
Lemma inb_spec a n q r : (r < nx)%nat -> inb (nx + nx * a) (nx * n) (nx + nx * q + r) = ((a <=? q)%nat && (q <? a + n)%nat).
Proof.
  intros Hr. unfold inb. destruct (Nat.leb_spec a q), (Nat.ltb_spec q (a + n)), (Nat.leb_spec (nx + nx * a) (nx + nx * q + r)), (Nat.ltb_spec (nx + nx * q + r) (nx + nx * a + nx * n)); cbn; try reflexivity; nia.
Qed.
Lemma rhs_col (r old : vecR) q i : (q < nx + nu + nfp)%nat -> (i < nx)%nat ->
  col (stage_rhs M o inp r old) q i = sum nx (fun k => Jx (i_p inp) r (i_u inp) i k * col r q k) + D (i_p inp) r (i_u inp) q i.
Proof.
  intros Hq Hi. unfold col, stage_rhs. rewrite Fwd. destruct (expl_vde_for M (i_p inp) r (view (e_nx o) r) (view (off_Su o) r) (i_u inp)) as [[f fx] fu] eqn:E.
  rewrite Sp_eq, Su_eq, Ox, Ou in *. fold nfp. rewrite !inb_spec by exact Hi.
  replace (inb nx (nx * nx) (nx + nx * q + i)) with (inb (nx + nx * 0) (nx * nx) (nx + nx * q + i)) by (rewrite Nat.mul_0_r, Nat.add_0_r; reflexivity). rewrite inb_spec by exact Hi.
  destruct (c_for _ _ _ _ _ _ _ HM _ _ _ _ _ _ _ _ E i Hi) as (_ & C1 & C2). unfold D.
  destruct (Nat.ltb_spec q nx) as [L|L].
  - destruct (Nat.leb_spec (nx + nu) q); [lia|]. destruct (Nat.leb_spec nx q); [lia|]. cbn [andb]. destruct (Nat.leb_spec 0 q); [|lia]. destruct (Nat.ltb_spec q (0 + nx)); [|lia]. cbn [andb].
    replace (nx + nx * q + i - nx)%nat with (nx * q + i)%nat by lia. rewrite C1 by exact L. rewrite Rplus_0_r. apply sum_ext. intros k _. unfold view. f_equal. f_equal. lia.
  - destruct (Nat.ltb_spec q (nx + nu)) as [L2|L2].
    + destruct (Nat.leb_spec (nx + nu) q); [lia|]. cbn [andb]. destruct (Nat.leb_spec nx q); [|lia]. cbn [andb].
      replace (nx + nx * q + i - (nx + nx * nx))%nat with (nx * (q - nx) + i)%nat by nia. rewrite C2 by lia. f_equal. apply sum_ext. intros k _. unfold view. f_equal. f_equal. nia.
    + destruct (Nat.leb_spec (nx + nu) q); [|lia]. destruct (Nat.ltb_spec q (nx + nu + nfp)); [|lia]. cbn [andb].
      replace (nx + nx * q + i - (nx + nx * (nx + nu)))%nat with (nx * (q - (nx + nu)) + i)%nat by nia.
      assert (Hc : (q - (nx + nu) < np)%nat). { unfold nfp, e_nfp in Hq. destruct (e_sens_forw_p o); rewrite ?Op in Hq; lia. }
      rewrite (c_for_p _ _ _ _ _ _ _ HM) by assumption. f_equal. apply sum_ext. intros k _. unfold view. f_equal. f_equal. nia.
Qed.
Lemma init_col q i : (q < nx + nu + nfp)%nat -> (i < nx)%nat -> col (erk_init o inp) q i = if (q <? nx + nu)%nat then i_S_forw inp (nx * q + i)%nat else 0.
Proof.
  intros Hq Hi. unfold col, erk_init. rewrite Sp_eq, nf_eq, Fwd, Ox. fold nfp. rewrite inb_spec by exact Hi.
  replace (inb nx (nx * (nx + nu)) (nx + nx * q + i)) with (inb (nx + nx * 0) (nx * (nx + nu)) (nx + nx * q + i)) by (rewrite Nat.mul_0_r, Nat.add_0_r; reflexivity). rewrite inb_spec by exact Hi. cbn [andb].
  destruct (Nat.ltb_spec q (nx + nu)).
  - destruct (Nat.leb_spec (nx + nu) q); [lia|]. cbn [andb]. destruct (Nat.leb_spec 0 q); [|lia]. destruct (Nat.ltb_spec q (0 + (nx + nu))); [|lia]. cbn [andb]. f_equal. lia.
  - destruct (Nat.leb_spec (nx + nu) q); [|lia]. destruct (Nat.ltb_spec q (nx + nu + nfp)); [|lia]. reflexivity.
Qed.

(** ** forward: compare with other runs along curves *)
Variable q : nat.
Hypothesis Hq : (q < nx + nu + nfp)%nat.
Definition dU (k : nat) : R := if ((nx <=? q)%nat && (q <? nx + nu)%nat && (k =? q - nx)%nat)%bool then 1 else 0.
Definition dP (k : nat) : R := if ((nx + nu <=? q)%nat && (k =? q - (nx + nu))%nat)%bool then 1 else 0.
Variable f fp ad hs : bool.
Definition other := with_sens o f fp ad hs.
(** the other run at parameter t *)
Variable inpt : R -> erk_in real.
Hypothesis IT : forall t, i_T (inpt t) = i_T inp.
Hypothesis Ip0 : agree np (i_p (inpt 0)) (i_p inp).
Hypothesis Iu0 : agree nu (i_u (inpt 0)) (i_u inp).
Hypothesis Ix0 : agree nx (i_x (inpt 0)) (i_x inp).
Hypothesis Ipd : forall k, (k < np)%nat -> is_derive (fun t => i_p (inpt t) k) 0 (dP k).
Hypothesis Iud : forall k, (k < nu)%nat -> is_derive (fun t => i_u (inpt t) k) 0 (dU k).
Hypothesis Ixd : forall k, (k < nx)%nat -> is_derive (fun t => i_x (inpt t) k) 0 (if (q <? nx + nu)%nat then i_S_forw inp (nx * q + k)%nat else 0).

Lemma D_sum p x u r : sum nu (fun k => Ju p x u r k * dU k) + sum np (fun k => Jp p x u r k * dP k) = D p x u q r.
Proof.
  unfold D, dU, dP. destruct (Nat.ltb_spec q nx) as [L|L].
  - rewrite !sum_zero; [lra| |].
    + intros k _. destruct (Nat.leb_spec (nx + nu) q); [lia|]. cbn [andb]. lra.
    + intros k _. destruct (Nat.leb_spec nx q); [lia|]. cbn [andb]. lra.
  - destruct (Nat.ltb_spec q (nx + nu)) as [L2|L2].
    + rewrite (sum_zero np) by (intros k _; destruct (Nat.leb_spec (nx + nu) q); [lia|]; cbn [andb]; lra). destruct (Nat.leb_spec nx q); [|lia]. cbn [andb].
      rewrite (sum_one nu (q - nx)); [rewrite Nat.eqb_refl; lra|lia|]. intros k _ N. destruct (Nat.eqb_spec k (q - nx)); [contradiction|lra].
    + rewrite (sum_zero nu). 2:{ intros k _. rewrite andb_false_r. cbn [andb]. lra. }
      destruct (Nat.leb_spec (nx + nu) q); [|lia]. cbn [andb]. assert (Hc : (q - (nx + nu) < np)%nat). { unfold nfp, e_nfp in Hq. destruct (e_sens_forw_p o); rewrite ?Op in Hq; lia. }
      rewrite (sum_one np (q - (nx + nu))); [rewrite Nat.eqb_refl; lra|lia|]. intros k _ N. destruct (Nat.eqb_spec k (q - (nx + nu))); [contradiction|lra].
Qed.
Lemma other_step t : e_step other (inpt t) = e_step o inp.
Proof. unfold e_step. rewrite IT. reflexivity. Qed.

Section Step.
Variable zt : R -> vecR.
Variable z : vecR.
Variable St : R -> nat -> vecR.
Variable S0 : nat -> vecR.
Hypothesis Z0 : agree nx (zt 0) z.
Hypothesis Zd : forall i, (i < nx)%nat -> is_derive (fun t => zt t i) 0 (col z q i).
Let Kt t := erk_K M other (inpt t) (zt t) (St t).
Let K := erk_K M o inp z S0.
Let at_ t s := stage_arg other (inpt t) s (zt t) (Kt t).
Let a s := stage_arg o inp s z K.
Lemma arg_sum t s i : at_ t s i = zt t i + sum s (fun j => e_step o inp * e_A o j s * Kt t j i).
Proof. unfold at_. rewrite stage_arg_sum, other_step. reflexivity. Qed.
Lemma stage_tangent s : (s < e_ns o)%nat -> (agree nx (at_ 0 s) (a s) /\ forall i, (i < nx)%nat -> is_derive (fun t => at_ t s i) 0 (col (a s) q i)) /\
  forall i, (i < nx)%nat -> Kt 0 s i = K s i /\ is_derive (fun t => Kt t s i) 0 (col (K s) q i).
Proof.
  induction s as [s IH] using lt_wf_ind. intros Hs.
  assert (Arg : agree nx (at_ 0 s) (a s) /\ forall i, (i < nx)%nat -> is_derive (fun t => at_ t s i) 0 (col (a s) q i)).
  { split.
    - intros i Hi. rewrite arg_sum. unfold a. rewrite stage_arg_sum. rewrite (Z0 i Hi). f_equal. apply sum_ext. intros j Hj. destruct (IH j Hj ltac:(lia)) as [_ E]. rewrite (proj1 (E i Hi)). reflexivity.
    - intros i Hi. apply is_derive_ext with (fun t => zt t i + sum s (fun j => e_step o inp * e_A o j s * Kt t j i)); [intros t; symmetry; apply arg_sum|].
      unfold col, a. rewrite stage_arg_sum. apply derive_plus; [apply Zd, Hi|].
      apply (derive_sum s (fun j t => e_step o inp * e_A o j s * Kt t j i) 0 (fun j => e_step o inp * e_A o j s * K j (nx + nx * q + i)%nat)).
      intros j Hj. apply derive_scal. destruct (IH j Hj ltac:(lia)) as [_ E]. apply (E i Hi). }
  split; [exact Arg|]. destruct Arg as [A0 Ad]. intros i Hi.
  assert (Rt : forall t, Kt t s i = expl_ode_fun M (i_p (inpt t)) (at_ t s) (i_u (inpt t)) i).
  { intros t. unfold Kt. rewrite erk_K_row by exact Hs. apply (rhs_x M nx nu np Jx Ju Jp HM other Ox), Hi. }
  assert (RK : K s = stage_rhs M o inp (a s) (S0 s)) by (unfold K; apply erk_K_row, Hs).
  split.
  - rewrite Rt, RK, (rhs_x M nx nu np Jx Ju Jp HM o Ox) by exact Hi. apply (c_loc _ _ _ _ _ _ _ HM); assumption.
  - apply is_derive_ext with (fun t => expl_ode_fun M (i_p (inpt t)) (at_ t s) (i_u (inpt t)) i); [intros t; symmetry; apply Rt|].
    rewrite RK, rhs_col by assumption. pose proof (c_diff _ _ _ _ _ _ _ HM (fun t => i_p (inpt t)) (fun t => at_ t s) (fun t => i_u (inpt t)) dP (col (a s) q) dU Ipd Ad Iud i Hi) as Dv. cbv beta in Dv.
    pose proof (c_loc _ _ _ _ _ _ _ HM (i_p (inpt 0)) (i_p inp) (at_ 0 s) (a s) (i_u (inpt 0)) (i_u inp) Ip0 A0 Iu0 i Hi) as (_ & L1 & L2 & L3).
    rewrite (sum_ext nx _ (fun k => Jx (i_p inp) (a s) (i_u inp) i k * col (a s) q k)) in Dv by (intros k Hk; rewrite L1 by exact Hk; reflexivity).
    rewrite (sum_ext nu _ (fun k => Ju (i_p inp) (a s) (i_u inp) i k * dU k)) in Dv by (intros k Hk; rewrite L2 by exact Hk; reflexivity).
    rewrite (sum_ext np _ (fun k => Jp (i_p inp) (a s) (i_u inp) i k * dP k)) in Dv by (intros k Hk; rewrite L3 by exact Hk; reflexivity).
    rewrite Rplus_assoc, D_sum in Dv. exact Dv.
Qed.
Lemma step_tangent : agree nx (erk_step M other (inpt 0) (zt 0) (St 0)) (erk_step M o inp z S0) /\
  forall i, (i < nx)%nat -> is_derive (fun t => erk_step M other (inpt t) (zt t) (St t) i) 0 (col (erk_step M o inp z S0) q i).
Proof.
  assert (Et : forall t i, erk_step M other (inpt t) (zt t) (St t) i = zt t i + sum (e_ns o) (fun s => e_step o inp * e_b o s * Kt t s i)).
  { intros t i. rewrite erk_step_sum, other_step. reflexivity. }
  split.
  - intros i Hi. rewrite Et, erk_step_sum. rewrite (Z0 i Hi). f_equal. apply sum_ext. intros s Hs. destruct (stage_tangent s Hs) as [_ E]. rewrite (proj1 (E i Hi)). reflexivity.
  - intros i Hi. apply is_derive_ext with (fun t => zt t i + sum (e_ns o) (fun s => e_step o inp * e_b o s * Kt t s i)); [intros t; symmetry; apply Et|].
    unfold col. rewrite erk_step_sum. apply derive_plus; [apply Zd, Hi|].
    apply (derive_sum (e_ns o) (fun s t => e_step o inp * e_b o s * Kt t s i) 0 (fun s => e_step o inp * e_b o s * K s (nx + nx * q + i)%nat)).
    intros s Hs. apply derive_scal. destruct (stage_tangent s Hs) as [_ E]. apply (E i Hi).
Qed.
End Step.

Lemma traj_tangent n : agree nx (erk_traj M other (inpt 0) n) (erk_traj M o inp n) /\
  forall i, (i < nx)%nat -> is_derive (fun t => erk_traj M other (inpt t) n i) 0 (col (erk_traj M o inp n) q i).
Proof.
  induction n as [|n [IH0 IHd]]; cbn [erk_traj].
  - assert (Pi : forall t i, (i < nx)%nat -> erk_init other (inpt t) i = i_x (inpt t) i) by (intros t i Hi; apply (init_x nx other Ox), Hi).
    split.
    + intros i Hi. rewrite Pi, (init_x nx o Ox) by exact Hi. apply Ix0, Hi.
    + intros i Hi. rewrite init_col by assumption. apply is_derive_ext with (fun t => i_x (inpt t) i); [intros t; symmetry; apply Pi, Hi|]. apply Ixd, Hi.
  - apply (step_tangent (fun t => erk_traj M other (inpt t) n) (erk_traj M o inp n) (fun t => i_stale (inpt t) n)); assumption.
Qed.
End Tangent.
