(** The algebraic output of the implicit integrator. *)
From Coq Require Import ZArith List Bool Arith Lia Reals Lra.
From Coquelicot Require Import Coquelicot.
From Verif Require Import Arith Vec LinModel CollModel CollTop RSum Poly InterpProofs BghAdjProofs MeritGradProofs IrkModel IrkSpec IrkProofs IrkSens IrkFwd IrkTop IrkZModel IrkZSpec IrkZProofs.
Import ListNotations.
Open Scope R_scope.

(** without exact_z_output: the value at 0 of the interpolation polynomial *)
Theorem z_interp_top : forall M o inp lu q m F0 D0 zn0 S0, (0 < o_ns o)%nat -> distinct (o_ns o) (o_c o) -> asks q = true -> z_exact q = false ->
  exists zn SA, irk_z M o inp lu q m F0 D0 zn0 S0 = ZOk zn SA /\
  forall i a, (i < o_nz o)%nat -> through_z o (s_K (forward M o inp lu m F0 1)) i a -> zn i = poly (o_ns o - 1) a 0.
Proof.
  intros M o inp lu q m F0 D0 zn0 S0 Hn D HA HX. unfold asks in HA. unfold irk_z, compute_z. rewrite HX, HA. cbn [andb negb]. eexists _, _. split; [reflexivity|].
  intros i a Hi T. now apply z_start_poly.
Qed.
(** ... and its derivative *)
Theorem z_sens_top : forall MM p o inp lu q m F0 D0 zn0 S0 U X KK (d : vecR) (dk : nat -> vecR), (0 < o_ns o)%nat -> (0 < o_num_steps o)%nat -> distinct (o_ns o) (o_c o) ->
  z_sens q = true -> z_exact q = false -> o_sens_forw o || o_sens_hess o = true ->
  irk_consistent MM (o_nx o) (o_nu o) (o_nz o) (o_np o) -> lu_ok ((o_nx o + o_nz o) * o_ns o) lu -> irk_regular o inp lu m F0 (MM p) -> irk_seed_ok o inp ->
  irk_through o inp lu m F0 MM p (fun _ => p) U X KK ->
  (forall n k, (n < o_num_steps o)%nat -> (k < (o_nx o + o_nz o) * o_ns o)%nat -> is_derive (fun e => KK n e k) 0 (dk n k)) ->
  (forall r, (r < o_nx o)%nat -> is_derive (fun e => X 0%nat e r) 0 (sum (o_nx o + o_nu o) (fun c => n_S_forw inp r c * d c))) ->
  (forall c, (c < o_nu o)%nat -> is_derive (fun e => U e c) 0 (d (o_nx o + c)%nat)) ->
  exists zn SA, irk_z (MM p) o inp lu q m F0 D0 zn0 S0 = ZOk zn SA /\
  forall i (a : R -> vecR), (i < o_nz o)%nat -> locally 0 (fun e => through_z o (KK 0%nat e) i (a e)) ->
    is_derive (fun e => poly (o_ns o - 1) (a e) 0) 0 (sum (o_nx o + o_nu o) (fun c => SA i c * d c)).
Proof.
  intros MM p o inp lu q m F0 D0 zn0 S0 U X KK d dk Hn HN D HS HE W HC LU HR HI [HX [P0 [U0 [X0 K0]]]] DK DX DU. rewrite <- step_h in HX.
  assert (DP : forall c, (c < o_np o)%nat -> is_derive (fun _ : R => p c) 0 ((fun _ => 0) c)) by (intros; apply (is_derive_const (V := R_NormedModule) (p c) 0)).
  pose proof (forward_derivative MM p o inp lu HC m F0 (o_num_steps o) (fun _ => p) U X KK HX P0 U0 X0 K0 (fun r => sum (o_nx o + o_nu o) (fun c => n_S_forw inp r c * d c)) dk (fun c => d (o_nx o + c)%nat) (fun _ => 0) DK DX DU DP LU
    (regular_of _ _ _ _ _ _ _ HR) d (or_introl W) (or_intror (fun _ _ => eq_refl)) HI (fun _ _ => eq_refl) (fun _ _ => eq_refl) 0%nat (Nat.le_0_l _)) as [_ A]. specialize (A HN).
  unfold irk_z, compute_z. change (with_sens o) with (o_sens_forw o || o_sens_hess o). rewrite HS, HE, W. cbn [andb negb orb]. rewrite orb_true_r. eexists _, _. split; [reflexivity|].
  intros i a Hi T.
  apply (is_derive_locally_eq (fun e => nev (o_c o) (fun j => KK 0%nat e (o_ns o * o_nx o + j * o_nz o + i)%nat) (o_ns o - 1) 0 0)).
  - generalize T. apply filter_imp. intros e He. rewrite <- interp_nev. symmetry. apply interp_poly; assumption.
  - refine (is_derive_val _ _ _ _ (nev_derive (o_c o) 0 (fun e j => KK 0%nat e (o_ns o * o_nx o + j * o_nz o + i)%nat) (fun j => dk 0%nat (o_ns o * o_nx o + j * o_nz o + i)%nat) (o_ns o - 1) _ (o_ns o - 1) 0 (Nat.le_refl _)) _).
    + intros j Hj. apply DK; [exact HN|]. pose proof (blk_lt j (o_ns o) i (o_nz o) ltac:(lia) Hi). nia.
    + unfold S_interp. rewrite (nev_ext _ _ (fun j => - sum (o_nx o + o_nu o) (fun c => r_dK (s_rec (forward (MM p) o inp lu m F0 1) 0%nat) (o_nx o * o_ns o + j * o_nz o + i)%nat c * d c)) 0 (o_ns o - 1)).
      * rewrite nev_opp, nev_lin, <- sum_opp. apply sum_ext. intros c Hc. rewrite interp_nev. change (@nopp real) with Ropp. ring.
      * intros j Hj. rewrite A by (pose proof (blk_lt j (o_ns o) i (o_nz o) ltac:(lia) Hi); nia). unfold sens_dk. rewrite (sum_zero (o_np o)) by (intros; ring).
        replace (o_ns o * o_nx o)%nat with (o_nx o * o_ns o)%nat by lia.
        replace (dKs MM p o inp lu m F0 0) with (r_dK (s_rec (forward (MM p) o inp lu m F0 1) 0%nat)); [ring|].
        unfold dKs, Ks, xs, Ss. rewrite fwd_S. unfold irk_step. cbn [Nat.eqb]. destruct (newton _ _ _ _ _ _ _ _ _ _) as [K F]. cbn [s_rec s_K s_x s_S r_dK]. cbn [Nat.eqb r_dK].
        change (with_sens o) with (o_sens_forw o || o_sens_hess o). rewrite W. reflexivity.
      * lia.
Qed.
(** with exact_z_output, fresh Jacobians and xdot entering linearly: Newton's method from the interpolated values *)
Theorem z_exact_top : forall M o inp lu q m F0 D0 zn0 S0, (0 < o_ns o)%nat -> distinct (o_ns o) (o_c o) -> z_sens q = true -> z_exact q = true -> o_jac_reuse o = false ->
  xdot_linear M (o_nx o) (o_nu o) (o_nz o) -> lu_ok (o_nx o + o_nz o) lu -> (forall z, index_one M (o_nx o) (o_nz o) (n_x inp) (fun _ => 0) (n_u inp) z (n_t0 inp)) ->
  exists zn SA (zz : nat -> vecR), irk_z M o inp lu q m F0 D0 zn0 S0 = ZOk zn SA /\ zz (o_newton_iter o) = zn /\
    (forall i a, (i < o_nz o)%nat -> through_z o (s_K (forward M o inp lu m F0 1)) i a -> zz 0%nat i = poly (o_ns o - 1) a 0) /\
    (forall k, (k < o_newton_iter o)%nat -> z_newton_step M (o_nx o) (o_nz o) (n_x inp) (n_u inp) (n_t0 inp) (zz k) (zz (S k))) /\
    (z_affine M (o_nx o) (o_nz o) -> (0 < o_newton_iter o)%nat -> z_solves M (o_nx o) (o_nz o) (n_x inp) (n_u inp) (n_t0 inp) zn).
Proof.
  intros M o inp lu q m F0 D0 zn0 S0 Hn D HS HE JR XL LU I1. unfold irk_z, compute_z. rewrite HS, HE. cbn [andb negb orb]. rewrite orb_true_r.
  set (K := s_K (forward M o inp lu m F0 1)).
  destruct (z_newton_steps M o inp lu XL LU I1 JR (o_newton_iter o) 0 (fun _ _ => 0) (fun _ => 0) (xdot_start o K) (z_start o K)) as [zz [Z0 [Zn Zs]]].
  change (@n0 real) with 0. destruct (z_newton M o inp lu (o_newton_iter o) 0 _ _ _ _) as [xd zn] eqn:E. cbn [snd] in Zn.
  exists zn, (S_exact M o inp lu xd zn), zz. split; [reflexivity|]. split; [exact Zn|]. split; [|split; [exact Zs|]].
  - intros i a Hi T. rewrite Z0. now apply z_start_poly.
  - intros AF HN. destruct (o_newton_iter o) as [|k] eqn:EN; [lia|]. destruct (Zs k ltac:(lia)) as [w Hw]. exists w. intros q' Hq. rewrite <- Zn. rewrite (AF _ _ _ (zz k)) by exact Hq. now apply Hw.
Qed.
Theorem z_exact_sens_top : forall MM p o inp lu q m F0 D0 zn0 S0, z_sens q = true -> z_exact q = true ->
  irk_consistent MM (o_nx o) (o_nu o) (o_nz o) (o_np o) -> xdot_linear (MM p) (o_nx o) (o_nu o) (o_nz o) -> lu_ok (o_nx o + o_nz o) lu ->
  (forall z, index_one (MM p) (o_nx o) (o_nz o) (n_x inp) (fun _ => 0) (n_u inp) z (n_t0 inp)) ->
  exists zn SA, irk_z (MM p) o inp lu q m F0 D0 zn0 S0 = ZOk zn SA /\
  forall (X Kc U Z : R -> vecR) (d dK dZ : vecR), (forall r, (r < o_nx o)%nat -> is_derive (fun e => X e r) 0 (d r)) -> (forall c, (c < o_nu o)%nat -> is_derive (fun e => U e c) 0 (d (o_nx o + c)%nat)) ->
  (forall r, (r < o_nx o)%nat -> is_derive (fun e => Kc e r) 0 (dK r)) -> (forall r, (r < o_nz o)%nat -> is_derive (fun e => Z e r) 0 (dZ r)) ->
  agree (o_nx o) (X 0) (n_x inp) -> agree (o_nu o) (U 0) (n_u inp) -> agree (o_nz o) (Z 0) zn -> locally 0 (fun e => forall r, (r < o_nx o + o_nz o)%nat -> m_f (MM p) (X e) (Kc e) (U e) (Z e) (n_t0 inp) r = 0) ->
  forall i, (i < o_nz o)%nat -> is_derive (fun e => Z e i) 0 (sum (o_nx o + o_nu o) (fun c => SA i c * d c)).
Proof.
  intros MM p o inp lu q m F0 D0 zn0 S0 HS HE HC XL LU I1. unfold irk_z, compute_z. rewrite HS, HE. cbn [andb negb orb]. rewrite orb_true_r.
  destruct (z_newton (MM p) o inp lu (o_newton_iter o) 0 _ _ _ _) as [xd zn]. eexists _, _. split; [reflexivity|].
  intros X Kc U Z d dK dZ DX DU DK DZ X0 U0 Z0 HZ i Hi. refine (is_derive_val _ _ _ _ (DZ i Hi) _).
  exact (S_exact_derive (MM p) o inp lu XL LU I1 p MM eq_refl HC xd zn X Kc U Z d dK dZ DX DU DK DZ X0 U0 Z0 HZ i Hi).
Qed.

(** output_z and exact_z_output without sens_algebraic: the matrix of the Newton iterations has not been assigned *)
Theorem z_unassigned_top : forall (M : irk_model real) o inp lu q m F0 D0 zn0 S0, z_output q = true -> z_exact q = true -> z_sens q = false -> (0 < o_newton_iter o)%nat ->
  irk_z M o inp lu q m F0 D0 zn0 S0 = ZUnassigned.
Proof. intros M o inp lu q m F0 D0 zn0 S0 H1 H2 H3 HN. unfold irk_z, compute_z. rewrite H1, H2, H3. cbn [andb orb]. destruct (o_newton_iter o); [lia|reflexivity]. Qed.
(** sens_algebraic without forward sensitivities: whatever the workspace contains *)
Theorem z_stale_top : forall (M : irk_model real) o inp lu q m F0 zn0 S0 (v : vecR), z_sens q = true -> z_exact q = false -> o_sens_forw o = false -> o_sens_hess o = false -> (0 < o_ns o)%nat -> distinct (o_ns o) (o_c o) ->
  exists D0 zn SA, irk_z M o inp lu q m F0 D0 zn0 S0 = ZOk zn SA /\ forall i c, (i < o_nz o)%nat -> SA i c = v c.
Proof.
  intros M o inp lu q m F0 zn0 S0 v H1 H2 H3 H4 Hn D. exists (fun _ c => - v c). unfold irk_z, compute_z, with_sens. rewrite H1, H2, H3, H4. cbn [andb negb orb]. rewrite orb_true_r.
  eexists _, _. split; [reflexivity|]. intros i c Hi. unfold S_interp. rewrite (interp_poly o _ (fun k => match k with O => - v c | _ => 0 end) Hn D).
  - unfold poly. rewrite (sum_one _ 0); [cbn; ring|lia|]. intros [|k] Hk N; [congruence|ring].
  - intros j Hj. unfold poly. rewrite (sum_one _ 0); [cbn; ring|lia|]. intros [|k] Hk N; [congruence|ring].
Qed.
