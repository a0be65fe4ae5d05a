(** A soft bound and u^2 <= 4, as a convex function of r = u. *)
From Coq Require Import ZArith List Bool Arith Lia Reals Lra.
From Coquelicot Require Import Coquelicot.
From Verif Require Import Arith Vec LinModel BghEvalModel RSum BghEvalSpec BghEvalProofs BghAdjProofs BghEvalTop BghEvalCases BgpModel BgpProofs.
Import ListNotations.
Open Scope R_scope.

Definition gb (rev : bool) (mask : vecR) : bgp_in real :=
  mkGI (mkBI 1 1 0 1 0 1 1 (fun _ => 1%nat) (fun _ => 1%nat) (fun i => if (i =? 1)%nat then 0%Z else (-1)%Z) rev (fun _ => 4) mask
    (fun v z j => v 0%nat * v 0%nat) (fun v z r j => if (r =? 0)%nat then 2 * v 0%nat else 0) (fun v z k j => 0) (fun _ _ _ _ _ => 0) (fun _ _ _ _ _ => 0) false)
    1 (fun _ _ _ _ => 2) (fun _ _ r _ => if (r =? 0)%nat then 1 else 0).
Lemma gb_jac rev mask ux z : is_jac (g_b (gb rev mask)) ux z.
Proof.
  intros p q dp dq j Hj Ep Eq Dp Dq. cbn [b_h b_Jux b_Jz bnu bnx bnz gb g_b Nat.add].
  apply is_derive_val with (l := dp 0%nat * p 0 0%nat + p 0 0%nat * dp 0%nat).
  - apply (prod_derive (fun t => p t 0%nat) (fun t => p t 0%nat)); apply Dp.
  - rewrite Ep. unfold sum. cbn. lra.
Qed.
Lemma gb_sens rev mask zf dz ux : is_sens (g_b (gb rev mask)) zf dz ux.
Proof. intros d k Hk. cbn in Hk. lia. Qed.
Lemma gb_range rev mask : in_range (g_b (gb rev mask)).
Proof. unfold in_range; cbn; repeat split; intros; try lia. destruct (i =? 1)%nat; lia. Qed.
Lemma gb_convex rev mask ux z : convex_phi (gb rev mask) ux z.
Proof. intros i Hi. split; [reflexivity|]. intros v. unfold sum. cbn. pose proof (Rle_0_sqr (v 0%nat)) as H. unfold Rsqr in H. lra. Qed.
Definition gcall : call := mkCall eux (fun _ => 0) elam (fun _ _ => 0).
(** multipliers of the slack bounds 16 and 32: they are in the adjoint of one declaration only *)
Lemma gb_value rev : let M := prun (gb rev (fun _ => 1)) (fun _ _ => 0) em [gcall] in
  map (m_adj M) (seq 0 4) = [-24; -3; if rev then 2 else 18; if rev then 8 else 40] /\
  map (m_fun M) (seq 0 6) = [-1; -7; 1; -11; -3; -7] /\ map (m_RSQ M 0%nat) (seq 0 2) = [16; 0] /\ map (m_RSQ M 1%nat) (seq 0 2) = [0; 0].
Proof.
  destruct rev; cbv -[Rplus Rmult Ropp Rminus IZR Rdiv]; repeat split; repeat (apply (f_equal2 (@cons R)); [lra|]); reflexivity.
Qed.
Lemma slack_refuted : exists g D0 m c zf,
  b_compute_hess (g_b g) = false /\ in_range (g_b g) /\ good (g_b g) /\ c_z c = zf (c_ux c) /\ is_jac (g_b g) (c_ux c) (c_z c) /\ is_sens (g_b g) zf (c_dz c) (c_ux c) /\
  (forall i, c_lam c i * b_mask (g_b g) i = c_lam c i) /\
  ~ (forall d : vecR,
    is_derive (fun t => sum (2 * (bnb (g_b g) + bng (g_b g) + bnh (g_b g) + bns (g_b g))) (fun i => c_lam c i * (b_mask (g_b g) i * ineq (g_b g) D0 (fun v => b_h (g_b g) v (zf v)) i (fun r => c_ux c r + t * d r)))) 0
      (- sum (bnu (g_b g) + bnx (g_b g) + 2 * bns (g_b g)) (fun k => m_adj (prun g D0 m [c]) k * d k))).
Proof.
  exists (gb true (fun _ => 1)), (fun _ _ => 0), em, gcall, (fun _ _ => 0).
  split; [reflexivity|]. split; [apply gb_range|]. split; [left; reflexivity|]. split; [reflexivity|]. split; [apply gb_jac|]. split; [apply gb_sens|].
  split; [intros i; cbn; lra|]. intro H.
  apply (p_adjoint_exact (gb true (fun _ => 1)) eq_refl (gb_range _ _) (fun _ _ => 0) em [] gcall (fun _ _ => 0)) in H; [|left; reflexivity|reflexivity|apply gb_jac|apply gb_sens|intros; cbn; lra].
  destruct H as [H|H]; [discriminate|]. specialize (H 0%nat ltac:(cbn; lia)). cbn in H. lra.
Qed.
(** a slack without lower bound: mask 0 there; the values of the line search differ from those of the QP at the same point *)
Definition gmask : vecR := fun k => if (k =? 4)%nat then 0 else 1.
Lemma mask_refuted : exists g D0 m c t M i,
  b_compute_hess (g_b g) = false /\ in_range (g_b g) /\ (i < 2 * (bnb (g_b g) + bng (g_b g) + bnh (g_b g) + bns (g_b g)))%nat /\
  p_compute_fun g (c_ux c) (c_z c) t (prun g D0 m [c]) = Some M /\ b_mask (g_b g) i = 0 /\ m_fun (prun g D0 m [c]) i = 0 /\ m_fun M i <> 0.
Proof.
  destruct (p_compute_fun_ok (gb true gmask) eq_refl (gb_range _ _) (fun _ _ => 0) em [gcall] eux (fun _ => 0) (fun _ => 0) (or_introl eq_refl)) as (M & E & _ & B).
  exists (gb true gmask), (fun _ _ => 0), em, gcall, (fun _ => 0), M, 4%nat.
  split; [reflexivity|]. split; [apply gb_range|]. split; [cbn; lia|]. split; [exact E|]. split; [reflexivity|]. split.
  - change [gcall] with ([] ++ [gcall]). rewrite (prun_fun (gb true gmask) eq_refl (gb_range _ _) (fun _ _ => 0) em [] gcall 4 (or_introl eq_refl)) by (cbn; lia). unfold gmask. cbn. lra.
  - rewrite B by (cbn; lia). unfold ineq. cbn. lra.
Qed.
(** r = u + x: the block of the Hessian is symmetric before and not after *)
Definition gs : bgp_in real := mkGI (g_b (gb false (fun _ => 1))) 1 (fun _ _ _ _ => 2) (fun _ _ _ _ => 1).
Lemma triangle_refuted : exists g D0 m c, b_compute_hess (g_b g) = false /\ convex_phi g (c_ux c) (c_z c) /\
  (forall r k, m_RSQ m r k = m_RSQ m k r) /\
  exists r k, (r < bnu (g_b g) + bnx (g_b g))%nat /\ (k < bnu (g_b g) + bnx (g_b g))%nat /\ m_RSQ (prun g D0 m [c]) r k <> m_RSQ (prun g D0 m [c]) k r.
Proof.
  exists gs, (fun _ _ => 0), em, gcall. split; [reflexivity|]. split.
  { intros i Hi. split; [reflexivity|]. intros v. unfold sum. cbn. pose proof (Rle_0_sqr (v 0%nat)) as H. unfold Rsqr in H. lra. }
  split; [reflexivity|]. exists 1%nat, 0%nat. split; [cbn; lia|]. split; [cbn; lia|].
  pose proof (prun_hess gs (fun _ _ => 0) em [] gcall 1 0) as E1. pose proof (prun_hess gs (fun _ _ => 0) em [] gcall 0 1) as E2.
  cbn [app] in *. rewrite E1, E2. cbv -[Rplus Rmult Ropp Rminus IZR Rdiv]. lra.
Qed.
(** as in the module bgh *)
Lemma p_jacobian g D0 m cs c : b_compute_hess (g_b g) = false -> bnz (g_b g) = 0%nat \/ bng (g_b g) = 0%nat \/ bnh (g_b g) = 0%nat ->
  (forall r j, (r < bnu (g_b g) + bnx (g_b g))%nat -> (j < bng (g_b g))%nat -> m_DCt (prun g D0 m (cs ++ [c])) r j = D0 r j) /\
  (forall r j, (r < bnu (g_b g) + bnx (g_b g))%nat -> (j < bnh (g_b g))%nat -> m_DCt (prun g D0 m (cs ++ [c])) r (bng (g_b g) + j)%nat =
     b_Jux (g_b g) (c_ux c) (c_z c) r j + sum (bnz (g_b g)) (fun k => c_dz c r k * b_Jz (g_b g) (c_ux c) (c_z c) k j)).
Proof. intros NH G. destruct (run_agree g NH D0 m (cs ++ [c])) as (E & _ & _). rewrite E. now apply jacobian_ok. Qed.
Lemma p_oob g D0 m cs c : b_compute_hess (g_b g) = false -> (0 < bnh (g_b g))%nat -> (0 < bnu (g_b g) + bnx (g_b g))%nat -> (0 < bng (g_b g))%nat ->
  m_oob (prun g D0 m (cs ++ [c])) = true.
Proof. intros NH A B C. destruct (run_agree g NH D0 m (cs ++ [c])) as (_ & _ & E). rewrite E. now apply run_oob. Qed.
Lemma p_z_refuted : exists b zf dz ux z lam,
  (0 < bng b)%nat /\ (0 < bnh b)%nat /\ (0 < bnz b)%nat /\ in_range b /\ is_jac b ux z /\ z = zf ux /\ is_sens b zf dz ux /\
  forall nr Hr Jr D0 m,
    (forall n, exists r c, (r < bnu b + bnx b)%nat /\ (c < bng b)%nat /\
      m_DCt (prun (mkGI b nr Hr Jr) D0 m (repeat (mkCall ux z lam dz) n)) r c = D0 r c + INR n) /\
    (forall cs, exists r j, (r < bnu b + bnx b)%nat /\ (j < bnh b)%nat /\
      m_DCt (prun (mkGI b nr Hr Jr) D0 m (cs ++ [mkCall ux z lam dz])) r (bng b + j)%nat <> b_Jux b ux z r j + sum (bnz b) (fun k => dz r k * b_Jz b ux z k j)).
Proof.
  exists zb, (fun v _ => v 0%nat), zdz, (fun _ => 0), (fun _ => 0), (fun _ => 0).
  split; [cbn; lia|]. split; [cbn; lia|]. split; [cbn; lia|]. split; [exact zb_range|]. split; [apply zb_jac|]. split; [reflexivity|]. split; [apply zb_sens|].
  intros nr Hr Jr D0 m. split.
  - intro n. exists 1%nat, 0%nat. split; [cbn; lia|]. split; [cbn; lia|].
    destruct (run_agree (mkGI zb nr Hr Jr) eq_refl D0 m (repeat (mkCall (fun _ => 0) (fun _ => 0) (fun _ => 0) zdz) n)) as (E & _ & _). rewrite E.
    apply (zb_drift D0 m (fun _ => 0) (fun _ => 0) n).
  - intro cs. exists 0%nat, 0%nat. split; [cbn; lia|]. split; [cbn; lia|].
    destruct (run_agree (mkGI zb nr Hr Jr) eq_refl D0 m (cs ++ [mkCall (fun _ => 0) (fun _ => 0) (fun _ => 0) zdz])) as (E & _ & _). rewrite E.
    change (bng zb + 0)%nat with 1%nat. pose proof (zb_missing D0 m cs (fun _ => 0) (fun _ => 0) 0%nat ltac:(lia)) as E'. unfold zcall in E'. cbn [g_b]. rewrite E'.
    unfold sum, zdz. cbn. lra.
Qed.
