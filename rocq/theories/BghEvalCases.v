From Coq Require Import ZArith List Bool Lia Reals Lra FunctionalExtensionality.
From Coquelicot Require Import Coquelicot.
From Verif Require Import Arith Vec LinModel Poly LinProofs OcpProofs BghEvalModel RSum BghEvalSpec BghEvalProofs BghAdjProofs BghEvalTop.
Import ListNotations.
Open Scope R_scope.

Lemma hessian_ok b D0 m cs c r k : (0 < bnh b)%nat -> b_compute_hess b = true -> (r < bnu b + bnx b)%nat -> (k < bnu b + bnx b)%nat ->
  exists mult, (forall j, (j < bnh b)%nat -> mult j = c_lam c (2 * (bnb b + bng b) + bnh b + j)%nat - c_lam c (bnb b + bng b + j)%nat) /\
  m_RSQ (run b D0 m (cs ++ [c])) r k = m_RSQ (run b D0 m cs) r k + (b_hess b (c_ux c) (c_z c) mult r k
    + sum (bnz b) (fun p => sum (bnz b) (fun q => c_dz c r p * b_hess_z b (c_ux c) (c_z c) mult p q * c_dz c k q))).
Proof.
  intros Hh Hc Hr Hk. rewrite run_snoc. set (m1 := run b D0 m cs).
  exists (daxpyv (A := real) (bnh b) (- (1)) (c_lam c) (bnb b + bng b) (c_lam c) (2 * bnb b + 2 * bng b + bnh b) (fun _ => 0) 0). split.
  - intros j Hj. unfold daxpyv. cbn [Nat.leb]. nb. cbn [andb]. rewrite ?Nat.sub_0_r. replace (2 * (bnb b + bng b) + bnh b + j)%nat with (2 * bnb b + 2 * bng b + bnh b + j)%nat by lia.
    replace (bnb b + bng b + (j - 0))%nat with (bnb b + bng b + j)%nat by lia. rrs. lra.
  - unfold step, update_qp_vectors. cbn [m_RSQ]. unfold update_qp_matrices. cbn [m_RSQ]. unfold z_fun, nonlinear. cbn [m_DCt m_RSQ m_eval m_fun m_adj m_oob]. rewrite Hc, (proj2 (Nat.ltb_lt _ _) Hh).
    assert (Q : forall mu, m_RSQ m1 r k + (z_hess b (c_dz c) (b_hess b (c_ux c) (c_z c) mu) (b_hess_z b (c_ux c) (c_z c) mu) r k) = m_RSQ m1 r k + (b_hess b (c_ux c) (c_z c) mu r k
      + sum (bnz b) (fun p => sum (bnz b) (fun q => c_dz c r p * b_hess_z b (c_ux c) (c_z c) mu p q * c_dz c k q)))).
    { intro mu. unfold z_hess. apply (f_equal2 Rplus); [reflexivity|]. vs. rrs. rewrite Rmult_1_l. apply (f_equal2 Rplus); [reflexivity|]. apply sum_ext. intros p Hp. vs. rrs. rewrite Rmult_1_l, <- sum_scal. apply sum_ext. intros q Hq. lra. }
    rewrite <- Q. destruct (0 <? bnz b)%nat; cbn [m_RSQ dgead]; nb; cbn [andb]; rewrite !Nat.sub_0_r; rrs; rewrite Rmult_1_l; reflexivity.
Qed.

(** ** the parts of the exact Hessian that a function of (u, x, z, mult) cannot deliver *)
Definition hb (H : vecR -> vecR -> vecR -> matR) (Hz : vecR -> vecR -> vecR -> matR) : bgh_in real :=
  mkBI 0 1 1 0 0 1 0 (fun _ => 0%nat) (fun _ => 0%nat) (fun _ => (-1)%Z) false (fun _ => 0) (fun _ => 1)
    (fun v z j => v 0%nat * z 0%nat) (fun v z r j => z 0%nat) (fun v z k j => v 0%nat) H Hz true.
Lemma prod_derive (f g : R -> R) x a c : is_derive f x a -> is_derive g x c -> is_derive (fun t => f t * g t) x (a * g x + f x * c).
Proof. intros. apply is_derive_val with (l := plus (mult a (g x)) (mult (f x) c)); [|reflexivity]. apply (is_derive_mult f g x a c H H0). intros; apply Rmult_comm. Qed.
Lemma hb_jac H Hz ux z : is_jac (hb H Hz) ux z.
Proof.
  intros p q dp dq j Hj Ep Eq Dp Dq. cbn [b_h b_Jux b_Jz bnu bnx bnz hb Nat.add].
  apply is_derive_val with (l := dp 0%nat * q 0 0%nat + p 0 0%nat * dq 0%nat).
  - apply (prod_derive (fun t => p t 0%nat) (fun t => q t 0%nat)); [apply Dp|apply Dq; cbn; lia].
  - rewrite Ep, Eq. unfold sum. cbn. lra.
Qed.
Lemma hb_sens H Hz a ux : is_sens (hb H Hz) (fun v _ => a * v 0%nat) (fun _ _ => a) ux.
Proof.
  intros d k Hk. apply is_derive_val with (l := a * d 0%nat).
  - apply (scal_derive a (fun t => ux 0%nat + t * d 0%nat)). apply line_derive.
  - unfold sum. cbn. lra.
Qed.
(** second derivative of h(x, z(x)) = a x^2 *)
Lemma hb_second H Hz (a : R) (u : vecR) : is_derive (fun t => Derive (fun s => b_h (hb H Hz) (fun _ => s) (fun _ => a * s) 0%nat) t) (u 0%nat) (2 * a).
Proof.
  cbn [b_h hb]. apply (is_derive_ext (fun t => 2 * a * t)).
  - intro t. symmetry. apply is_derive_unique. auto_derive; [exact I|]. lra.
  - auto_derive; [exact I|]. lra.
Qed.
Definition hcall (a : R) (lam : vecR) : call := mkCall (fun _ => 0) (fun _ => a * 0) lam (fun _ _ => a).
Lemma hessian_gap H Hz D0 m (lam : vecR) : lam 1%nat - lam 0%nat <> 0 ->
  exists a, m_RSQ (run (hb H Hz) D0 m [hcall a lam]) 0%nat 0%nat - m_RSQ m 0%nat 0%nat <> (lam 1%nat - lam 0%nat) * (2 * a).
Proof.
  intro Hl.
  set (mu := daxpyv (A := real) 1 (- (1)) lam 0 lam 1 (fun _ => 0) 0).
  assert (E : forall a, m_RSQ (run (hb H Hz) D0 m [hcall a lam]) 0%nat 0%nat - m_RSQ m 0%nat 0%nat = H (fun _ => 0) (fun _ => a * 0) mu 0%nat 0%nat + a * (Hz (fun _ => 0) (fun _ => a * 0) mu 0%nat 0%nat * a)).
  { intro a. unfold run, step, init_DCt. cbn [fold_left]. unfold update_qp_vectors, update_qp_matrices, z_fun, nonlinear. cbn [hb hcall c_ux c_z c_lam c_dz bnh bnz bnb bng bnu bnx Nat.ltb Nat.leb b_compute_hess m_RSQ dgead b_hess b_hess_z Nat.add Nat.mul andb Nat.sub].
    unfold z_hess. vs. rrs. cbn [hb bnz]. unfold sum, LinProofs.sum. cbn. unfold mu. rr. change (num real) with R. ring. }
  destruct (Req_dec (H (fun _ => 0) (fun _ => 0) mu 0%nat 0%nat + Hz (fun _ => 0) (fun _ => 0) mu 0%nat 0%nat) ((lam 1%nat - lam 0%nat) * 2)) as [Q|Q].
  - exists (-1). rewrite E. replace (fun _ : nat => -1 * 0) with (fun _ : nat => 0) by (apply functional_extensionality; intro; lra). lra.
  - exists 1. rewrite E. replace (fun _ : nat => 1 * 0) with (fun _ : nat => 0) by (apply functional_extensionality; intro; lra). lra.
Qed.

(** ** linear and nonlinear constraints together with algebraic variables *)
Definition zb : bgh_in real :=
  mkBI 0 2 1 0 1 1 0 (fun _ => 0%nat) (fun _ => 0%nat) (fun _ => (-1)%Z) false (fun _ => 0) (fun _ => 1)
    (fun v z j => z 0%nat) (fun v z r j => 0) (fun v z k j => 1) (fun _ _ _ _ _ => 0) (fun _ _ _ _ _ => 0) false.
Definition zdz : matR := fun r k => if (r =? 0)%nat then 1 else 0.
Definition zcall (ux lam : vecR) : call := mkCall ux (fun _ => ux 0%nat) lam zdz.
Lemma zb_jac ux z : is_jac zb ux z.
Proof.
  intros p q dp dq j Hj Ep Eq Dp Dq. cbn [b_h b_Jux b_Jz bnu bnx bnz zb Nat.add].
  apply is_derive_val with (l := dq 0%nat); [apply Dq; cbn; lia|]. unfold sum. cbn. lra.
Qed.
Lemma zb_sens ux : is_sens zb (fun v _ => v 0%nat) zdz ux.
Proof. intros d k Hk. apply is_derive_val with (l := d 0%nat); [apply line_derive|]. unfold sum, zdz. cbn. lra. Qed.
Lemma zb_range : in_range zb.
Proof. unfold in_range; cbn; repeat split; intros; lia. Qed.
Lemma zb_drift D0 m ux lam n : m_DCt (run zb D0 m (repeat (zcall ux lam) n)) 1%nat 0%nat = D0 1%nat 0%nat + INR n.
Proof.
  induction n as [|n IH]; [unfold run; cbn; lra|].
  replace (repeat (zcall ux lam) (S n)) with (repeat (zcall ux lam) n ++ [zcall ux lam]) by (symmetry; apply (repeat_cons n)).
  rewrite jacobian_exact. cbn [zb bnu bnx bng bnh bnz Nat.add Nat.ltb Nat.leb andb Nat.sub]. rewrite IH, S_INR. unfold sum, zdz. cbn [zcall c_dz c_ux c_z b_Jz]. cbn. lra.
Qed.
Lemma zb_missing D0 m cs ux lam r : (r < 2)%nat -> m_DCt (run zb D0 m (cs ++ [zcall ux lam])) r 1%nat = 0.
Proof.
  intro Hr. rewrite jacobian_exact. cbn [zb bnu bnx bng bnh bnz Nat.add Nat.sub]. destruct r as [|[|r]]; [| |lia]; cbn; lra.
Qed.
Lemma z_refuted : exists b zf dz ux z lam,
  (0 < bng b)%nat /\ (0 < bnh b)%nat /\ (0 < bnz b)%nat /\ in_range b /\ is_jac b ux z /\ z = zf ux /\ is_sens b zf dz ux /\
  forall D0 m,
    (forall n, exists r c, (r < bnu b + bnx b)%nat /\ (c < bng b)%nat /\
      m_DCt (run b D0 m (repeat (mkCall ux z lam dz) n)) r c = D0 r c + INR n) /\
    (forall cs, exists r j, (r < bnu b + bnx b)%nat /\ (j < bnh b)%nat /\
      m_DCt (run b D0 m (cs ++ [mkCall ux z lam dz])) r (bng b + j)%nat <> b_Jux b ux z r j + sum (bnz b) (fun k => dz r k * b_Jz b ux z k j)).
Proof.
  exists zb, (fun v _ => v 0%nat), zdz, (fun _ => 0), (fun _ => 0), (fun _ => 0).
  split; [cbn; lia|]. split; [cbn; lia|]. split; [cbn; lia|]. split; [exact zb_range|]. split; [apply zb_jac|]. split; [reflexivity|]. split; [apply zb_sens|].
  intros D0 m. split.
  - intro n. exists 1%nat, 0%nat. split; [cbn; lia|]. split; [cbn; lia|]. apply (zb_drift D0 m (fun _ => 0) (fun _ => 0) n).
  - intro cs. exists 0%nat, 0%nat. split; [cbn; lia|]. split; [cbn; lia|].
    change (bng zb + 0)%nat with 1%nat. pose proof (zb_missing D0 m cs (fun _ => 0) (fun _ => 0) 0%nat ltac:(lia)) as E. unfold zcall in E. rewrite E.
    unfold sum, zdz. cbn. lra.
Qed.

(** ** a soft bound, a soft linear constraint and a nonlinear one with an algebraic variable *)
Definition eb (rev : bool) : bgh_in real :=
  mkBI 1 1 1 1 0 1 1 (fun _ => 1%nat) (fun _ => 1%nat) (fun i => if (i =? 1)%nat then 0%Z else (-1)%Z) rev (fun _ => 0) (fun _ => 1)
    (fun v z j => v 0%nat * z 0%nat) (fun v z r j => if (r =? 0)%nat then z 0%nat else 0) (fun v z k j => v 0%nat) (fun _ _ _ _ _ => 0) (fun _ _ _ _ _ => 0) false.
Lemma eb_jac rev ux z : is_jac (eb rev) ux z.
Proof.
  intros p q dp dq j Hj Ep Eq Dp Dq. cbn [b_h b_Jux b_Jz bnu bnx bnz eb Nat.add].
  apply is_derive_val with (l := dp 0%nat * q 0 0%nat + p 0 0%nat * dq 0%nat).
  - apply (prod_derive (fun t => p t 0%nat) (fun t => q t 0%nat)); [apply Dp|apply Dq; cbn; lia].
  - rewrite Ep, Eq. unfold sum. cbn. lra.
Qed.
Definition edz : matR := fun r k => if (r =? 1)%nat then 3 else 0.
Lemma eb_sens rev ux : is_sens (eb rev) (fun v _ => 3 * v 1%nat) edz ux.
Proof.
  intros d k Hk. apply is_derive_val with (l := 3 * d 1%nat); [apply (scal_derive 3 (fun t => ux 1%nat + t * d 1%nat)); apply line_derive|].
  unfold sum, edz. cbn. lra.
Qed.
Lemma eb_range rev : in_range (eb rev).
Proof. unfold in_range; cbn; repeat split; intros; try lia. destruct (i =? 1)%nat; lia. Qed.
Lemma eb_same rev : same_slacks (eb rev).
Proof. intros i j Hi Hj. cbn in *. destruct i as [|[|i]]; cbn; [| |lia]; lia. Qed.
Definition eux : vecR := fun k => match k with 0%nat => 2 | 1%nat => 5 | 2%nat => 7 | _ => 11 end.
Definition elam : vecR := fun k => match k with 0%nat => 1 | 1%nat => 2 | 2%nat => 4 | 3%nat => 8 | 4%nat => 16 | _ => 32 end.
Definition ecall : call := mkCall eux (fun _ => 3 * eux 1%nat) elam edz.
Definition em : bgh_mem real := mkBM (fun _ _ => 0) (fun _ _ => 0) (fun _ => 0) (fun _ => 0) (fun _ => 0) false.
(** x in [0,0] with multipliers 1 and 4, u * z with 2 and 8 and both slacks *)
Lemma eb_value rev : let M := run (eb rev) (fun _ _ => 0) em [ecall] in
  map (m_adj M) (seq 0 4) = [-90; -39; 18; 40] /\ map (m_fun M) (seq 0 6) = [-5; -37; 5; 19; -7; -11].
Proof.
  destruct rev; cbv -[Rplus Rmult Ropp Rminus IZR Rdiv]; split; repeat f_equal; lra.
Qed.
Lemma compute_fun_exits (b : bgh_in real) (ux z t : vecR) m : bnz b <> 0%nat -> bnh b <> 0%nat -> compute_fun b ux z t m = None.
Proof. intros A B. unfold compute_fun. now rewrite !(proj2 (Nat.ltb_lt 0 _)) by lia. Qed.
Lemma hessian_refuted H Hz D0 m (lam : vecR) : lam 1%nat - lam 0%nat <> 0 ->
  (forall ux z, is_jac (hb H Hz) ux z) /\
  (forall a ux, is_sens (hb H Hz) (fun v _ => a * v 0%nat) (fun _ _ => a) ux) /\
  (forall a (u : vecR), is_derive (fun t => Derive (fun s => b_h (hb H Hz) (fun _ => s) (fun _ => a * s) 0%nat) t) (u 0%nat) (2 * a)) /\
  exists a, m_RSQ (run (hb H Hz) D0 m [hcall a lam]) 0%nat 0%nat - m_RSQ m 0%nat 0%nat <> (lam 1%nat - lam 0%nat) * (2 * a).
Proof.
  intro Hl. split; [intros; apply hb_jac|]. split; [intros; apply hb_sens|]. split; [intros; apply hb_second|]. now apply hessian_gap.
Qed.
