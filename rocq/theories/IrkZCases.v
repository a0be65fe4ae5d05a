(** Concrete cases for the algebraic output: one step of the implicit midpoint rule from x = 1, xdot = x. *)
From Coq Require Import ZArith List Bool Arith Lia Reals Lra.
From Coquelicot Require Import Coquelicot.
From Verif Require Import FP Arith Vec LinModel CollModel CollTop RSum Poly InterpProofs BghAdjProofs MeritGradProofs IrkModel IrkSpec IrkProofs IrkSens IrkFwd IrkTop IrkCases IrkZModel IrkZSpec IrkZTop.
Import ListNotations.
Open Scope R_scope.

(** 2x2 solver; for other sizes, zeros *)
Definition zlu (n : nat) (F : matR) (b : vecR) : vecR := fun k =>
  let D := F 0%nat 0%nat * F 1%nat 1%nat - F 0%nat 1%nat * F 1%nat 0%nat in
  match n, k with 2%nat, 0%nat => (F 1%nat 1%nat * b 0%nat - F 0%nat 1%nat * b 1%nat) / D | 2%nat, 1%nat => (F 0%nat 0%nat * b 1%nat - F 1%nat 0%nat * b 0%nat) / D | _, _ => 0 end.
Lemma zlu_ok : lu_ok 2 zlu.
Proof.
  intros F b H r Hr. assert (D : F 0%nat 0%nat * F 1%nat 1%nat - F 0%nat 1%nat * F 1%nat 0%nat <> 0).
  { intros D. destruct (Req_dec (F 0%nat 0%nat) 0) as [A|A].
    - destruct (Req_dec (F 0%nat 1%nat) 0) as [B|B].
      + destruct (Req_dec (F 1%nat 1%nat) 0) as [C|C].
        * pose proof (H (fun k => if (k =? 1)%nat then 1 else 0)) as Z. specialize (Z ltac:(intros [|[|r']] L; [cbn; lra|cbn; lra|lia]) 1%nat ltac:(lia)). cbn in Z. lra.
        * pose proof (H (fun k => if (k =? 0)%nat then F 1%nat 1%nat else - F 1%nat 0%nat)) as Z. specialize (Z ltac:(intros [|[|r']] L; [cbn; rewrite A, B; ring|cbn; ring|lia]) 0%nat ltac:(lia)). cbn in Z. lra.
      + pose proof (H (fun k => if (k =? 0)%nat then F 0%nat 1%nat else - F 0%nat 0%nat)) as Z. specialize (Z ltac:(intros [|[|r']] L; [cbn; ring|cbn; nra|lia]) 0%nat ltac:(lia)). cbn in Z. lra.
    - pose proof (H (fun k => if (k =? 0)%nat then - F 0%nat 1%nat else F 0%nat 0%nat)) as Z. specialize (Z ltac:(intros [|[|r']] L; [cbn; ring|cbn; nra|lia]) 1%nat ltac:(lia)). cbn in Z. lra. }
  destruct r as [|[|r]]; [| |lia]; cbn; field; exact D.
Qed.
(** xdot = x, 2 z = 2 x *)
Definition zM (_ : vecR) : irk_model real := mkIM (A := real)
  (fun x k u z t q => if (q =? 0)%nat then k 0%nat - x 0%nat else 2 * z 0%nat - 2 * x 0%nat) (fun x k u z t q c => if (q =? 0)%nat then - (1) else - (2)) (fun x k u z t q c => if (q =? 0)%nat then 1 else 0)
  (fun _ _ _ _ _ _ _ => 0) (fun x k u z t q c => if (q =? 0)%nat then 0 else 2) (fun _ _ _ _ _ _ _ => 0) (fun _ _ _ _ _ _ _ _ => 0).
(** xdot = x, z = xdot^2 *)
Definition wM (_ : vecR) : irk_model real := mkIM (A := real)
  (fun x k u z t q => if (q =? 0)%nat then k 0%nat - x 0%nat else z 0%nat - k 0%nat * k 0%nat) (fun x k u z t q c => if (q =? 0)%nat then - (1) else 0) (fun x k u z t q c => if (q =? 0)%nat then 1 else - (2 * k 0%nat))
  (fun _ _ _ _ _ _ _ => 0) (fun x k u z t q c => if (q =? 0)%nat then 0 else 1) (fun _ _ _ _ _ _ _ => 0) (fun _ _ _ _ _ _ _ _ => 0).
Definition zo (jr : bool) (it : nat) : irk_opts real := mkIO (A := real) 1 0 1 0 1 1 it (fun _ _ => / 2) (fun _ => 1) (fun _ => / 2) jr 0 true false false false.
Definition zin : irk_in real := mkII (A := real) (fun _ => 1) (fun _ => 0) 1 0 (fun r c => if (r =? c)%nat then 1 else 0) (fun _ => 0) true.
Definition zq := mkZO true true true.
(** the guesses that solve the stage equations of zM and wM *)
Definition zm : irk_mem real := mkIMem (A := real) (fun _ => 2) (fun _ => 2).
Definition wm : irk_mem real := mkIMem (A := real) (fun _ => 2) (fun _ => 4).
Definition zout (r : z_res real) : vecR * matR := match r with ZOk zn SA => (zn, SA) | ZUnassigned => (fun _ => 0, fun _ _ => 0) end.
Ltac evz := cbv -[Rplus Rmult Ropp Rminus Rdiv Rinv IZR Rlt_dec]; try (destruct (Rlt_dec 0 0) as [L00|_]; [exfalso; lra|]).
Definition p0 : vecR := fun _ => 0.
Definition I2 : matR := fun r c => if (r =? c)%nat then 1 else 0.
Definition zres jr it := irk_z (zM p0) (zo jr it) zin zlu zq zm I2 (fun _ _ => 0) (fun _ => 0) (fun _ _ => 0).
Definition wres it := irk_z (wM p0) (zo false it) zin zlu zq wm I2 (fun _ _ => 0) (fun _ => 0) (fun _ _ => 0).
Lemma nonsing2 (F : matR) : F 0%nat 0%nat * F 1%nat 1%nat - F 0%nat 1%nat * F 1%nat 0%nat <> 0 -> nonsing 2 F.
Proof.
  intros D y H k Hk. pose proof (H 0%nat ltac:(lia)) as H0. pose proof (H 1%nat ltac:(lia)) as H1. cbn [sum] in H0, H1.
  rewrite Rplus_0_l in H0, H1. clear H. revert D H0 H1. generalize (F 0%nat 0%nat) (F 0%nat 1%nat) (F 1%nat 0%nat) (F 1%nat 1%nat). intros a b c d D H0 H1.
  assert (E0 : (a * d - b * c) * y 0%nat = 0) by (replace ((a * d - b * c) * y 0%nat) with (d * (a * y 0%nat + b * y 1%nat) - b * (c * y 0%nat + d * y 1%nat)) by ring; rewrite H0, H1; ring).
  assert (E1 : (a * d - b * c) * y 1%nat = 0) by (replace ((a * d - b * c) * y 1%nat) with (a * (c * y 0%nat + d * y 1%nat) - c * (a * y 0%nat + b * y 1%nat)) by ring; rewrite H0, H1; ring).
  destruct k as [|[|k]]; [| |lia]; [destruct (Rmult_integral _ _ E0)|destruct (Rmult_integral _ _ E1)]; tauto.
Qed.
Notation wx := (fun _ : nat => 1).
Lemma w_dG it : let D := dG_dK (wM p0) (zo false it) zin 0 wx (guess (zo false it) wm) in D 0%nat 0%nat = / 2 /\ D 0%nat 1%nat = 0 /\ D 1%nat 0%nat = - (4) /\ D 1%nat 1%nat = 1.
Proof. cbv zeta. repeat split; evz; field. Qed.
Lemma w_zero it : forall i q, (i < 1)%nat -> (q < 2)%nat -> at_stage (zo false it) zin (m_f (wM p0)) 0 wx (guess (zo false it) wm) i q = 0.
Proof. intros [|i] [|[|q]] Hi Hq; try lia; evz; field. Qed.
Lemma w_fwd it : s_K (forward (wM p0) (zo false it) zin zlu wm I2 1) = guess (zo false it) wm.
Proof.
  unfold forward. cbn [loop]. unfold irk_step. cbn [irk_init s_x s_K s_F].
  pose proof (irk_newton_fixed_top (wM p0) (zo false it) zin zlu 0 wx (guess (zo false it) wm) I2 zlu_ok) as [A _].
  - apply nonsing2. unfold I2. cbn. lra.
  - apply nonsing2. destruct (w_dG it) as [-> [-> [-> ->]]]. lra.
  - specialize (A (w_zero it) it 0%nat). change (n_x zin) with wx. change (o_newton_iter (zo false it)) with it. destruct (newton _ _ _ _ _ _ _ _ _ _) as [K F]. cbn [fst] in A. cbn [s_K]. exact A.
Qed.
Lemma z_dG jr it : let D := dG_dK (zM p0) (zo jr it) zin 0 wx (guess (zo jr it) zm) in D 0%nat 0%nat = / 2 /\ D 0%nat 1%nat = 0 /\ D 1%nat 0%nat = - (1) /\ D 1%nat 1%nat = 2.
Proof. cbv zeta. repeat split; evz; field. Qed.
Lemma z_zero jr it : forall i q, (i < 1)%nat -> (q < 2)%nat -> at_stage (zo jr it) zin (m_f (zM p0)) 0 wx (guess (zo jr it) zm) i q = 0.
Proof. intros [|i] [|[|q]] Hi Hq; try lia; evz; field. Qed.
Lemma z_fwd jr it : s_K (forward (zM p0) (zo jr it) zin zlu zm I2 1) = guess (zo jr it) zm.
Proof.
  unfold forward. cbn [loop]. unfold irk_step. cbn [irk_init s_x s_K s_F].
  pose proof (irk_newton_fixed_top (zM p0) (zo jr it) zin zlu 0 wx (guess (zo jr it) zm) I2 zlu_ok) as [A _].
  - apply nonsing2. unfold I2. cbn. lra.
  - apply nonsing2. destruct (z_dG jr it) as [-> [-> [-> ->]]]. lra.
  - specialize (A (z_zero jr it) it 0%nat). change (n_x zin) with wx. change (o_newton_iter (zo jr it)) with it. destruct (newton _ _ _ _ _ _ _ _ _ _) as [K F]. cbn [fst] in A. cbn [s_K]. exact A.
Qed.
Lemma znew_fresh jr it n i F r xd z : jr = false \/ i = 0%nat -> exists F' r' xd' z', z_newton (zM p0) (zo jr it) zin zlu (S n) i F r xd z = z_newton (zM p0) (zo jr it) zin zlu n (S i) F' r' xd' z' /\
  F' = dxdotz (zM p0) (zo jr it) zin xd z /\ r' 0%nat = xd 0%nat - 1 /\ r' 1%nat = z 0%nat - 1 /\ z' 0%nat = 1.
Proof.
  intros H. eexists _, _, _, _. cbn [z_newton]. assert (E : (i =? 0)%nat || negb (o_jac_reuse (zo jr it)) = true) by (destruct H as [->| ->]; cbn; auto using orb_true_r). rewrite E.
  split; [reflexivity|]. split; [reflexivity|]. clear E H. repeat split; evz; field.
Qed.
Lemma znew_reuse it n i xd0 z0 r xd z : exists r' xd' z', let F := dxdotz (zM p0) (zo true it) zin xd0 z0 in z_newton (zM p0) (zo true it) zin zlu (S n) (S i) F r xd z = z_newton (zM p0) (zo true it) zin zlu n (S (S i)) F r' xd' z' /\
  r' 0%nat = r 0%nat /\ r' 1%nat = r 1%nat / 2 /\ z' 0%nat = z 0%nat - r 1%nat / 2.
Proof. eexists _, _, _. cbv zeta. cbn [z_newton Nat.eqb negb orb o_jac_reuse zo]. split; [reflexivity|]. repeat split; evz; field. Qed.
Lemma wnew it n i F r xd z : exists F' r' xd' z', z_newton (wM p0) (zo false it) zin zlu (S n) i F r xd z = z_newton (wM p0) (zo false it) zin zlu n (S i) F' r' xd' z' /\
  xd' 0%nat = xd 0%nat - 1 /\ z' 0%nat = 2 * xd 0%nat - xd 0%nat * xd 0%nat.
Proof.
  eexists _, _, _, _. cbn [z_newton]. replace ((i =? 0)%nat || negb (o_jac_reuse (zo false it))) with true by (cbn; now rewrite orb_true_r). split; [reflexivity|]. split; evz; field.
Qed.
(** fresh Jacobian, linear system: right *)
Theorem z_case : fst (zout (zres false 3)) 0%nat = 1.
Proof.
  unfold zres, irk_z, compute_z. set (K := s_K _). change (@n0 real) with 0. cbn [zq z_sens z_exact z_output andb orb negb o_newton_iter zo].
  destruct (znew_fresh false 3 2 0 (fun _ _ => 0) (fun _ => 0) (xdot_start (zo false 3) K) (z_start (zo false 3) K) (or_introl eq_refl)) as (F1 & r1 & x1 & z1 & E1 & _).
  destruct (znew_fresh false 3 1 1 F1 r1 x1 z1 (or_introl eq_refl)) as (F2 & r2 & x2 & z2 & E2 & _).
  destruct (znew_fresh false 3 0 2 F2 r2 x2 z2 (or_introl eq_refl)) as (F3 & r3 & x3 & z3 & E3 & _ & _ & _ & H).
  unfold zo in *. rewrite E1, E2, E3. exact H.
Qed.
Lemma z_consistent : irk_consistent zM 1 0 1 0.
Proof.
  split.
  - intros p x x' k k' u u' z z' t HX HK HU HZ. repeat split; intros r c Hr Hc; reflexivity.
  - intros P X K U Z dP dX dK dU dZ t HP HX HK HU HZ q Hq. pose proof (HX 0%nat Nat.lt_0_1) as A. pose proof (HK 0%nat Nat.lt_0_1) as B. pose proof (HZ 0%nat Nat.lt_0_1) as C.
    destruct q as [|q]; cbn -[Rmult].
    + refine (is_derive_val _ _ _ _ (minus_der _ _ _ _ _ B A) _). ring.
    + refine (is_derive_val _ _ _ _ (minus_der _ _ _ _ _ (scal_der 2 _ _ _ C) (scal_der 2 _ _ _ A)) _). ring.
Qed.
Lemma w_consistent : irk_consistent wM 1 0 1 0.
Proof.
  split.
  - intros p x x' k k' u u' z z' t HX HK HU HZ. repeat split; intros r c Hr Hc; try reflexivity. cbn -[Rmult]. rewrite (HK 0%nat Nat.lt_0_1). reflexivity.
  - intros P X K U Z dP dX dK dU dZ t HP HX HK HU HZ q Hq. pose proof (HX 0%nat Nat.lt_0_1) as A. pose proof (HK 0%nat Nat.lt_0_1) as B. pose proof (HZ 0%nat Nat.lt_0_1) as C.
    destruct q as [|q]; cbn -[Rmult].
    + refine (is_derive_val _ _ _ _ (minus_der _ _ _ _ _ B A) _). ring.
    + refine (is_derive_val _ _ _ _ (minus_der _ _ _ _ _ C (mult_der _ _ _ _ _ B B)) _). ring.
Qed.
Lemma z_linear : xdot_linear (zM p0) 1 0 1.
Proof. exists (fun _ q _ => if (q =? 0)%nat then 1 else 0). repeat split; try (intros r c Hr Hc; reflexivity). intros x k u z t [|q] Hq; cbn; ring. Qed.
Lemma z_index z : index_one (zM p0) 1 1 (n_x zin) (fun _ => 0) (n_u zin) z (n_t0 zin).
Proof.
  intros yk yz H. pose proof (H 0%nat ltac:(lia)) as A. pose proof (H 1%nat ltac:(lia)) as B. cbn in A, B. split; intros [|k] Hk; lra || lia.
Qed.
Lemma w_index k z : index_one (wM p0) 1 1 (n_x zin) k (n_u zin) z (n_t0 zin).
Proof.
  intros yk yz H. pose proof (H 0%nat ltac:(lia)) as A. pose proof (H 1%nat ltac:(lia)) as B. cbn in A, B. assert (yk 0%nat = 0) by lra. rewrite H0 in B. split; intros [|j] Hj; lra || lia.
Qed.
Lemma z_aff : z_affine (zM p0) 1 1.
Proof. intros x k u z z' t [|q] Hq; cbn; ring. Qed.
Lemma z_eqs jr it : rk_eqs (zo jr it) (irk_h (zo jr it) zin) (zM p0) (n_t0 zin) (n_x zin) (n_u zin) (s_K (forward (zM p0) (zo jr it) zin zlu zm I2 1)) (fun _ => 3).
Proof. rewrite z_fwd. split; [intros [|i] [|[|q]] Hi Hq; try (cbn in Hi, Hq; lia)|intros [|r] Hr; [|cbn in Hr; lia]]; evz; field. Qed.
Lemma w_eqs it : rk_eqs (zo false it) (irk_h (zo false it) zin) (wM p0) (n_t0 zin) (n_x zin) (n_u zin) (s_K (forward (wM p0) (zo false it) zin zlu wm I2 1)) (fun _ => 3).
Proof. rewrite w_fwd. split; [intros [|i] [|[|q]] Hi Hq; try (cbn in Hi, Hq; lia)|intros [|r] Hr; [|cbn in Hr; lia]]; evz; field. Qed.
Lemma z_begin jr it : z_start (zo jr it) (guess (zo jr it) zm) 0%nat = 2 /\ xdot_start (zo jr it) (guess (zo jr it) zm) 0%nat = 2.
Proof. split; evz; reflexivity. Qed.
Lemma w_begin it : z_start (zo false it) (guess (zo false it) wm) 0%nat = 4 /\ xdot_start (zo false it) (guess (zo false it) wm) 0%nat = 2.
Proof. split; evz; reflexivity. Qed.

(** reused Jacobian: the residual is not evaluated again, the step of the first iteration is solved for again *)
Lemma z_reuse_val : exists zn SA, zres true 3 = ZOk zn SA /\ zn 0%nat = 1 / 4.
Proof.
  unfold zres, irk_z, compute_z. rewrite z_fwd. change (@n0 real) with 0. cbn [zq z_sens z_exact z_output andb orb negb o_newton_iter zo]. destruct (z_begin true 3) as [B1 B2]. fold (zo true 3).
  destruct (znew_fresh true 3 2 0 (fun _ _ => 0) (fun _ => 0) (xdot_start (zo true 3) (guess (zo true 3) zm)) (z_start (zo true 3) (guess (zo true 3) zm)) (or_intror eq_refl)) as (F1 & r1 & x1 & z1 & E1 & -> & R0 & R1 & Z1).
  set (xd0 := xdot_start _ _) in *. set (zz0 := z_start _ _) in *.
  destruct (znew_reuse 3 1 0 xd0 zz0 r1 x1 z1) as (r2 & x2 & z2 & E2 & _ & R2 & Z2). cbv zeta in E2.
  destruct (znew_reuse 3 0 1 xd0 zz0 r2 x2 z2) as (r3 & x3 & z3 & E3 & _ & R3 & Z3). cbv zeta in E3.
  rewrite E1, E2, E3. cbn [z_newton]. eexists _, _. split; [reflexivity|]. rewrite Z3, Z2, Z1, R2, R1, B1. change ((1:R) - (2 - 1) / 2 - (2 - 1) / 2 / 2 = 1 / 4). field.
Qed.
Theorem z_reuse_refuted_top : exists MM p o inp lu m F0 zn SA x1, irk_consistent MM (o_nx o) (o_nu o) (o_nz o) (o_np o) /\ xdot_linear (MM p) (o_nx o) (o_nu o) (o_nz o) /\ z_affine (MM p) (o_nx o) (o_nz o) /\
  lu_ok (o_nx o + o_nz o) lu /\ (forall z, index_one (MM p) (o_nx o) (o_nz o) (n_x inp) (fun _ => 0) (n_u inp) z (n_t0 inp)) /\ o_jac_reuse o = true /\ o_newton_iter o = 3%nat /\
  rk_eqs o (irk_h o inp) (MM p) (n_t0 inp) (n_x inp) (n_u inp) (s_K (forward (MM p) o inp lu m F0 1)) x1 /\
  irk_z (MM p) o inp lu (mkZO true true true) m F0 (fun _ _ => 0) (fun _ => 0) (fun _ _ => 0) = ZOk zn SA /\
  ~ z_solves (MM p) (o_nx o) (o_nz o) (n_x inp) (n_u inp) (n_t0 inp) zn /\ z_solves (MM p) (o_nx o) (o_nz o) (n_x inp) (n_u inp) (n_t0 inp) (fun _ => 1).
Proof.
  destruct z_reuse_val as [zn [SA [E V]]]. exists zM, p0, (zo true 3), zin, zlu, zm, I2, zn, SA, (fun _ => 3).
  split; [exact z_consistent|]. split; [exact z_linear|]. split; [exact z_aff|]. split; [exact zlu_ok|]. split; [exact z_index|]. split; [reflexivity|]. split; [reflexivity|]. split; [apply z_eqs|]. split; [exact E|]. split.
  - intros [w Hw]. specialize (Hw 1%nat ltac:(cbn; lia)). cbn in Hw. rewrite V in Hw. lra.
  - exists (fun _ => 1). intros [|[|q]] Hq; cbn in *; lra || lia.
Qed.

(** xdot entering nonlinearly: xtdot is overwritten by the Newton step *)
Lemma w_val : exists zn SA, wres 3 = ZOk zn SA /\ zn 0%nat = 0 /\ SA 0%nat 0%nat = - (2).
Proof.
  unfold wres, irk_z, compute_z. rewrite w_fwd. change (@n0 real) with 0. cbn [zq z_sens z_exact z_output andb orb negb o_newton_iter zo]. destruct (w_begin 3) as [B1 B2]. fold (zo false 3).
  destruct (wnew 3 2 0 (fun _ _ => 0) (fun _ => 0) (xdot_start (zo false 3) (guess (zo false 3) wm)) (z_start (zo false 3) (guess (zo false 3) wm))) as (F1 & r1 & x1 & z1 & E1 & X1 & Z1).
  destruct (wnew 3 1 1 F1 r1 x1 z1) as (F2 & r2 & x2 & z2 & E2 & X2 & Z2). destruct (wnew 3 0 2 F2 r2 x2 z2) as (F3 & r3 & x3 & z3 & E3 & X3 & Z3).
  rewrite E1, E2, E3. cbn [z_newton]. eexists _, _. split; [reflexivity|]. assert (V3 : x3 0%nat = - (1)) by (rewrite X3, X2, X1, B2; change ((2:R) - 1 - 1 - 1 = - (1)); ring). split; [rewrite Z3, X2, X1, B2; change (2 * (2 - 1 - 1) - (2 - 1 - 1) * (2 - 1 - 1) = 0); ring|].
  clear - V3. cbv -[Rplus Rmult Ropp Rminus Rdiv Rinv IZR]. rewrite V3. field.
Qed.
Theorem z_xdot_refuted_top : exists MM p o inp lu m F0 zn SA x1, irk_consistent MM (o_nx o) (o_nu o) (o_nz o) (o_np o) /\ lu_ok (o_nx o + o_nz o) lu /\
  (forall k z, index_one (MM p) (o_nx o) (o_nz o) (n_x inp) k (n_u inp) z (n_t0 inp)) /\ o_jac_reuse o = false /\ o_newton_iter o = 3%nat /\
  rk_eqs o (irk_h o inp) (MM p) (n_t0 inp) (n_x inp) (n_u inp) (s_K (forward (MM p) o inp lu m F0 1)) x1 /\
  irk_z (MM p) o inp lu (mkZO true true true) m F0 (fun _ _ => 0) (fun _ => 0) (fun _ _ => 0) = ZOk zn SA /\
  ~ z_solves (MM p) (o_nx o) (o_nz o) (n_x inp) (n_u inp) (n_t0 inp) zn /\
  exists X Kc Z : R -> vecR, is_derive (fun e => X e 0%nat) 0 1 /\ agree 1 (X 0) (n_x inp) /\
    (forall e q, (q < 2)%nat -> m_f (MM p) (X e) (Kc e) (n_u inp) (Z e) (n_t0 inp) q = 0) /\ is_derive (fun e => Z e 0%nat) 0 2 /\ SA 0%nat 0%nat = - (2) /\ o_nx o = 1%nat /\ o_nz o = 1%nat.
Proof.
  destruct w_val as [zn [SA [E [V W]]]]. exists wM, p0, (zo false 3), zin, zlu, wm, I2, zn, SA, (fun _ => 3).
  split; [exact w_consistent|]. split; [exact zlu_ok|]. split; [exact w_index|]. split; [reflexivity|]. split; [reflexivity|]. split; [apply w_eqs|]. split; [exact E|]. split.
  - intros [w Hw]. pose proof (Hw 0%nat ltac:(cbn; lia)) as A. pose proof (Hw 1%nat ltac:(cbn; lia)) as B. cbn in A, B. rewrite V in B. assert (w 0%nat = 1) by lra. rewrite H in B. lra.
  - exists (fun e _ => 1 + e), (fun e _ => 1 + e), (fun e _ => (1 + e) * (1 + e)). split; [auto_derive; [exact I|ring]|]. split; [intros r Hr; cbn; lra|]. split; [intros e [|[|q]] Hq; cbn; lra || lia|].
    split; [auto_derive; [exact I|ring]|]. split; [exact W|]. split; reflexivity.
Qed.
(** interpolation: z and its derivative at the only stage *)
Theorem z_interp_case : exists zn SA, irk_z (zM p0) (zo false 1) zin zlu (mkZO true true false) zm I2 (fun _ _ => 0) (fun _ => 0) (fun _ _ => 0) = ZOk zn SA /\ zn 0%nat = 2 /\ SA 0%nat 0%nat = 2.
Proof. eexists _, _. split; [reflexivity|]. split; evz; field. Qed.
(** exact: z = x and dz/dx = 1 *)
Theorem z_exact_case : exists zn SA, zres false 1 = ZOk zn SA /\ zn 0%nat = 1 /\ SA 0%nat 0%nat = 1.
Proof. eexists _, _. split; [reflexivity|]. split; evz; field. Qed.
(** the nodes of the explicit tableau with four stages are not distinct: constant stage values give NaN (doubles) *)
Definition erk4_c : nat -> num dbl := fun i => match explicit_tableau (A := dbl) 4 with Some (_, _, c) => nth i c (n0 (a := dbl)) | None => n0 (a := dbl) end.
Definition erk4 : irk_opts dbl := mkIO (A := dbl) 1 0 1 0 4 1 1 (fun _ _ => n0 (a := dbl)) (fun _ => n0 (a := dbl)) erk4_c true (n0 (a := dbl)) true false false false.
Theorem z_erk4_refuted_top : exists (o : irk_opts dbl) (A : list (list (num dbl))) b c, explicit_tableau (A := dbl) (o_ns o) = Some (A, b, c) /\ (forall i, (i < o_ns o)%nat -> o_c o i = nth i c (n0 (a := dbl))) /\
  isnan (z_start (A := dbl) o (fun _ => n1 (a := dbl)) 0%nat) = true.
Proof. exists erk4. eexists _, _, _. split; [reflexivity|]. split; [reflexivity|]. vm_compute. reflexivity. Qed.
