(** Concrete dense QPs for the DAQP interface. *)
From Coq Require Import ZArith List Bool Lia Reals Lra Arith FunctionalExtensionality.
From Verif Require Import Arr Arith Vec LinModel RSum DenseModel QpoModel DaqpModel DenseSpec DaqpSpec DenseProofs StackProofs QpoProofs QpoTop QpoKkt DaqpProofs DaqpFill DaqpUpd DaqpKkt DaqpHot DaqpTop QpoCases.
Import ListNotations.
Open Scope R_scope.

Ltac de := cbv -[Rplus Rmult Rminus Ropp Rinv Rltb Rleb IZR Rle Rlt Rdiv sqrt Rmax].
(** linear algebra for diagonal matrices *)
Definition potrf_d (H : matR) : matR := fun r c => if (r =? c)%nat then sqrt (H r r) else 0.
Definition trsm_d (L B : matR) : matR := fun r c => B r c / L r r.
Definition trsv_d (L : matR) (b : vecR) : vecR := fun r => b r / L r r.
Lemma tri_diag n m (H : matR) : (forall r, (r < n)%nat -> 0 < H r r) -> (forall r c, (r < n)%nat -> (c < n)%nat -> r <> c -> H r c = 0) -> tri_ok n m H (potrf_d H) trsm_d trsv_d trsv_d.
Proof.
  intros P Z0. assert (Q : forall r, (r < n)%nat -> 0 < sqrt (H r r)) by (intros r Hr; apply sqrt_lt_R0, P, Hr).
  constructor; unfold trsm_d, trsv_d.
  - intros r c Hr Hc. rewrite (sum_one _ r) by (first [exact Hr | intros k Hk N; unfold potrf_d; destruct (Nat.eqb_spec r k); [congruence|lra]]). unfold potrf_d. rewrite Nat.eqb_refl. destruct (Nat.eqb_spec c r) as [->|N].
    + apply sqrt_sqrt, Rlt_le, P, Hr.
    + rewrite (Z0 r c) by auto. lra.
  - intros B r c Hr Hc. rewrite (sum_one _ r) by (first [exact Hr | intros k Hk N; unfold potrf_d; destruct (Nat.eqb_spec r k); [congruence|lra]]). unfold potrf_d. rewrite Nat.eqb_refl. specialize (Q r Hr). field. lra.
  - intros b r Hr. rewrite (sum_one _ r) by (first [exact Hr | intros k Hk N; unfold potrf_d; destruct (Nat.eqb_spec r k); [congruence|lra]]). unfold potrf_d. rewrite Nat.eqb_refl. specialize (Q r Hr). field. lra.
  - intros b r Hr. rewrite (sum_one _ r) by (first [exact Hr | intros k Hk N; unfold potrf_d; destruct (Nat.eqb_spec k r); [congruence|lra]]). unfold potrf_d. rewrite Nat.eqb_refl. specialize (Q r Hr). field. lra.
Qed.
Definition m0 : rdmem := mkDm (A := real) (fun _ => 7) (fun _ => 7) (fun _ => O) (fun _ => 7) (fun _ => 7) (fun _ => 7) (fun _ => 7) (fun _ => 7) (fun _ => 7) (fun _ _ => 7) (fun _ _ => 7) false
  (fun _ _ => 7) (fun _ => 7) (fun _ => 7) (fun _ => 7) (fun _ => 7) (fun _ => sn0) (fun _ => 7) (fun _ => 7) (fun _ => 7) (fun _ => 7).
Definition upd_d := daqp_update (A := real) 1000 (/ 100000000000) sqrt potrf_d trsm_d trsv_d.
Lemma sq a b : 0 <= b -> a = b * b -> sqrt a = b. Proof. intros H ->. apply sqrt_square, H. Qed.

(** * A violated softened bound, a general constraint and an equality:
      minimise 2 x0^2 + x1^2/2 - 5 x1 + slacks, x0 >= 0 softened, 6 x0 + 4 x1 = -2 *)
Definition dP := mkDd 2 1 1 1 1.
Definition qP : rdqp := mkDq (A := real) (fun r c => if (r =? c)%nat then (if (r =? 0)%nat then 4 else 1) else 0) (lr [0; -5; 1; 1]) (lr [1; 1]) (fun _ c => lr [6; 4] c) (fun _ => -2) (fun r _ => lr [0; 1] r)
  (lr [0; -100; -10; -100; 0; 0]) (fun _ => 0) (fun _ => 1) (fun _ => O) (fun k => nth k [0%Z; (-1)%Z] (-1)%Z).
Definition uP : vecR := lr [-2; -4].
Definition wsP : list (nat * R) := [(2%nat, 5); (0%nat, -1)].
Lemma P_rows : one_row_each dP qP.
Proof.
  unfold one_row_each, drows. cbn. split; [|split].
  - intros k Hk. destruct k as [|[|k]]; [| |lia]; cbn; lia.
  - intros k l Hk Hl. destruct k as [|[|k]]; [| |lia]; (destruct l as [|[|l]]; [| |lia]); cbn; lia.
  - intros i Hi. exists O. cbn. lia.
Qed.
Lemma P_idx i : (i < dnb dP)%nat -> (dq_idxb qP i < dnv dP)%nat. Proof. intros _. cbn. lia. Qed.
Lemma P_soft : soft_able dP qP.
Proof.
  constructor; cbn [dP dns dnv]; intros e He.
  - destruct e as [|[|e]]; [| |lia]; unfold qP, lr; cbn; lra.
  - destruct e as [|[|e]]; [| |lia]; unfold qP, lr; cbn; lra.
  - cbn. lra.
Qed.
Lemma P_tri : tri_ok (dnv dP) (mrows dP) (dsym qP) (L potrf_d qP) trsm_d trsv_d trsv_d.
Proof.
  assert (E : dsym qP = fun r c => dq_H qP r c).
  { unfold dsym. extensionality r. extensionality c. destruct (c <=? r)%nat; [reflexivity|]. cbn. rewrite Nat.eqb_sym. destruct (Nat.eqb_spec r c) as [->|]; reflexivity. }
  rewrite E. apply tri_diag.
  - intros r _. cbn. rewrite Nat.eqb_refl. destruct (r =? 0)%nat; lra.
  - intros r c _ _ N. cbn. destruct (Nat.eqb_spec r c); [contradiction|reflexivity].
Qed.
Notation FP := (F potrf_d trsm_d dP qP m0).
Lemma s4 : sqrt 4 = 2. Proof. apply sq; lra. Qed.
Lemma P_F r j : (r < 2)%nat -> (j < 3)%nat -> FP r j = nth r (nth j [[/2; 0]; [0; 1]; [3; 4]] []) 0.
Proof.
  intros Hr Hj. destruct r as [|[|r]]; [| |lia]; (destruct j as [|[|[|j]]]; [| | |lia]); unfold F, trsm_d, L, potrf_d; de; rewrite ?s4, ?sqrt_1; field.
Qed.
Lemma P_norm j : (j < 3)%nat -> sum 2 (fun r => FP r j * FP r j) = nth j [/4; 1; 25] 0.
Proof. intros H. destruct j as [|[|[|j]]]; [| | |lia]; cbn [sum]; rewrite !P_F by lia; cbn; lra. Qed.
Lemma P_big j : (j < mrows dP)%nat -> / 100000000000 <= sum (dnv dP) (fun r => FP r j * FP r j).
Proof. intros H. cbn [dP dnv]. change (j < 3)%nat in H. rewrite P_norm by exact H. destruct j as [|[|[|j]]]; [| | |lia]; cbn; lra. Qed.
Lemma P_sc j : (j < 3)%nat -> s_ potrf_d trsm_d dP qP m0 j = nth j [2; 1; /5] 0.
Proof.
  intros H. unfold s_. cbn [dP dnv]. rewrite P_norm by exact H. destruct j as [|[|[|j]]]; [| | |lia]; cbn.
  - rewrite (sq (/4) (/2)) by lra. field.
  - rewrite sqrt_1. field.
  - rewrite (sq 25 5) by lra. field.
Qed.

Lemma P_upd check activate warm : (0 <= check)%Z -> (0 <= activate)%Z -> exists m, upd_d check activate warm dP qP m0 = inr m /\ facts 1000 potrf_d trsm_d trsv_d dP qP m0 m.
Proof.
  intros Hc Ha. apply (update_facts 1000 (/ 100000000000) potrf_d trsm_d trsv_d check activate warm dP qP m0).
  - exact P_rows.
  - exact P_soft.
  - exact P_big.
  - unfold upd. cbn. destruct (warm =? 2)%Z; reflexivity.
  - exact Hc.
  - exact Ha.
Qed.
Lemma unmasked inf d (q : rdqp) k : dq_mask q k = 1 -> dq_mask q (drows d + k)%nat = 1 -> lo0 inf q k = dq_d q k /\ up0 inf d q k = - dq_d q (drows d + k)%nat.
Proof. intros E1 E2. unfold lo0, up0. destruct (is0_spec (dq_mask q k)); [lra|]. destruct (is0_spec (dq_mask q (drows d + k)%nat)); [lra|]. auto. Qed.
Lemma P_v r : (r < 2)%nat -> trsv_d (L potrf_d qP) (dq_g qP) r = lr [0; -5] r.
Proof. intros H. destruct r as [|[|r]]; [| |lia]; unfold trsv_d, L, potrf_d; de; rewrite ?s4, ?sqrt_1; field. Qed.
Lemma P_M m : facts 1000 potrf_d trsm_d trsv_d dP qP m0 m -> forall r j, (r < 2)%nat -> (j < 3)%nat -> w_M m r j = nth r (nth j [[1; 0]; [0; 1]; [3/5; 4/5]] []) 0.
Proof.
  intros Hf r j Hr Hj. rewrite (fa_M _ _ _ _ _ _ _ _ Hf r j Hr Hj), P_F, P_sc by assumption. destruct r as [|[|r]]; [| |lia]; (destruct j as [|[|[|j]]]; [| | |lia]); cbn; lra.
Qed.
Lemma P_ldp m : facts 1000 potrf_d trsm_d trsv_d dP qP m0 m -> ldp_kkt (dnv dP) (mrows dP) m uP (ws_lam wsP).
Proof.
  intros Hf. pose proof (P_M m Hf) as HM. destruct (fa_soft _ _ _ _ _ _ _ _ Hf 0%nat ltac:(cbn; lia) eq_refl) as (S1 & S2 & S3 & S4 & S5 & S6 & S7 & S8). destruct (fa_hard _ _ _ _ _ _ _ _ Hf 1%nat ltac:(cbn; lia) eq_refl) as (H1 & H2 & H3 & H4). destruct (fa_eq _ _ _ _ _ _ _ _ Hf 0%nat ltac:(cbn; lia)) as (E1 & E2 & E3). change (drows dP + 0)%nat with 2%nat in *.
  pose proof (fa_dup _ _ _ _ _ _ _ _ Hf) as Hu. pose proof (fa_dlo _ _ _ _ _ _ _ _ Hf) as Hl. change (mrows dP) with 3%nat in *. change (dnv dP) with 2%nat in *.
  assert (V : forall r, (r < 2)%nat -> w_v m r = lr [0; -5] r) by (intros r Hr; rewrite (fa_v _ _ _ _ _ _ _ _ Hf); apply P_v, Hr).
  rewrite P_sc in S5, S6, S7, S8 by lia.
  rewrite (proj1 (unmasked 1000 dP qP 0 eq_refl eq_refl)) in S3. rewrite (proj2 (unmasked 1000 dP qP 0 eq_refl eq_refl)) in S4. rewrite (proj1 (unmasked 1000 dP qP 1 eq_refl eq_refl)) in H3. rewrite (proj2 (unmasked 1000 dP qP 1 eq_refl eq_refl)) in H4.
  unfold ds_l, ds_u, Dl, Du, ds_l, ds_u, sl in *. cbn in S3, S4, S5, S6, S7, S8, H3, H4, E3. unfold lr in S3, S4, S5, S6, S7, S8, H3, H4. cbn in S3, S4, S5, S6, S7, S8, H3, H4.
  constructor.
  - intros r Hr. cbn [sum]. rewrite !HM by lia. destruct r as [|[|r]]; [| |lia]; cbn; unfold uP, lr; cbn; lra.
  - intros j Hj A1 A2. destruct j as [|[|[|j]]]; [congruence|congruence|congruence|lia].
  - intros j Hj A1 A2. destruct j as [|[|[|j]]]; [congruence|congruence| |lia]. rewrite Hu by lia. rewrite P_sc by lia. cbn [sum]. rewrite !HM, !V, E3 by lia. cbn. unfold uP, lr. cbn. lra.
  - intros j Hj A1 A2. destruct j as [|[|[|j]]]; [congruence| |congruence|lia]. rewrite Hu, Hl by lia. rewrite P_sc by lia. cbn [sum]. rewrite !HM, !V, H3, H4 by lia. cbn. unfold uP, lr. cbn. lra.
  - intros j Hj A1 A2. destruct j as [|[|[|j]]]; [|congruence|congruence|lia]. rewrite Hu, Hl by lia. rewrite P_sc by lia. cbn [sum]. rewrite !HM, !V, S3, S4, S5, S6, S7, S8 by lia. cbn. unfold uP, lr. cbn. rewrite (Rmax_left 0 (- (1) - _)) by lra. rewrite (Rmax_right 0 (- - (1) - _)) by lra. lra.
Qed.
Definition outP m := daqp_out (A := real) trsv_d dP qP m uP wsP s0.
Lemma P_x m r : facts 1000 potrf_d trsm_d trsv_d dP qP m0 m -> (r < 2)%nat -> ldp_to_qp (A := real) trsv_d m uP r = lr [-1; 1] r.
Proof.
  intros Hf Hr. unfold ldp_to_qp. rewrite (fa_L _ _ _ _ _ _ _ _ Hf). unfold trsv_d at 1. rewrite (fa_v _ _ _ _ _ _ _ _ Hf), P_v by exact Hr. destruct r as [|[|r]]; [| |lia]; unfold L, potrf_d, uP, lr; cbn; rewrite ?s4, ?sqrt_1; field.
Qed.

Lemma P_able : daqp_able (/ 100000000000) potrf_d trsm_d trsv_d trsv_d dP qP.
Proof.
  constructor; [exact P_idx|exact P_rows|exact P_soft|exact P_tri|].
  intros j y Hj Hy. change (dnv dP) with 2%nat in *. change (mrows dP) with 3%nat in Hj. pose proof (Hy 0%nat ltac:(lia)) as Y0. pose proof (Hy 1%nat ltac:(lia)) as Y1. clear Hy. cbn [sum] in *.
  unfold potrf_d in Y0, Y1. cbn in Y0, Y1. rewrite ?s4, ?sqrt_1 in Y0. rewrite ?s4, ?sqrt_1 in Y1.
  destruct j as [|[|[|j]]]; [| | |lia]; unfold acoef, dcoef, lr in Y0, Y1; cbn in Y0, Y1.
  - assert (y 0%nat = /2) by lra. assert (y 1%nat = 0) by lra. rewrite H, H0. lra.
  - assert (y 0%nat = 0) by lra. assert (y 1%nat = 1) by lra. rewrite H, H0. lra.
  - assert (y 0%nat = 3) by lra. assert (y 1%nat = 4) by lra. rewrite H, H0. lra.
Qed.
Lemma P_ws : ws_ok (mrows dP) wsP /\ forall j, (drows dP <= j < mrows dP)%nat -> In j (map fst wsP).
Proof.
  split; [split|].
  - cbn. repeat constructor; cbn; intuition lia.
  - intros e [<-|[<-|[]]]; cbn; lia.
  - intros j Hj. change (drows dP) with 2%nat in Hj. change (mrows dP) with 3%nat in Hj. cbn. lia.
Qed.
Lemma P_inf x : inf_free 1000 dP qP x.
Proof. intros k Hk. cbv zeta. split; intros E; exfalso; cbn in E; lra. Qed.
Lemma P_all : daqp_able (/ 100000000000) potrf_d trsm_d trsv_d trsv_d dP qP /\
  exists m, upd_d 0 0 0 dP qP m0 = inr m /\ ws_ok (mrows dP) wsP /\ (forall j, (drows dP <= j < mrows dP)%nat -> In j (map fst wsP)) /\
    ldp_kkt (dnv dP) (mrows dP) m uP (ws_lam wsP) /\ inf_free 1000 dP qP (ldp_to_qp (A := real) trsv_d m uP) /\
    let s := outP m in ds_v s 0%nat = -1 /\ ds_v s 1%nat = 1 /\ ds_v s 2%nat = 1 /\ ds_v s 3%nat = 0 /\ ds_pi s 0%nat = 1 /\ ds_lam s 0%nat = 2 /\ ds_lam s 4%nat = 0 /\ ds_lam s 5%nat = 1.
Proof.
  split; [exact P_able|]. destruct (P_upd 0 0 0 ltac:(lia) ltac:(lia)) as (m & E & Hf). exists m. destruct P_ws as [W1 W2]. pose proof (P_ldp m Hf) as K. repeat (split; [assumption || apply P_inf|]).
  destruct (slacks 1000 (/ 100000000000) potrf_d trsm_d trsv_d trsv_d dP qP m0 m uP wsP s0 P_idx P_rows P_soft ltac:(lra) P_big Hf W1 0%nat ltac:(cbn; lia) eq_refl) as (V1 & V2 & L1 & L2).
  destruct (lam_rows 1000 potrf_d trsm_d trsv_d dP qP m0 m wsP s0 Hf W1 0%nat ltac:(cbn; lia)) as (R1 & R2).
  pose proof (pi_eq 1000 potrf_d trsm_d trsv_d dP qP m0 m wsP s0 Hf W1 W2 0%nat ltac:(cbn; lia)) as PI.
  assert (LS := lam_s trsv_d dP qP m uP wsP s0 0 ltac:(cbn; lia)). rewrite R1 in LS. assert (PS : ds_pi (daqp_out (A := real) trsv_d dP qP m uP wsP s0) 0%nat = s_ potrf_d trsm_d dP qP m0 2 * ws_lam wsP 2) by (rewrite s_eq; exact PI). clear R1 R2 PI.
  assert (VX0 := v_x trsv_d dP qP m uP wsP s0 0 ltac:(cbn; lia)). assert (VX1 := v_x trsv_d dP qP m uP wsP s0 1 ltac:(cbn; lia)). unfold outP. remember (daqp_out (A := real) trsv_d dP qP m uP wsP s0) as S eqn:ES. clear ES.
  assert (X0 := P_x m 0 Hf ltac:(lia)). assert (X1 := P_x m 1 Hf ltac:(lia)).
  assert (DL : dlin dP qP (ldp_to_qp (A := real) trsv_d m uP) 0 = -1). { unfold dlin, dcoef. cbn [dP dnv dnb sum Nat.ltb Nat.leb]. rewrite X0, X1. cbn. unfold lr. cbn. lra. }
  unfold sl_val, su_val, lo0, up0 in V1, V2, L1, L2. rewrite DL in V1, V2, L1, L2.
  rewrite (proj1 (unmasked 1000 dP qP 0 eq_refl eq_refl) : (if is0 (dq_mask qP 0) then - (1000) else dq_d qP 0) = dq_d qP 0%nat) in V1, L1.
  rewrite (proj2 (unmasked 1000 dP qP 0 eq_refl eq_refl) : (if is0 (dq_mask qP (drows dP + 0)%nat) then 1000 else - dq_d qP (drows dP + 0)%nat) = - dq_d qP (drows dP + 0)%nat) in V2, L2.
  rewrite P_sc in L1, L2, LS, PS by (cbn; lia). unfold ds_l, ds_u, sl in V1, V2, L1, L2. cbn in V1, V2, L1, L2, LS, PS. unfold lr in V1, V2, L1, L2. cbn in V1, V2, L1, L2.
  cbv zeta. change (dq_rev qP 0) with 0%Z in *.
  rewrite Rmax_right in V1 by lra. rewrite Rmax_left in V2 by lra. rewrite (Rmax_right 0 (0 - -1)), Rmax_right in L1 by lra. rewrite (Rmax_left 0 (-1 - _)), Rmax_left in L2 by lra. rewrite Rmax_right in LS by lra.
  rewrite VX0, VX1, X0, X1, V1, V2, LS, PS, L1, L2. unfold lr. cbn. repeat split; lra.
Qed.
