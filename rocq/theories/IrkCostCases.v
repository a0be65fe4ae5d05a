(** Cost propagation: the implicit midpoint rule on xdot = u, one step of length one; a weight that is not diagonal; parameter sensitivities alone. *)
From Coq Require Import ZArith List Bool Arith Lia Reals Lra.
From Coquelicot Require Import Coquelicot.
From Verif Require Import Arith Vec LinModel CollModel CollTop RSum BghAdjProofs IrkModel IrkSpec IrkProofs IrkSens IrkFwd IrkTop IrkCases IrkCostModel IrkCostSpec IrkCostProofs IrkCostTop.
Import ListNotations.
Open Scope R_scope.

Definition kM (p : vecR) : irk_model real := mkIM (A := real)
  (fun x k u z t q => k 0%nat - u 0%nat) (fun x k u z t q c => 0) (fun x k u z t q c => 1) (fun x k u z t q c => -1) (fun x k u z t q c => 0)
  (fun x k u z t q c => 0) (fun x k u z l t a b => 0).
Definition ko (f fp : bool) : irk_opts real := mkIO (A := real) 1 1 0 0 1 1 1 (fun _ _ => / 2) (fun _ => 1) (fun _ => / 2) false 0 f fp false false.
Definition kin (x u : R) : irk_in real := mkII (A := real) (fun _ => x) (fun _ => u) 1 0 (fun r c => if (r =? c)%nat then 1 else 0) (fun _ => 0) true.
Definition km : irk_mem real := mkIMem (A := real) (fun _ => 0) (fun _ => 0).
Definition kF0 : matR := fun _ _ => 0.
Definition kpot (n : nat) (W : matR) : matR := W.
(** y = (x, u), weights 1 and 4 *)
Definition kF : nls_fun real := mkNF (A := real) (fun x u t q => if (q =? 0)%nat then x 0%nat else u 0%nat)
  (fun x u t c q => if ((c =? 1) && (q =? 0) || (c =? 0) && (q =? 1))%nat then 1 else 0).
Definition kw : weight real := mkW (A := real) true (fun _ _ => 0) (fun q => if (q =? 0)%nat then 1 else 2).
Definition kW : matR := fun a b => if (a =? b)%nat then (if (a =? 0)%nat then 1 else 4) else 0.
Definition krun f fp st (x u : R) c := cost_run (kM (fun _ => 0)) (ko f fp) (kin x u) exlu km kF0 2 2 kpot st c.
Lemma k_h f fp x u : irk_h (ko f fp) (kin x u) = 1.
Proof. unfold irk_h. cbn. lra. Qed.
Lemma kM_consistent : irk_consistent kM 1 1 0 0.
Proof.
  split.
  - intros. repeat split; intros r c Hr Hc; reflexivity.
  - intros P X K U Z dP dX dK dU dZ t HP HX HK HU HZ q Hq.
    apply (is_derive_ext (fun e => K e 0%nat + (-1) * U e 0%nat)). { intros e. cbn. ring. }
    refine (is_derive_val _ _ _ _ (plus_der _ _ _ _ _ (HK 0%nat ltac:(lia)) (scal_der (-1) _ _ _ (HU 0%nat ltac:(lia)))) _). cbn. ring.
Qed.
Lemma exlu1 : lu_ok 1 exlu.
Proof.
  intros F b HF r Hr. replace r with 0%nat by lia. cbn. unfold exlu.
  assert (N : F 0%nat 0%nat <> 0). { intros E. specialize (HF (fun _ => 1)). assert (1 = 0) as C; [|lra]. apply (HF (fun r' Hr' => ltac:(replace r' with 0%nat by lia; cbn; rewrite E; ring)) 0%nat ltac:(lia)). }
  field. exact N.
Qed.
Lemma k_reg f fp x u : irk_regular (ko f fp) (kin x u) exlu km kF0 (kM (fun _ => 0)).
Proof.
  intros n Hn y Hy. intros k Hk. cbn in Hk. replace k with 0%nat by lia. specialize (Hy 0%nat 0%nat ltac:(cbn; lia) ltac:(cbn; lia)). unfold rk_lin, rk_arg, rk_stage in Hy. cbn in Hy. lra.
Qed.
Lemma k_seed f fp x u : irk_seed_ok (ko f fp) (kin x u).
Proof. intros _ r c Hr Hc. reflexivity. Qed.
Lemma k_val f fp x u n : (n < 1)%nat -> s_K (forward (kM (fun _ => 0)) (ko f fp) (kin x u) exlu km kF0 (S n)) 0%nat = u.
Proof. intros Hn. replace n with 0%nat by lia. unfold forward. cbn [loop]. destruct f, fp; ev0; field. Qed.
(** from (x, u) in the direction d *)
Definition kX (x u : R) (d : vecR) (n : nat) (e : R) : vecR := fun _ => if (n =? 0)%nat then x + e * d 0%nat else x + e * d 0%nat + (u + e * d 1%nat).
Definition kU (u : R) (d : vecR) (e : R) : vecR := fun _ => u + e * d 1%nat.
Lemma lin_der (a b x : R) : is_derive (fun e => a + e * b) x b.
Proof. auto_derive; [exact I|ring]. Qed.
Lemma k_moves f fp x u d : moves kM (fun _ => 0) (ko f fp) (kin x u) exlu km kF0 d (kU u d) (kX x u d) (fun _ => kU u d).
Proof.
  split.
  - exact kM_consistent.
  - exact exlu1.
  - apply k_reg.
  - apply k_seed.
  - split; [|split; [reflexivity|split; [|split]]].
    + unfold irk_curve. apply filter_forall. intros e n Hn. cbn in Hn. replace n with 0%nat by lia. rewrite k_h. split.
      * intros i q Hi Hq. unfold rk_arg. cbn. unfold kU. ring.
      * intros r Hr. unfold rk_next, kX, kU. cbn. ring.
    + intros c Hc. unfold kU. cbn. ring.
    + intros c Hc. unfold kX. cbn. ring.
    + intros n Hn k Hk. cbn in Hn, Hk. replace k with 0%nat by lia. rewrite k_val by exact Hn. unfold kU. ring.
  - exists (fun _ _ => d 1%nat). intros n k _ _. apply lin_der.
  - intros r Hr. cbn in Hr. replace r with 0%nat by lia. refine (is_derive_val _ _ _ _ (lin_der x (d 0%nat) 0) _). cbn. ring.
  - intros c Hc. cbn in Hc. replace c with 0%nat by lia. apply lin_der.
Qed.
Lemma kF_ok : jac_ok (y_fun kF) (y_jac kF) 1 1 2.
Proof.
  split.
  - intros x x' u u' t q Hx Hu Hq. unfold kF. cbn [y_fun]. destruct (q =? 0)%nat; [apply Hx|apply Hu]; lia.
  - reflexivity.
  - intros X U dX dU t HX HU q Hq. unfold kF. cbn [y_fun y_jac].
    destruct q as [|[|q]]; [| |lia]; cbn [Nat.eqb].
    + refine (is_derive_val _ _ _ _ (HX 0%nat ltac:(lia)) _). cbn. ring.
    + refine (is_derive_val _ _ _ _ (HU 0%nat ltac:(lia)) _). cbn. ring.
Qed.
Lemma kW_ok : weight_ok 2 kW kw.
Proof. intros a b Ha Hb. destruct a as [|[|a]], b as [|[|b]]; try lia; unfold kW, kw; cbn; ring. Qed.
Ltac evk := cbv -[Rplus Rmult Ropp Rminus Rdiv Rinv IZR Rlt_dec sqrt].
Ltac evk0 := evk; destruct (Rlt_dec 0 0) as [L00|_]; [exfalso; lra|].
(** value, gradient (u, x), Hessian *)
Theorem k_vals : forall st, exists k, krun true false st 1 1 (Nls kF (fun _ => 0) kw) = Some k /\ k_fun k = 25 / 4 /\ k_grad k 0%nat = 19 / 2 /\ k_grad k 1%nat = 3 /\
  k_hess k 0%nat 0%nat = 17 / 4 /\ k_hess k 1%nat 0%nat = 1 / 2 /\ k_hess k 0%nat 1%nat = 1 / 2 /\ k_hess k 1%nat 1%nat = 1.
Proof. intros st. eexists. split; [reflexivity|]. repeat split; evk0; field. Qed.
(** the same cost written as psi(y) = (y0^2 + 4 y1^2) / 2 *)
Definition kC : conl_fun real := mkCF (A := real) (fun x u t => (x 0%nat * x 0%nat + 4 * (u 0%nat * u 0%nat)) / 2) (fun x u t q => if (q =? 0)%nat then x 0%nat else 4 * u 0%nat) (y_jac kF) (fun _ _ _ => kW) (fun _ _ _ => true).
Definition kpsi (v : vecR) (t : R) : R := (v 0%nat * v 0%nat + 4 * (v 1%nat * v 1%nat)) / 2.
Lemma kC_ok : conl_ok kC (y_fun kF) kpsi 1 1 2.
Proof.
  split.
  - exact kF_ok.
  - reflexivity.
  - intros v v' t H. unfold kpsi. rewrite !H by lia. reflexivity.
  - intros x x' u u' t q Hx Hu Hq. unfold kC. cbn [l_grad]. destruct (q =? 0)%nat; [apply Hx; lia|rewrite Hu by lia; reflexivity].
  - intros Y dY x u t H HY. unfold kpsi. apply (is_derive_ext (fun e => / 2 * (Y e 0%nat * Y e 0%nat + 4 * (Y e 1%nat * Y e 1%nat)))). { intros e. apply Rmult_comm. }
    pose proof (HY 0%nat ltac:(lia)) as A. pose proof (HY 1%nat ltac:(lia)) as B.
    refine (is_derive_val _ _ _ _ (scal_der (/ 2) _ _ _ (plus_der _ _ _ _ _ (mul_der _ _ 0 _ _ A A) (scal_der 4 _ _ _ (mul_der _ _ 0 _ _ B B)))) _).
    rewrite (H 0%nat), (H 1%nat) by lia. cbn. field.
  - intros x u t _ a b Ha Hb. unfold kC, kW. cbn [l_hess]. split.
    + rewrite Nat.eqb_refl. destruct (a =? 0)%nat; lra.
    + intros N. rewrite (proj2 (Nat.eqb_neq a b) N). reflexivity.
Qed.
Lemma sqrt4 : sqrt 4 = 2.
Proof. replace 4 with (2 * 2) by ring. apply sqrt_square. lra. Qed.
Theorem kC_vals : forall st, exists k, krun true false st 1 1 (Conl kC) = Some k /\ k_fun k = 25 / 4 /\ k_grad k 0%nat = 19 / 2 /\ k_grad k 1%nat = 3 /\
  k_hess k 0%nat 0%nat = 17 / 4 /\ k_hess k 1%nat 0%nat = 1 / 2 /\ k_hess k 0%nat 1%nat = 0 /\ k_hess k 1%nat 1%nat = 1.
Proof. intros st. eexists. split; [reflexivity|]. repeat split; evk0; rewrite ?sqrt4, ?sqrt_1; field. Qed.

(** y = (x, 2 x) with the weight [1 1; 1 2], whose factor is [1 0; 1 1] *)
Definition rF : nls_fun real := mkNF (A := real) (fun x u t q => if (q =? 0)%nat then x 0%nat else 2 * x 0%nat) (fun x u t c q => if (c =? 0)%nat then 0 else if (q =? 0)%nat then 1 else 2).
Definition rw : weight real := mkW (A := real) false (fun a b => if (b <=? a)%nat then 1 else 0) (fun _ => 0).
Definition rW : matR := fun a b => if ((a =? 1) && (b =? 1))%nat then 2 else 1.
Lemma rF_ok : jac_ok (y_fun rF) (y_jac rF) 1 1 2.
Proof.
  split.
  - intros x x' u u' t q Hx Hu Hq. unfold rF. cbn [y_fun]. rewrite Hx by lia. reflexivity.
  - reflexivity.
  - intros X U dX dU t HX HU q Hq. unfold rF. cbn [y_fun y_jac].
    destruct q as [|[|q]]; [| |lia]; cbn [Nat.eqb].
    + refine (is_derive_val _ _ _ _ (HX 0%nat ltac:(lia)) _). cbn. ring.
    + refine (is_derive_val _ _ _ _ (scal_der 2 _ _ _ (HX 0%nat ltac:(lia))) _). cbn. ring.
Qed.
Lemma rW_ok : weight_ok 2 rW rw.
Proof. intros a b Ha Hb. destruct a as [|[|a]], b as [|[|b]]; try lia; unfold rW, rw; cbn; ring. Qed.
Lemma r_vals st : exists k, krun true false st 1 0 (Nls rF (fun _ => 0) rw) = Some k /\ k_fun k = 10 /\ k_grad k 0%nat = 9 /\ k_grad k 1%nat = 18.
Proof. eexists. split; [reflexivity|]. repeat split; evk0; field. Qed.
Definition rd : vecR := fun c => if (c =? 0)%nat then 1 else 0.
Lemma r_along e : quad_along (ko true false) (kin 1 0) (nls_cost 2 rF (fun _ => 0) rW) (kU 0 rd) (kX 1 0 rd) (fun _ => kU 0 rd) e = 13 / 2 * ((1 + e) * (1 + e)).
Proof. unfold quad_along, quadrature. rewrite k_h. unfold nls_cost, quadf, rk_stage, kU, kX, rd. cbn. field. Qed.
Lemma r_at : quad_at (kM (fun _ => 0)) (ko true false) (kin 1 0) exlu km kF0 (nls_cost 2 rF (fun _ => 0) rW) = 13 / 2.
Proof.
  unfold quad_at, quadrature. rewrite k_h. cbn [o_num_steps o_ns ko sum]. unfold nls_cost, quadf. unfold rk_stage. cbn [o_ns ko sum].
  replace (s_x (forward (kM (fun _ => 0)) (ko true false) (kin 1 0) exlu km kF0 0)) with (fun _ : nat => 1) by reflexivity. cbn [o_A o_b o_nx ko sum INR].
  unfold rF. cbn [y_fun Nat.eqb Nat.mul Nat.add]. rewrite (k_val true false 1 0 0%nat ltac:(lia)). unfold rW. cbn. field.
Qed.
Theorem nls_weight_refuted : exists MM p o inp lu m F0 d U X KK ny cs potrf stale F yref W w k, moves MM p o inp lu m F0 d U X KK /\ o_sens_forw o || o_sens_hess o = true /\
  jac_ok (y_fun F) (y_jac F) (o_nx o) (o_nu o) ny /\ weight_ok ny W w /\ cost_run (MM p) o inp lu m F0 ny cs potrf stale (Nls F yref w) = Some k /\
  k_fun k <> cs * quad_at (MM p) o inp lu m F0 (nls_cost ny F yref W) /\
  ~ is_derive (fun e => cs * quad_along o inp (nls_cost ny F yref W) U X KK e) 0 (sum (o_nx o + o_nu o) (fun c => k_grad k c * dir (o_nx o) (o_nu o) d c)).
Proof.
  destruct (r_vals (fun _ _ _ => 0)) as [k [E [V [G0 G1]]]].
  exists kM, (fun _ => 0), (ko true false), (kin 1 0), exlu, km, kF0, rd, (kU 0 rd), (kX 1 0 rd), (fun _ => kU 0 rd), 2%nat, 2, kpot, (fun _ _ _ => 0), rF, (fun _ => 0), rW, rw, k.
  split; [apply k_moves|]. split; [reflexivity|]. split; [exact rF_ok|]. split; [exact rW_ok|]. split; [exact E|]. split.
  - rewrite V, r_at. lra.
  - intros D. assert (D' : is_derive (fun e => 13 * ((1 + e) * (1 + e))) 0 18).
    { apply (is_derive_ext (fun e => 2 * quad_along (ko true false) (kin 1 0) (nls_cost 2 rF (fun _ => 0) rW) (kU 0 rd) (kX 1 0 rd) (fun _ => kU 0 rd) e)). { intros e. rewrite r_along. lra. }
      refine (is_derive_val _ _ _ _ D _). cbn [o_nx o_nu ko Nat.add sum]. rewrite G0, G1. unfold dir, rd. cbn. ring. }
    assert (D2 : is_derive (fun e : R => 13 * ((1 + e) * (1 + e))) 0 26) by (auto_derive; [exact I|ring]).
    pose proof (is_derive_unique _ _ _ D') as A. pose proof (is_derive_unique _ _ _ D2) as B. pose proof (eq_trans (eq_sym A) B). lra.
Qed.

(** with parameter sensitivities alone the gradient is computed from whatever the memory holds *)
Theorem param_only_refuted : exists MM p o inp lu m F0 ny cs potrf F yref W w st st' k k', jac_ok (y_fun F) (y_jac F) (o_nx o) (o_nu o) ny /\ weight_ok ny W w /\ w_is_diag w = true /\ o_sens_forw_p o = true /\
  irk_consistent MM (o_nx o) (o_nu o) (o_nz o) (o_np o) /\ irk_regular o inp lu m F0 (MM p) /\ lu_ok ((o_nx o + o_nz o) * o_ns o) lu /\
  cost_run (MM p) o inp lu m F0 ny cs potrf st (Nls F yref w) = Some k /\ cost_run (MM p) o inp lu m F0 ny cs potrf st' (Nls F yref w) = Some k' /\ k_grad k 0%nat <> k_grad k' 0%nat.
Proof.
  assert (V : forall a, exists k, krun false true (fun _ _ _ => a) 1 1 (Nls kF (fun _ => 0) kw) = Some k /\ k_grad k 0%nat = 8 - 3 / 2 * a).
  { intros a. eexists. split; [reflexivity|]. evk0. field. }
  destruct (V 0) as [k [E G]]. destruct (V (-1)) as [k' [E' G']].
  exists kM, (fun _ => 0), (ko false true), (kin 1 1), exlu, km, kF0, 2%nat, 2, kpot, kF, (fun _ => 0), kW, kw, (fun _ _ _ => 0), (fun _ _ _ => -1), k, k'.
  split; [exact kF_ok|]. split; [exact kW_ok|]. split; [reflexivity|]. split; [reflexivity|]. split; [exact kM_consistent|]. split; [apply k_reg|]. split; [exact exlu1|]. split; [exact E|]. split; [exact E'|]. rewrite G, G'. lra.
Qed.
