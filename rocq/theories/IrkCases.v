(** The implicit midpoint rule on xdot = p x u, two steps of length one from x = u = p = 1. *)
From Coq Require Import ZArith List Bool Arith Lia Reals Lra.
From Coquelicot Require Import Coquelicot.
From Verif Require Import Arith Vec LinModel CollModel CollTop RSum BghAdjProofs IrkModel IrkSpec IrkProofs IrkSens IrkFwd IrkTop.
Import ListNotations.
Open Scope R_scope.

Definition exM (p : vecR) : irk_model real := mkIM (A := real)
  (fun x k u z t q => k 0%nat - p 0%nat * x 0%nat * u 0%nat) (fun x k u z t q c => - (p 0%nat * u 0%nat)) (fun x k u z t q c => 1) (fun x k u z t q c => - (p 0%nat * x 0%nat)) (fun x k u z t q c => 0)
  (fun x k u z t q c => - (x 0%nat * u 0%nat)) (fun x k u z l t a b => if ((a =? 0) && (b =? 2) || (a =? 2) && (b =? 0))%nat then - (p 0%nat * l 0%nat) else 0).
Definition exo : irk_opts real := mkIO (A := real) 1 1 0 1 1 2 1 (fun _ _ => / 2) (fun _ => 1) (fun _ => / 2) false 0 true true true true.
Definition exin : irk_in real := mkII (A := real) (fun _ => 1) (fun _ => 1) 2 0 (fun r c => if (r =? c)%nat then 1 else 0) (fun k => if (k =? 0)%nat then 1 else 0) true.
Definition exlu (n : nat) (F : matR) (b : vecR) : vecR := fun _ => b 0%nat / F 0%nat 0%nat.
Definition exm : irk_mem real := mkIMem (A := real) (fun _ => 0) (fun _ => 0).
Definition ex := irk (exM (fun _ => 1)) exo exin exlu exlu exm (fun _ _ => 0).
Lemma ex_h : step exo exin = 1.
Proof. rewrite step_h. unfold irk_h. cbn. lra. Qed.

Ltac ev := cbv -[Rplus Rmult Ropp Rminus Rdiv Rinv IZR Rlt_dec].

Ltac ev0 := ev; destruct (Rlt_dec 0 0) as [L00|_]; [exfalso; lra|].
Notation M1 := (exM (fun _ => 1)).
Definition fw n := forward M1 exo exin exlu exm (fun _ _ => 0) n.
(** one step, from a state with x, [dx/dx0 dx/du] = [a b], dx/dp = c *)
Definition after (n : nat) (s s' : irk_st real) : Prop :=
  s_x s' 0%nat = 3 * s_x s 0%nat /\ s_K s' 0%nat = 2 * s_x s 0%nat /\ s_S s' 0%nat 0%nat = 3 * s_S s 0%nat 0%nat /\ s_S s' 0%nat 1%nat = 3 * s_S s 0%nat 1%nat + 4 * s_x s 0%nat /\
  s_Sp s' 0%nat 0%nat = 3 * s_Sp s 0%nat 0%nat + 4 * s_x s 0%nat /\
  r_x (s_rec s' n) 0%nat = s_x s 0%nat /\ r_K (s_rec s' n) 0%nat = 2 * s_x s 0%nat /\ r_F (s_rec s' n) 0%nat 0%nat = 1 / 2 /\ r_G (s_rec s' n) 0%nat 0%nat = - 1 /\ r_G (s_rec s' n) 0%nat 1%nat = - (2 * s_x s 0%nat) /\
  r_dK (s_rec s' n) 0%nat 0%nat = - (2 * s_S s 0%nat 0%nat) /\ r_dK (s_rec s' n) 0%nat 1%nat = - (2 * s_S s 0%nat 1%nat + 4 * s_x s 0%nat) /\
  r_S (s_rec s' n) 0%nat 0%nat = s_S s 0%nat 0%nat /\ r_S (s_rec s' n) 0%nat 1%nat = s_S s 0%nat 1%nat /\ (forall k, k <> n -> s_rec s' k = s_rec s k).
Lemma step1 s : after 1 s (irk_step M1 exo exin exlu 1 s).
Proof.
  destruct s as [fx fK fF fS fSp fr]. repeat split; try (ev0; (reflexivity || field || lra)). intros k Hk. unfold irk_step. destruct (newton _ _ _ _ _ _ _ _ _ _). cbn [s_rec]. rewrite (proj2 (Nat.eqb_neq k 1) Hk). reflexivity.
Qed.
Lemma step0 : after 0 (fw 0) (fw 1).
Proof.
  unfold fw, forward. cbn [loop]. unfold irk_init. repeat split; try (ev0; (reflexivity || field || lra)). intros k Hk. unfold irk_step. destruct (newton _ _ _ _ _ _ _ _ _ _). cbn [s_rec]. rewrite (proj2 (Nat.eqb_neq k 0) Hk). reflexivity.
Qed.
Lemma fw2 : after 1 (fw 1) (fw 2).
Proof. exact (step1 (fw 1)). Qed.
Lemma fw0 : s_x (fw 0) 0%nat = 1 /\ s_S (fw 0) 0%nat 0%nat = 1 /\ s_S (fw 0) 0%nat 1%nat = 0 /\ s_Sp (fw 0) 0%nat 0%nat = 0.
Proof. repeat split; reflexivity. Qed.
(** one step backwards *)
Lemma back_gen n rx rK rF rG rdK rS fl fH : 
  let p := back_step M1 exo exin exlu n (mkIR (A := real) rx rK rF rG rdK rS) (fl, fH) in rF 0%nat 0%nat <> 0 ->
  fst p 0%nat = fl 0%nat - rG 0%nat 0%nat * fl 0%nat / rF 0%nat 0%nat /\ fst p 1%nat = fl 1%nat - rG 0%nat 1%nat * fl 0%nat / rF 0%nat 0%nat /\
  snd p 0%nat 0%nat = fH 0%nat 0%nat /\
  snd p 0%nat 1%nat = fH 0%nat 1%nat + (rS 0%nat 0%nat - rdK 0%nat 0%nat / 2) * fl 0%nat / rF 0%nat 0%nat /\
  snd p 1%nat 1%nat = fH 1%nat 1%nat + 2 * (rS 0%nat 1%nat - rdK 0%nat 1%nat / 2) * fl 0%nat / rF 0%nat 0%nat.
Proof. cbv zeta. intros H. repeat split; ev; field; exact H. Qed.
Theorem ex_vals : q_x ex 0%nat = 9 /\ q_S ex 0%nat 0%nat = 9 /\ q_S ex 0%nat 1%nat = 24 /\ q_Sp ex 0%nat 0%nat = 24 /\ q_adj ex 0%nat = 9 /\ q_adj ex 1%nat = 24 /\
  q_hess ex 0%nat 0%nat = 0 /\ q_hess ex 0%nat 1%nat = 24 /\ q_hess ex 1%nat 0%nat = 24 /\ q_hess ex 1%nat 1%nat = 80.
Proof.
  destruct (irk_S M1 exo exin exlu exlu exm (fun _ _ => 0)) as [E1 [E2 E3]]. destruct (irk_adj M1 exo exin exlu exlu exm (fun _ _ => 0) eq_refl) as [E4 E5].
  unfold ex. rewrite E1, E2, E3, E4, E5. clear E1 E2 E3 E4 E5. change (o_num_steps exo) with 2%nat. fold (fw 2).
  destruct fw0 as [A1 [A2 [A3 A4]]]. destruct step0 as (B1 & B2 & B3 & B4 & B5 & R1 & R2 & R3 & R4 & R5 & R6 & R7 & R8 & R9 & _). destruct fw2 as (C1 & C2 & C3 & C4 & C5 & Q1 & Q2 & Q3 & Q4 & Q5 & Q6 & Q7 & Q8 & Q9 & QR).
  rewrite A1, A2, A3, A4 in *. rewrite B1, B3, B4, B5 in *.
  cbn [backward]. rewrite (QR 0%nat) in * by discriminate.
  destruct (s_rec (fw 2) 1%nat) as [x1 K1 F1 G1 dK1 S1]. destruct (s_rec (fw 1) 0%nat) as [x0 K0 F0 G0 dK0 S0]. cbn [r_x r_K r_F r_G r_dK r_S] in *.
  destruct (back_gen 1 x1 K1 F1 G1 dK1 S1 (n_S_adj exin) (fun _ _ => 0)) as (D1 & D2 & D3 & D4 & D5); [lra|].
  destruct (back_step M1 exo exin exlu 1 _ _) as [l H]. cbn [fst snd] in *. 
  destruct (back_gen 0 x0 K0 F0 G0 dK0 S0 l H) as (D1' & D2' & D3' & D4' & D5'); [lra|].
  destruct (back_step M1 exo exin exlu 0 _ _) as [l' H']. cbn [fst snd] in *. unfold mirror_u. cbn [Nat.ltb Nat.leb].
  change (n_S_adj exin 0%nat) with 1 in *. change (n_S_adj exin 1%nat) with 0 in *.
  rewrite Q3, Q4, Q5, Q6, Q7, Q8, Q9 in *. rewrite R3, R4, R5, R6, R7, R8, R9 in *. rewrite D1', D2', D3', D4', D5', D1, D2, D3, D4, D5. repeat split; lra.
Qed.

(** the hypotheses of the theorems hold for it *)
Lemma mult_der (f g : R -> R) x l k : is_derive f x l -> is_derive g x k -> is_derive (fun e => f e * g e) x (l * g x + f x * k).
Proof. intros H1 H2. apply (is_derive_mult f g x l k H1 H2). intros a b. apply Rmult_comm. Qed.
Lemma minus_der (f g : R -> R) x l k : is_derive f x l -> is_derive g x k -> is_derive (fun e => f e - g e) x (l - k).
Proof. intros H1 H2. apply (is_derive_minus f g x l k H1 H2). Qed.
Lemma ex_consistent : irk_consistent exM 1 1 0 1.
Proof.
  split.
  - intros p x x' k k' u u' z z' t Hx Hk Hu Hz. repeat split; intros r c Hr Hc; cbn; try rewrite (Hx 0%nat) by lia; try rewrite (Hu 0%nat) by lia; reflexivity.
  - intros P X K U Z dP dX dK dU dZ t HP HX HK HU HZ q Hq.
    pose proof (HP 0%nat ltac:(lia)) as P1. pose proof (HX 0%nat ltac:(lia)) as X1. pose proof (HK 0%nat ltac:(lia)) as K1. pose proof (HU 0%nat ltac:(lia)) as U1.
    refine (is_derive_val _ _ _ _ (minus_der _ _ _ _ _ K1 (mult_der _ _ _ _ _ (mult_der _ _ _ _ _ P1 X1) U1)) _). cbn. ring.
Qed.
Lemma ex_lu : lu_ok ((o_nx exo + o_nz exo) * o_ns exo) exlu /\ lu_t_ok ((o_nx exo + o_nz exo) * o_ns exo) exlu.
Proof.
  assert (H : forall F, nonsing 1 F -> F 0%nat 0%nat <> 0).
  { intros F HF E. assert (Z : (fun _ : nat => 1) 0%nat = 0); [|cbv in Z; lra]. refine (HF (fun _ => 1) _ 0%nat (Nat.lt_0_succ 0)). intros r Hr. replace r with 0%nat by lia. cbn. rewrite E. ring. }
  split; intros F b HF r Hr; change ((o_nx exo + o_nz exo) * o_ns exo)%nat with 1%nat in *; replace r with 0%nat by lia; cbn; unfold exlu; specialize (H F HF); field; exact H.
Qed.
Lemma ex_regular : irk_regular exo exin exlu exm (fun _ _ => 0) M1.
Proof.
  intros n Hn y Hy k Hk. change ((o_nx exo + o_nz exo) * o_ns exo)%nat with 1%nat in Hk. replace k with 0%nat by lia. specialize (Hy 0%nat 0%nat ltac:(cbn; lia) ltac:(cbn; lia)).
  unfold rk_lin, rk_stage, rk_arg in Hy. change (irk_h exo exin) with (2 / 2) in Hy. cbn in Hy. lra.
Qed.
Lemma ex_seed : irk_seed_ok exo exin.
Proof. intros _ r c Hr Hc. cbn in *. reflexivity. Qed.
Lemma ex_hess_ok : irk_hess_ok M1 1 1 0.
Proof.
  split.
  - intros. cbn. destruct (a =? 0)%nat, (a =? 2)%nat, (b =? 0)%nat, (b =? 2)%nat; reflexivity.
  - intros x x' k k' u u' z z' l l' t Hx Hk Hu Hz Hl a b _ _. cbn. rewrite (Hl 0%nat) by lia. reflexivity.
  - intros X K U Z X1 K1 U1 Z1 X2 K2 U2 Z2 t l [AX BX] [AK BK] [AU BU] _.
    exists (fun e => l 0%nat * (K1 e 0%nat - (X1 e 0%nat * U e 0%nat + X e 0%nat * U1 e 0%nat))). split.
    + pose proof (AX 0%nat Nat.lt_0_1) as AX0. pose proof (AK 0%nat Nat.lt_0_1) as AK0. pose proof (AU 0%nat Nat.lt_0_1) as AU0. generalize (filter_and _ _ AX0 (filter_and _ _ AK0 AU0)). apply filter_imp. intros e [E1 [E2 E3]].
      apply (is_derive_ext (fun e => l 0%nat * (K e 0%nat - X e 0%nat * U e 0%nat))); [intros y; cbn; ring|].
      refine (is_derive_val _ _ _ _ (scal_der _ _ _ _ (minus_der _ _ _ _ _ E2 (mult_der _ _ _ _ _ E1 E3))) _). ring.
    + pose proof (locally_singleton _ _ (AX 0%nat Nat.lt_0_1)) as E1. pose proof (locally_singleton _ _ (AU 0%nat Nat.lt_0_1)) as E3.
      refine (is_derive_val _ _ _ _ (scal_der _ _ _ _ (minus_der _ _ _ _ _ (BK 0%nat Nat.lt_0_1) (plus_der _ _ _ _ _ (mult_der _ _ _ _ _ (BX 0%nat Nat.lt_0_1) E3) (mult_der _ _ _ _ _ E1 (BU 0%nat Nat.lt_0_1))))) _).
      cbn. unfold var4. cbn. ring.
Qed.
(** a curve through the computed trajectory: u = 1 + e, x = 1 *)
Definition cX (n : nat) (e : R) : vecR := fun _ => ((3 + e) / (1 - e)) ^ n.
Definition cU (e : R) : vecR := fun _ => 1 + e.
Definition cK (n : nat) (e : R) : vecR := fun _ => 2 * (1 + e) * (3 + e) ^ n / (1 - e) ^ (n + 1).
Lemma near1 : locally 0 (fun e : R => 1 - e <> 0).
Proof. exists (mkposreal (1 / 2) ltac:(lra)). intros e He. unfold ball in He. cbn in He. unfold AbsRing_ball, abs, minus, plus, opp in He. cbn in He. apply Rabs_def2 in He. lra. Qed.
Lemma ex_through : irk_through exo exin exlu exm (fun _ _ => 0) exM (fun _ => 1) (fun _ _ => 1) cU cX cK.
Proof.
  split; [|split; [reflexivity|split; [|split]]].
  - unfold irk_curve. generalize near1. apply filter_imp. intros e He n Hn. change (irk_h exo exin) with (2 / 2). split.
    + intros i q Hi Hq. cbn in Hi, Hq. unfold rk_arg, rk_stage. destruct n as [|[|n]]; [| |cbn in Hn; lia]; cbn; unfold cK, cX, cU; cbn; field; exact He.
    + intros r Hr. unfold rk_next. destruct n as [|[|n]]; [| |cbn in Hn; lia]; cbn; unfold cK, cX; cbn; field; exact He.
  - intros c _. unfold cU. cbn. lra.
  - intros c _. unfold cX. cbn. reflexivity.
  - destruct fw0 as [A1 _]. destruct step0 as (B1 & B2 & _). destruct fw2 as (_ & C2 & _). intros n Hn k Hk. change ((o_nx exo + o_nz exo) * o_ns exo)%nat with 1%nat in Hk. replace k with 0%nat by lia.
    destruct n as [|[|n]]; [| |cbn in Hn; lia]; unfold cK; cbn [pow Nat.add]; [change (s_K (fw 1) 0%nat) with (s_K (fw 1) 0%nat)|].
    + change (2 * (1 + 0) * 1 / ((1 - 0) * 1) = s_K (fw 1) 0%nat). rewrite B2, A1. field.
    + change (2 * (1 + 0) * ((3 + 0) * 1) / ((1 - 0) * ((1 - 0) * 1)) = s_K (fw 2) 0%nat). rewrite C2, B1, A1. field.
Qed.
Definition cK1 (n : nat) (e : R) : vecR := fun _ => if (n =? 0)%nat then 4 / (1 - e) ^ 2 else (20 + 12 * e) / (1 - e) ^ 3.
Definition cK2 (n : nat) : vecR := fun _ => if (n =? 0)%nat then 8 else 72.
Lemma ex_twice : twice 1 (cX 0) (fun _ _ => 0) (fun _ => 0) /\ twice 1 cU (fun _ _ => 1) (fun _ => 0) /\ (forall n, (n < 2)%nat -> twice 1 (cK n) (cK1 n) (cK2 n)).
Proof.
  split; [split; intros c _|split; [split; intros c _|intros n Hn; split; intros c _]].
  - apply filter_forall. intros e. unfold cX. cbn. apply (is_derive_const (V := R_NormedModule) 1 e).
  - apply (is_derive_const (V := R_NormedModule) 0 0).
  - apply filter_forall. intros e. unfold cU. auto_derive; [exact I|ring].
  - apply (is_derive_const (V := R_NormedModule) 1 0).
  - generalize near1. apply filter_imp. intros e He. destruct n as [|[|n]]; [| |lia]; unfold cK, cK1; cbn [pow Nat.add Nat.eqb]; auto_derive; try (rewrite !Rmult_1_r); try exact He; try (apply Rmult_integral_contrapositive_currified; exact He); field; exact He.
  - destruct n as [|[|n]]; [| |lia]; unfold cK1, cK2; cbn [Nat.eqb]; auto_derive; try lra; field.
Qed.
(** the second derivative of the second state along this curve, and the entry of the Hessian *)
Example ex_hessian : exists phi, locally 0 (fun e => is_derive (fun e => sum 1 (fun r => n_S_adj exin r * cX 2 e r) + sum 1 (fun c => n_S_adj exin (1 + c)%nat * cU e c)) e (phi e)) /\
  is_derive phi 0 (sum 1 (fun r => q_adj ex r * 0) + sum 1 (fun c => q_adj ex (1 + c)%nat * 0) + sum 2 (fun r => sum 2 (fun c => (if (r =? 1)%nat then 1 else 0) * q_hess ex r c * (if (c =? 1)%nat then 1 else 0)))).
Proof.
  destruct ex_twice as [TX [TU TK]].
  refine (irk_hessian_top exM (fun _ => 1) exo exin exlu exlu exm (fun _ _ => 0) cU cX cK (fun _ _ => 0) (fun _ _ => 1) cK1 (fun _ => 0) (fun _ => 0) cK2 (fun c => if (c =? 1)%nat then 1 else 0) ex_consistent ex_hess_ok (proj1 ex_lu) (proj2 ex_lu) ex_regular ex_seed eq_refl ex_through TX TU TK _ _).
  - intros r Hr. cbn. destruct r; [|cbn in Hr; lia]. cbn. ring.
  - intros c Hc. destruct c; [|cbn in Hc; lia]. reflexivity.
Qed.
(** xdot = z, 0 = z - x: affine; the computed stage variables solve the equations whatever the guess and the time were *)
Definition afM : irk_model real := mkIM (A := real)
  (fun x k u z t q => if (q =? 0)%nat then k 0%nat - z 0%nat else z 0%nat - x 0%nat) (fun _ _ _ _ _ q c => if (q =? 0)%nat then 0 else -1) (fun _ _ _ _ _ q c => if (q =? 0)%nat then 1 else 0)
  (fun _ _ _ _ _ q c => 0) (fun _ _ _ _ _ q c => if (q =? 0)%nat then -1 else 1) (fun _ _ _ _ _ q c => 0) (fun _ _ _ _ _ _ a b => 0).
Definition afo : irk_opts real := mkIO (A := real) 1 0 1 0 1 3 2 (fun _ _ => / 2) (fun _ => 1) (fun _ => / 2) true 0 false false false false.
Definition afin : irk_in real := mkII (A := real) (fun _ => 5) (fun _ => 0) 3 0 (fun r c => 0) (fun k => 0) false.
Definition lu2 (n : nat) (F : matR) (b : vecR) : vecR := fun k =>
  let D := F 0%nat 0%nat * F 1%nat 1%nat - F 0%nat 1%nat * F 1%nat 0%nat in
  if (k =? 0)%nat then (b 0%nat * F 1%nat 1%nat - F 0%nat 1%nat * b 1%nat) / D else (F 0%nat 0%nat * b 1%nat - b 0%nat * F 1%nat 0%nat) / D.
Lemma lu2_ok : lu_ok 2 lu2.
Proof.
  intros F b HF. assert (HD : F 0%nat 0%nat * F 1%nat 1%nat - F 0%nat 1%nat * F 1%nat 0%nat <> 0).
  { intros D. assert (HF2 : forall a c, F 0%nat 0%nat * a + F 0%nat 1%nat * c = 0 -> F 1%nat 0%nat * a + F 1%nat 1%nat * c = 0 -> a = 0 /\ c = 0).
    { intros a c H1 H2. pose proof (HF (fun k => if (k =? 0)%nat then a else c)) as Z. split; [apply (fun H => Z H 0%nat)|apply (fun H => Z H 1%nat)]; try lia;
        intros r Hr; (destruct r as [|[|r]]; [| |lia]); cbn; lra. }
    destruct (HF2 (F 1%nat 1%nat) (- F 1%nat 0%nat)) as [Z1 Z2]; [lra|lra|]. destruct (HF2 (- F 0%nat 1%nat) (F 0%nat 0%nat)) as [Z3 Z4]; [lra|lra|].
    destruct (HF2 1 0) as [Z5 _]; lra. }
  intros r Hr. destruct r as [|[|r]]; [| |lia]; unfold lu2; cbn; field; exact HD.
Qed.
Example af_exact : forall m F0 n, rk_eqs afo (irk_h afo afin) afM (n_t0 afin + INR n * irk_h afo afin) (s_x (forward afM afo afin lu2 m F0 n)) (n_u afin)
  (s_K (forward afM afo afin lu2 m F0 (S n))) (s_x (forward afM afo afin lu2 m F0 (S n))).
Proof.
  intros m F0. apply irk_affine_top.
  - exists (fun q c => if (q =? 0)%nat then 0 else -1), (fun q c => if (q =? 0)%nat then 1 else 0), (fun q c => if (q =? 0)%nat then -1 else 1), (fun _ _ _ => 0).
    repeat (split; [reflexivity|]). intros x k u z t q Hq. cbn. destruct (q =? 0)%nat; ring.
  - exact lu2_ok.
  - cbn. lia.
  - intros y Hy. pose proof (Hy 0%nat 0%nat ltac:(cbn; lia) ltac:(cbn; lia)) as H0. pose proof (Hy 0%nat 1%nat ltac:(cbn; lia) ltac:(cbn; lia)) as H1.
    unfold rk_lin, rk_stage, rk_arg in H0, H1. change (irk_h afo afin) with (3 / (1 + 1 + 1)) in *. cbn in H0, H1. assert (E3 : 3 / (1 + 1 + 1) = 1) by field. rewrite E3 in *.
    intros k Hk. cbn in Hk. destruct k as [|[|k]]; [| |lia]; lra.
Qed.
(** the final state is (3)^3 times the initial one: x+ = x + K, K = z = x + K / 2 *)
Example af_val : forall m F0, s_x (forward afM afo afin lu2 m F0 3) 0%nat = 135.
Proof.
  intros m F0. assert (S3 : forall n, s_x (forward afM afo afin lu2 m F0 (S n)) 0%nat = 3 * s_x (forward afM afo afin lu2 m F0 n) 0%nat).
  { intros n. destruct (af_exact m F0 n) as [A B]. pose proof (A 0%nat 0%nat ltac:(cbn; lia) ltac:(cbn; lia)) as A0. pose proof (A 0%nat 1%nat ltac:(cbn; lia) ltac:(cbn; lia)) as A1. specialize (B 0%nat ltac:(cbn; lia)).
    unfold rk_arg, rk_stage, rk_next in A0, A1, B. change (irk_h afo afin) with (3 / (1 + 1 + 1)) in *. assert (E3 : 3 / (1 + 1 + 1) = 1) by field. rewrite E3 in *.
    set (s' := forward afM afo afin lu2 m F0 (S n)) in *. set (s := forward afM afo afin lu2 m F0 n) in *. clearbody s s'. cbn in A0, A1, B. lra. }
  rewrite !S3. change (s_x (forward afM afo afin lu2 m F0 0) 0%nat) with 5. lra.
Qed.
