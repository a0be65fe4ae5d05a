(** Concrete programs and refutations for the convexification. *)
From Coq Require Import ZArith List Bool Lia Reals Lra.
From Verif Require Import Arith Vec LinModel RSum InterpProofs RegModel RegProofs IrkModel DynProofs CvxModel CvxSpec CvxProofs CvxTop CvxConvex.
Open Scope R_scope.

(** oracles that are exact on the matrices below *)
Definition x_eig (m : nat) (M : matR) : matR * vecR := ((fun i j => if (i =? j)%nat then 1 else 0), fun i => M i i).
Definition x_potrf (m : nat) (M : matR) : matR := fun i j => if (i =? j)%nat then 2 else 0.
Definition x_trsm (r m : nat) (L S : matR) : matR := fun i j => S i j / L j j.
Definition mat2 (a b c d : R) : matR := fun i j => match i, j with O, O => a | O, S O => b | S O, O => c | S O, S O => d | _, _ => 0 end.
Definition vec2 (a b : R) : vecR := fun i => match i with O => a | S O => b | _ => 0 end.
Definition zm : nat -> matR := fun _ _ _ => 0.
Definition zv : nat -> vecR := fun _ _ => 0.
Definition ones (_ : nat) : nat := 1%nat.
Definition u_but_last (N k : nat) : nat := if (k <? N)%nat then 1%nat else 0%nat.

(** one step, x_1 = u + x_0 + 1, with an indefinite Hessian in stage 0 *)
Definition a_s : cmem real := mkCM (A := real) (fun k => match k with O => mat2 2 1 1 (-5) | _ => mat2 3 0 0 0 end) zm (fun k => match k with O => vec2 1 1 | _ => vec2 0 0 end)
  (fun _ => mat2 1 0 1 0) (fun _ _ => 0) (fun _ _ => 0).
Definition a_b : nat -> vecR := fun _ => vec2 1 0.
Definition a_f : cmem real := cvx_regularize (A := real) x_eig x_potrf x_trsm 1 ones (u_but_last 1) 1 a_b a_s.
Definition a_w : nat -> vecR := fun k => match k with O => vec2 (-8/5) 1 | _ => vec2 (2/5) 0 end.

Lemma small (x : R) : 1 <= x -> nltb (a := real) x (ncst (a := real) 1 (-10)) = false.
Proof. intros H. change (Rltb x (rcst 1 (-10)) = false). unfold rcst. cbn. destruct (Rltb_spec x (1 / 10000000000)); [lra|reflexivity]. Qed.
Lemma small' (x y : R) : x = y -> 1 <= y -> nltb (a := real) x (ncst (a := real) 1 (-10)) = false.
Proof. intros -> H. apply small, H. Qed.

Section No.
Variable eig : nat -> matR -> matR * vecR.
Variables (nx nu : nat -> nat) (bv : nat -> vecR) (ins : bool) (k : nat) (s : cmem real).
Hypothesis E : needs (A := real) eig nx nu bv ins k s = false.
Lemma st_reg_no : st_reg (A := real) eig nx nu bv ins k s = st_upd (A := real) nx nu bv ins k s.
Proof. unfold st_reg. rewrite E. reflexivity. Qed.
End No.

Definition a_p : cmem real := last_stage (A := real) 1 ones (u_but_last 1) 1 true a_s.
Lemma a_needs : needs (A := real) x_eig ones (u_but_last 1) a_b true 0 a_p = false.
Proof.
  unfold needs, any_below. change (u_but_last 1 0) with 1%nat. cbn [loop]. rewrite (small' _ 4); [reflexivity| |lra].
  cbv -[Rplus Rmult Ropp Rminus Rdiv Rinv IZR]. lra.
Qed.
Lemma a_RSQ0 : c_RSQ a_f 0 = st_out (A := real) x_eig x_potrf x_trsm ones (u_but_last 1) 1 a_b true 0 a_p. Proof. reflexivity. Qed.
Lemma a_H00 : c_RSQ a_f 0 0%nat 0%nat = 4.
Proof. rewrite a_RSQ0. unfold st_out. rewrite st_reg_no by exact a_needs. cbv -[Rplus Rmult Ropp Rminus Rdiv Rinv IZR]. lra. Qed.
Lemma a_H10 : c_RSQ a_f 0 1%nat 0%nat = 3.
Proof. rewrite a_RSQ0. unfold st_out. rewrite st_reg_no by exact a_needs. cbv -[Rplus Rmult Ropp Rminus Rdiv Rinv IZR]. lra. Qed.
Lemma a_H11 : c_RSQ a_f 0 1%nat 1%nat = 13 / 4.
Proof. rewrite a_RSQ0. unfold st_out. rewrite st_reg_no by exact a_needs. cbv -[Rplus Rmult Ropp Rminus Rdiv Rinv IZR]. lra. Qed.
Lemma a_r0 : c_rq a_f 0 0%nat = 3 /\ c_rq a_f 0 1%nat = 3.
Proof. split; cbv -[Rplus Rmult Ropp Rminus Rdiv Rinv IZR]; lra. Qed.
Lemma a_HN : c_RSQ a_f 1 0%nat 0%nat = 1 /\ c_rq a_f 1 0%nat = 0.
Proof. split; cbv -[Rplus Rmult Ropp Rminus Rdiv Rinv IZR]; lra. Qed.
Lemma a_no : forall t, (t < 1)%nat -> needs (A := real) x_eig ones (u_but_last 1) a_b true (1 - 1 - t) (sweep (A := real) x_eig x_potrf x_trsm 1 ones (u_but_last 1) 1 a_b true true true t a_s) = false.
Proof. intros t Ht. assert (t = 0%nat) as -> by lia. exact a_needs. Qed.
Lemma a_org k i j : (k <= 1)%nat -> (i < u_but_last 1 k + 1)%nat -> (j < u_but_last 1 k + 1)%nat -> c_org a_f k i j = c_RSQ a_s k i j.
Proof. intros. apply (org_kept x_eig x_potrf x_trsm 1 ones (u_but_last 1) 1 a_b a_s k i j a_no); assumption. Qed.
Lemma a_dyn : dynamic 1 ones (u_but_last 1) (c_BAbt a_s) a_b a_w.
Proof. intros k j Hk Hj. assert (k = 0%nat) as -> by lia. unfold ones in Hj. assert (j = 0%nat) as -> by lia. cbn. lra. Qed.

(** the bound on x_0 is lower-active with the multiplier 37/20 *)
Definition a_lam : nat -> vecR := fun k => match k with O => vec2 (37 / 20) 0 | _ => vec2 0 0 end.
Definition a_nbx (k : nat) : nat := match k with O => 1 | _ => 0 end.
Definition a_con := ineq_grad a_nbx (fun _ => 0%nat) (fun _ _ => 1%nat) zm a_lam.
Definition a_pi' : nat -> vecR := fun _ => vec2 (2 / 5) 0.
Definition a_pi : nat -> vecR := snd (cvx_correct (A := real) 1 ones (u_but_last 1) (fun _ => 0%nat) a_nbx (fun _ => 0%nat) (fun _ _ => 1%nat) zm a_w a_lam a_f (fun _ => 0) zv).
Lemma a_stat_new k i : (k <= 1)%nat -> (i < u_but_last 1 k + 1)%nat -> lagr 1 ones (u_but_last 1) (c_RSQ a_f) (c_rq a_f) (c_BAbt a_s) a_pi' a_con a_w k i = 0.
Proof.
  intros Hk Hi. destruct a_r0 as (R0 & R1). destruct a_HN as (HN & RN).
  destruct k as [|[|k]]; [| |lia]; [destruct i as [|[|i]]|destruct i as [|i]]; try (cbn in Hi; lia); unfold lagr, lowsym, u_but_last, ones; cbn -[a_f]; rewrite ?a_H00, ?a_H10, ?a_H11, ?R0, ?R1, ?HN, ?RN; unfold a_con, ineq_grad; cbn; lra.
Qed.
Lemma a_pi_val : a_pi 0 0%nat = 6 / 5.
Proof.
  change (final_pi 1 ones (u_but_last 1) (fun _ => 0%nat) a_nbx (fun _ => 0%nat) (fun _ _ => 1%nat) zm a_w a_lam a_f (fun _ => 0) zv (1 - 1)%nat 0%nat = 6 / 5).
  rewrite final_val by (unfold ones; lia). cbn [Nat.ltb Nat.leb]. change (u_but_last 1 1) with 0%nat. change (ones 1) with 1%nat. cbn [Nat.add sum]. unfold lowsym. cbn [Nat.leb].
  rewrite (a_org 1 0 0) by (unfold ones, u_but_last; cbn; lia).
  pose proof (chain_row x_eig x_potrf x_trsm 1 ones (u_but_last 1) 1 a_b true a_s 1 0 eq_refl ltac:(lia) ltac:(unfold ones, u_but_last; cbn; lia)) as E. cbn [Nat.add] in E.
  change (c_org a_f 1 1%nat 0%nat = 0) in E. rewrite E. unfold ineq_grad. cbn. lra.
Qed.
(** the multiplier of the bound on x_0 is not corrected *)
Lemma a_x0_wrong : lagr 1 ones (u_but_last 1) (c_org a_f) (c_rq a_s) (c_BAbt a_s) a_pi a_con a_w 0 1 = - 25 / 4.
Proof.
  unfold lagr. change (u_but_last 1 0) with 1%nat. change (ones 0) with 1%nat. change (ones (0 + 1)) with 1%nat. cbn [Nat.add sum Nat.ltb Nat.leb andb]. unfold lowsym. cbn [Nat.leb].
  rewrite (a_org 0 1 0), (a_org 0 1 1), a_pi_val by (unfold ones, u_but_last; cbn; lia). unfold a_con, ineq_grad. cbn. lra.
Qed.
Lemma x0_refuted : exists eig potrf trsm N nx nu delta bv s nbu nbx ng idxb DCt ux lam tmp pi0 pi', (0 < N)%nat /\
  (forall k, (k < N)%nat -> (nx (k + 1) <= nx k)%nat) /\ dynamic N nx nu (c_BAbt s) bv ux /\
  let f := cvx_regularize (A := real) eig potrf trsm N nx nu delta bv s in
  let con := ineq_grad (fun k => nbu k + nbx k)%nat ng idxb DCt lam in
  (forall k i, (k <= N)%nat -> (i < nu k + nx k)%nat -> lagr N nx nu (c_RSQ f) (c_rq f) (c_BAbt s) pi' con ux k i = 0) /\
  (forall k i j, (k <= N)%nat -> (i < nu k + nx k)%nat -> (j < nu k + nx k)%nat -> c_org f k i j = c_RSQ s k i j) /\
  exists i, (i < nu 0%nat + nx 0%nat)%nat /\
    lagr N nx nu (c_RSQ s) (c_rq s) (c_BAbt s) (snd (cvx_correct (A := real) N nx nu nbu nbx ng idxb DCt ux lam f tmp pi0)) con ux 0 i <> 0.
Proof.
  exists x_eig, x_potrf, x_trsm, 1%nat, ones, (u_but_last 1), 1, a_b, a_s, (fun _ => 0%nat), a_nbx, (fun _ => 0%nat), (fun _ _ => 1%nat), zm, a_w, a_lam, (fun _ => 0), zv, a_pi'.
  split; [lia|]. split; [intros; unfold ones; lia|]. split; [exact a_dyn|]. cbv zeta.
  split; [exact a_stat_new|]. split; [exact a_org|]. exists 1%nat. split; [unfold ones, u_but_last; cbn; lia|].
  change (lagr 1 ones (u_but_last 1) (c_RSQ a_s) (c_rq a_s) (c_BAbt a_s) a_pi a_con a_w 0 1 <> 0).
  assert (E : lagr 1 ones (u_but_last 1) (c_RSQ a_s) (c_rq a_s) (c_BAbt a_s) a_pi a_con a_w 0 1 = lagr 1 ones (u_but_last 1) (c_org a_f) (c_rq a_s) (c_BAbt a_s) a_pi a_con a_w 0 1).
  { unfold lagr. do 4 f_equal. apply sum_ext. intros j Hj. f_equal. unfold lowsym. destruct (Nat.leb_spec j 1); [symmetry; apply a_org|]; change (ones 0) with 1%nat in *; change (u_but_last 1 0) with 1%nat in *; lia. }
  rewrite E, a_x0_wrong. lra.
Qed.

(** two inputs: the eigenvalue test sees the old off-diagonal entry, the factorisation the new one *)
Definition b_nu (k : nat) : nat := match k with O => 2 | _ => 0 end.
Definition b_BA : matR := fun i j => match i, j with O, O => 1 | S O, O => 1 | _, _ => 0 end.
Definition b_R : matR := fun i j => match i, j with O, O => -1 | S O, S O => -1 | _, _ => 0 end.
Definition b_s : cmem real := mkCM (A := real) (fun k => match k with O => b_R | _ => mat2 11 0 0 0 end) zm (fun _ => vec2 0 0) (fun _ => b_BA) (fun _ _ => 0) (fun _ _ => 0).
Lemma convex_refuted (eig : nat -> matR -> matR * vecR) potrf trsm : eig_ok eig -> exists N nx nu bv s, (0 < N)%nat /\ (forall k, (k < N)%nat -> nx (k + 1)%nat = nx k) /\ nu N = 0%nat /\
  ~ posdef (nu 0%nat + nx 0%nat) (lowsym (c_RSQ (cvx_regularize (A := real) eig potrf trsm N nx nu 1 bv s) 0)).
Proof.
  intros HE. exists 1%nat, ones, b_nu, zv, b_s. split; [lia|]. split; [reflexivity|]. split; [reflexivity|].
  set (p := last_stage (A := real) 1 ones b_nu 1 true b_s). set (M := fun i j => st_upd (A := real) ones b_nu zv true 0 p j i).
  assert (E00 : M 0%nat 0%nat = 9) by (cbv -[Rplus Rmult Ropp Rminus Rdiv Rinv IZR]; lra).
  assert (E11 : M 1%nat 1%nat = 9) by (cbv -[Rplus Rmult Ropp Rminus Rdiv Rinv IZR]; lra).
  assert (E10 : M 1%nat 0%nat = 0) by (cbv -[Rplus Rmult Ropp Rminus Rdiv Rinv IZR]; lra).
  assert (E01 : M 0%nat 1%nat = 10) by (cbv -[Rplus Rmult Ropp Rminus Rdiv Rinv IZR]; lra).
  assert (D : forall k, (k < 2)%nat -> snd (eig 2%nat M) k = 9).
  { intros k Hk. destruct (HE 2%nat M) as (O & EV). specialize (O k k Hk Hk). rewrite Nat.eqb_refl in O. pose proof (EV 0%nat k ltac:(lia) Hk) as V0. pose proof (EV 1%nat k ltac:(lia) Hk) as V1.
    clear EV. cbn [sum] in O, V0, V1. unfold lowsym in V0, V1. cbn [Nat.leb] in V0, V1. rewrite E00, E10 in V0. rewrite E10, E11 in V1.
    set (d := snd (eig 2%nat M) k) in *. set (a := fst (eig 2%nat M) 0%nat k) in *. set (b := fst (eig 2%nat M) 1%nat k) in *.
    assert (A1 : 9 * a = d * a) by lra. assert (B1 : 9 * b = d * b) by lra. assert (O1 : a * a + b * b = 1) by lra.
    replace d with (9 - (a * (9 * a - d * a) + b * (9 * b - d * b))); [rewrite A1, B1; ring|]. 
    replace (a * (9 * a - d * a) + b * (9 * b - d * b)) with ((9 - d) * (a * a + b * b)) by ring. rewrite O1. ring. }
  assert (NE : needs (A := real) eig ones b_nu zv true 0 p = false).
  { unfold needs, any_below. change (b_nu 0) with 2%nat. cbn [loop]. fold M. rewrite (small' _ 9), (small' _ 9); [reflexivity| | | |]; try lra; apply D; lia. }
  intros PD. specialize (PD (fun i => match i with O => 1 | S O => -1 | _ => 0 end) (ex_intro _ 0%nat (conj (Nat.lt_0_succ _) R1_neq_R0))).
  change (c_RSQ (cvx_regularize (A := real) eig potrf trsm 1 ones b_nu 1 zv b_s) 0) with (st_out (A := real) eig potrf trsm ones b_nu 1 zv true 0 p) in PD.
  change (b_nu 0 + ones 0)%nat with 3%nat in PD. unfold quad in PD. cbn [sum] in PD. unfold lowsym in PD. cbn [Nat.leb] in PD.
  assert (K : forall i j, (i < 2)%nat -> (j < 2)%nat -> st_out (A := real) eig potrf trsm ones b_nu 1 zv true 0 p i j = M j i).
  { intros i j Hi Hj. unfold st_out. rewrite st_reg_no by exact NE. unfold syrk_ln_at, inblk. change (b_nu 0) with 2%nat. change (ones 0) with 1%nat. bools; reflexivity. }
  rewrite (K 0%nat 0%nat), (K 1%nat 0%nat), (K 1%nat 1%nat), E00, E11, E01 in PD by lia. lra.
Qed.

(** more states after the step than before: the columns of BAQ beyond nx[ii] are never written *)
Definition g_nx (k : nat) : nat := match k with O => 1 | _ => 2 end.
Definition g_s : cmem real := mkCM (A := real) (fun k => match k with O => mat2 1 0 0 0 | _ => mat2 1 0 0 3 end) zm (fun _ => vec2 0 0) (fun _ => mat2 0 1 1 0) (fun _ _ => 0) (fun _ _ => 0).
Definition x_one (m : nat) (M : matR) : matR := fun i j => if (i =? j)%nat then 1 else 0.
Definition g_f : cmem real := cvx_regularize (A := real) x_eig x_one x_trsm 1 g_nx (u_but_last 1) 1 zv g_s.
Definition g_w (u : R) : nat -> vecR := fun k => match k with O => vec2 u 0 | _ => vec2 0 u end.
Definition g_p : cmem real := last_stage (A := real) 1 g_nx (u_but_last 1) 1 true g_s.
Lemma g_needs : needs (A := real) x_eig g_nx (u_but_last 1) zv true 0 g_p = false.
Proof.
  unfold needs, any_below. change (u_but_last 1 0) with 1%nat. cbn [loop]. rewrite (small' _ 1); [reflexivity| |lra].
  cbv -[Rplus Rmult Ropp Rminus Rdiv Rinv IZR]. lra.
Qed.
Lemma g_ne : objective 1 g_nx (u_but_last 1) (c_RSQ g_s) (c_rq g_s) (g_w 1) - objective 1 g_nx (u_but_last 1) (c_RSQ g_s) (c_rq g_s) (g_w 0) <>
  objective 1 g_nx (u_but_last 1) (c_RSQ g_f) (c_rq g_f) (g_w 1) - objective 1 g_nx (u_but_last 1) (c_RSQ g_f) (c_rq g_f) (g_w 0).
Proof.
  assert (H00 : c_RSQ g_f 0 0%nat 0%nat = 1).
  { change (st_out (A := real) x_eig x_one x_trsm g_nx (u_but_last 1) 1 zv true 0 g_p 0%nat 0%nat = 1). unfold st_out. rewrite st_reg_no by exact g_needs. cbv -[Rplus Rmult Ropp Rminus Rdiv Rinv IZR]. lra. }
  assert (R00 : c_rq g_f 0 0%nat = 0) by (cbv -[Rplus Rmult Ropp Rminus Rdiv Rinv IZR]; lra).
  assert (H1 : c_RSQ g_f 1 1%nat 1%nat = 1) by (cbv -[Rplus Rmult Ropp Rminus Rdiv Rinv IZR]; lra).
  assert (R1' : c_rq g_f 1 1%nat = 0) by (cbv -[Rplus Rmult Ropp Rminus Rdiv Rinv IZR]; lra).
  unfold objective. change (1 + 1)%nat with 2%nat. cbn [sum]. change (u_but_last 1 0) with 1%nat. change (u_but_last 1 1) with 0%nat. change (g_nx 0) with 1%nat. change (g_nx 1) with 2%nat.
  cbn [Nat.add]. unfold stage_cost, quad, lowsym. cbn [sum Nat.leb]. unfold g_w. cbn [vec2]. rewrite H00, R00, H1, R1'. cbn [g_s c_RSQ c_rq mat2 vec2]. lra.
Qed.

Lemma growing_refuted : exists eig potrf trsm N nx nu delta bv s w w', dynamic N nx nu (c_BAbt s) bv w /\ dynamic N nx nu (c_BAbt s) bv w' /\
  (forall j, (j < nx 0%nat)%nat -> w 0%nat (nu 0 + j)%nat = w' 0%nat (nu 0 + j)%nat) /\
  let f := cvx_regularize (A := real) eig potrf trsm N nx nu delta bv s in
  (forall t, (t < N)%nat -> needs (A := real) eig nx nu bv true (N - 1 - t) (sweep (A := real) eig potrf trsm N nx nu delta bv true true true t s) = false) /\
  objective N nx nu (c_RSQ s) (c_rq s) w' - objective N nx nu (c_RSQ s) (c_rq s) w <> objective N nx nu (c_RSQ f) (c_rq f) w' - objective N nx nu (c_RSQ f) (c_rq f) w.
Proof.
  exists x_eig, x_one, x_trsm, 1%nat, g_nx, (u_but_last 1), 1, zv, g_s, (g_w 0), (g_w 1).
  assert (GD : forall u, dynamic 1 g_nx (u_but_last 1) (c_BAbt g_s) zv (g_w u)).
  { intros u k j Hk Hj. assert (k = 0%nat) as -> by lia. cbn in Hj. destruct j as [|[|j]]; [| |lia]; unfold zv; cbn; lra. }
  split; [apply GD|]. split; [apply GD|]. split; [intros [|j] Hj; [reflexivity|cbn in Hj; lia]|]. cbv zeta. fold g_f.
  split. { intros t Ht. assert (t = 0%nat) as -> by lia. exact g_needs. }
  exact g_ne.
Qed.

(** preparation and feedback: the gradient kept for the recovery of the multipliers *)
Section Split.
Variable eig : nat -> matR -> matR * vecR.
Variable potrf : nat -> matR -> matR.
Variable trsm : nat -> nat -> matR -> matR -> matR.
Variable N : nat.
Variable nx nu : nat -> nat.
Variable delta : R.
Variable bv : nat -> vecR.
Local Notation n k := (nu k + nx k)%nat.
Local Notation lhs := (cvx_lhs (A := real) eig potrf trsm N nx nu delta bv).
Local Notation rhs := (cvx_rhs (A := real) eig potrf trsm N nx nu delta bv).
Lemma split_row s k j : (k < N)%nat -> (j < n k)%nat -> c_org (rhs (lhs s)) k (n k) j = c_RSQ s k (n k) j.
Proof.
  intros Hk Hj. unfold cvx_rhs. destruct (sweep_done eig potrf trsm N nx nu delta bv true false true k (restore (A := real) N nx nu (lhs s)) Hk) as (_ & E2 & _). rewrite E2.
  set (p := before eig potrf trsm N nx nu delta bv true false true k (restore (A := real) N nx nu (lhs s))).
  destruct (before_same eig potrf trsm N nx nu delta bv true false true k (restore (A := real) N nx nu (lhs s)) Hk) as (_ & S2 & _). fold p in S2.
  change (setk k (st_org (A := real) eig nx nu bv true false k p) (c_org p) k (n k) j = c_RSQ s k (n k) j). unfold setk. rewrite Nat.eqb_refl.
  assert (E : st_org (A := real) eig nx nu bv true false k p (n k) j = c_org p k (n k) j).
  { unfold st_org. destruct (needs _ _ _ _ _ _ _); [|reflexivity]. unfold gead at 1, inblk. bools; reflexivity. }
  rewrite E, S2. change (c_org (lhs s) k (n k) j = c_RSQ s k (n k) j). unfold cvx_lhs.
  destruct (sweep_done eig potrf trsm N nx nu delta bv false true false k s Hk) as (_ & E3 & _). rewrite E3.
  set (p' := before eig potrf trsm N nx nu delta bv false true false k s). destruct (before_same eig potrf trsm N nx nu delta bv false true false k s Hk) as (S1 & _). fold p' in S1. rewrite <- S1.
  change (setk k (st_org (A := real) eig nx nu bv false true k p') (c_org p') k (n k) j = c_RSQ p' k (n k) j). unfold setk. rewrite Nat.eqb_refl. apply org_row; [exact Hj|reflexivity].
Qed.
Section D.
Variable nbu nbx ng : nat -> nat.
Variable idxb : nat -> nat -> nat.
Variable DCt : nat -> matR.
Variable ux lam : nat -> vecR.
Variable tmp : vecR.
Variable pi0 : nat -> vecR.
Local Notation correct := (fun f => cvx_correct (A := real) N nx nu nbu nbx ng idxb DCt ux lam f tmp pi0).
Lemma split_rq s k j : (k < N)%nat -> (j < n k)%nat -> fst (correct (rhs (lhs s))) k j = c_RSQ s k (n k) j.
Proof. intros Hk Hj. cbv beta. rewrite final_rq by lia. apply split_row; assumption. Qed.
Lemma joint_rq s k j : (k <= N)%nat -> (j < n k)%nat -> fst (correct (cvx_regularize (A := real) eig potrf trsm N nx nu delta bv s)) k j = c_rq s k j.
Proof. intros Hk Hj. cbv beta. rewrite final_rq by lia. apply (chain_row eig potrf trsm N nx nu delta bv true s k j eq_refl Hk Hj). Qed.
(** the multipliers found in the feedback phase belong to the gradient left in RSQrq by earlier calls *)
Lemma split_stationary s k j : (0 < k)%nat -> (k < N)%nat -> (j < nx k)%nat ->
  let f := rhs (lhs s) in
  lagr N nx nu (c_org f) (fun k i => c_RSQ s k (n k) i) (c_BAbt f) (snd (correct f)) (ineq_grad (fun k => nbu k + nbx k)%nat ng idxb DCt lam) ux k (nu k + j) = 0.
Proof. intros H0 Hk Hj f. apply (dual_stationary N nx nu nbu nbx ng idxb DCt ux lam f tmp pi0 k j (fun k i => c_RSQ s k (n k) i)); try lia. intros i Hi. apply split_row; assumption. Qed.
End D.
End Split.

Definition h_s : cmem real := mkCM (A := real) (fun _ => mat2 1 0 0 1) zm (fun k => match k with S O => vec2 0 5 | _ => vec2 0 0 end) zm (fun _ _ => 0) (fun _ _ => 0).
Lemma split_refuted : exists eig potrf trsm N nx nu delta bv s nbu nbx ng idxb DCt ux lam tmp pi0,
  let correct := fun f => cvx_correct (A := real) N nx nu nbu nbx ng idxb DCt ux lam f tmp pi0 in
  let joint := correct (cvx_regularize (A := real) eig potrf trsm N nx nu delta bv s) in
  let split := correct (cvx_rhs (A := real) eig potrf trsm N nx nu delta bv (cvx_lhs (A := real) eig potrf trsm N nx nu delta bv s)) in
  snd joint 0%nat 0%nat = 5 /\ snd split 0%nat 0%nat = 0 /\ fst joint 1%nat 1%nat = 5 /\ fst split 1%nat 1%nat = 0.
Proof.
  exists x_eig, x_one, x_trsm, 2%nat, ones, (u_but_last 2), 1, zv, h_s, (fun _ => 0%nat), (fun _ => 0%nat), (fun _ => 0%nat), (fun _ _ => 0%nat), zm, zv, zv, (fun _ => 0), zv. cbv zeta.
  set (fj := cvx_regularize (A := real) x_eig x_one x_trsm 2 ones (u_but_last 2) 1 zv h_s).
  set (fl := cvx_lhs (A := real) x_eig x_one x_trsm 2 ones (u_but_last 2) 1 zv h_s). set (fs := cvx_rhs (A := real) x_eig x_one x_trsm 2 ones (u_but_last 2) 1 zv fl).
  assert (RJ : c_org fj 1 2%nat 1%nat = 5) by exact (chain_row x_eig x_one x_trsm 2 ones (u_but_last 2) 1 zv true h_s 1 1 eq_refl ltac:(lia) ltac:(unfold ones, u_but_last; cbn; lia)).
  assert (RS : c_org fs 1 2%nat 1%nat = 0) by exact (split_row x_eig x_one x_trsm 2 ones (u_but_last 2) 1 zv h_s 1 1 ltac:(lia) ltac:(unfold ones, u_but_last; cbn; lia)).
  assert (PV : forall g, (forall i j, (i < 2)%nat -> c_BAbt g 1 i j = 0) -> final_pi 2 ones (u_but_last 2) (fun _ => 0%nat) (fun _ => 0%nat) (fun _ => 0%nat) (fun _ _ => 0%nat) zm zv zv g (fun _ => 0) zv 0%nat 0%nat = c_org g 1 2%nat 1%nat).
  { intros g HG. pose proof (final_val 2 ones (u_but_last 2) (fun _ => 0%nat) (fun _ => 0%nat) (fun _ => 0%nat) (fun _ _ => 0%nat) zm zv zv g (fun _ => 0) zv 1 0 ltac:(lia) ltac:(lia) ltac:(unfold ones; lia)) as E.
    change (1 - 1)%nat with 0%nat in E. rewrite E. clear E. change (u_but_last 2 1) with 1%nat. change (ones 1) with 1%nat. change (ones (1 + 1)) with 1%nat. cbn [Nat.add sum Nat.ltb Nat.leb]. rewrite HG by lia. unfold ineq_grad, zm, zv. cbn [Nat.add sum]. ring. }
  assert (BJ : forall i j, (i < 2)%nat -> c_BAbt fj 1 i j = 0).
  { intros i j Hi. exact (chain_BA x_eig x_one x_trsm 2 ones (u_but_last 2) 1 zv true h_s 1 i j ltac:(lia) ltac:(unfold ones, u_but_last; cbn; lia)). }
  assert (BS : forall i j, (i < 2)%nat -> c_BAbt fs 1 i j = 0).
  { intros i j Hi. transitivity (c_BAbt fl 1 i j).
    - exact (chain_BA x_eig x_one x_trsm 2 ones (u_but_last 2) 1 zv false (restore (A := real) 2 ones (u_but_last 2) fl) 1 i j ltac:(lia) ltac:(unfold ones, u_but_last; cbn; lia)).
    - unfold fl, cvx_lhs. destruct (sweep_done x_eig x_one x_trsm 2 ones (u_but_last 2) 1 zv false true false 1 h_s ltac:(lia)) as (_ & _ & _ & E). refine (eq_trans (f_equal (fun g : matR => g i j) E) _).
      set (p := before x_eig x_one x_trsm 2 ones (u_but_last 2) 1 zv false true false 1 h_s).
      change (st_BAbt (A := real) ones (u_but_last 2) zv 1 p i j = 0). rewrite babt_in by (unfold ones, u_but_last; cbn; lia).
      destruct (before_same x_eig x_one x_trsm 2 ones (u_but_last 2) 1 zv false true false 1 h_s ltac:(lia)) as (_ & _ & _ & S4). fold p in S4. rewrite S4. reflexivity. }
  split; [|split; [|split]].
  - exact (eq_trans (PV fj BJ) RJ).
  - exact (eq_trans (PV fs BS) RS).
  - exact (joint_rq x_eig x_one x_trsm 2 ones (u_but_last 2) 1 zv (fun _ => 0%nat) (fun _ => 0%nat) (fun _ => 0%nat) (fun _ _ => 0%nat) zm zv zv (fun _ => 0) zv h_s 1 1 ltac:(lia) ltac:(unfold ones, u_but_last; cbn; lia)).
  - exact (split_rq x_eig x_one x_trsm 2 ones (u_but_last 2) 1 zv (fun _ => 0%nat) (fun _ => 0%nat) (fun _ => 0%nat) (fun _ _ => 0%nat) zm zv zv (fun _ => 0) zv h_s 1 1 ltac:(lia) ltac:(unfold ones, u_but_last; cbn; lia)).
Qed.
