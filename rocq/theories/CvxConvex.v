(** Convexity of the convexified stages. *)
From Coq Require Import ZArith List Bool Lia Reals Lra Psatz.
From Verif Require Import Arith Vec LinModel RSum InterpProofs RegModel RegProofs IrkModel DynProofs CvxModel CvxSpec CvxProofs CvxTop.
Open Scope R_scope.

Lemma rcst_pos e : 0 < ncst (a := real) 1 e.
Proof. change (0 < rcst 1 e). unfold rcst. destruct (Z.leb_spec 0 e).
  - apply IZR_lt. pose proof (Z.pow_pos_nonneg 10 e). lia.
  - apply Rmult_lt_0_compat; [lra|]. apply Rinv_0_lt_compat, IZR_lt. apply Z.pow_pos_nonneg; lia.
Qed.

Section P.
Variable eig : nat -> matR -> matR * vecR.
Variable potrf : nat -> matR -> matR.
Variable trsm : nat -> nat -> matR -> matR -> matR.
Variable N : nat.
Variable nx nu : nat -> nat.
Variable delta : R.
Variable bv : nat -> vecR.
Local Notation n k := (nu k + nx k)%nat.
Local Notation sweep := (sweep (A := real) eig potrf trsm N nx nu delta bv).
Hypothesis HP : potrf_ok potrf.
Hypothesis HT : trsm_ok trsm.
Hypothesis Hdel : 0 < delta.

Section One.
Variable ins : bool.
Variable k : nat.
Variable p : cmem real.
Let R2 := st_reg (A := real) eig nx nu bv ins k p.
Let L := lowpart (potrf (nu k) R2).
Let X := st_St (A := real) potrf trsm nx nu R2 k.
Let Y (i l : nat) : R := if (i <? nu k)%nat then L i l else X (i - nu k)%nat l.
Hypothesis PD : posdef (nu k) (lowsym R2).

Lemma out_fac i j : (i < n k)%nat -> (j <= i)%nat ->
  st_out (A := real) eig potrf trsm nx nu delta bv ins k p i j = sum (nu k) (fun l => Y i l * Y j l) + (if (nu k <=? j)%nat && (i =? j)%nat then delta else 0).
Proof.
  intros Hi Hj. destruct (HP (nu k) R2 PD) as (Dg & F). unfold st_out, syrk_ln_at, inblk, Y. fold R2. fold X.
  destruct (Nat.leb_spec (nu k) j) as [Lj|Lj].
  - bools; rewrite vsum_sum.
    + subst j. unfold delta_eye. rewrite Nat.eqb_refl. match goal with |- @eq _ (?a + ?b)%num _ => change (a + b = b + a) end. lra.
    + unfold delta_eye. destruct (Nat.eqb_spec (i - nu k) (j - nu k)); [lia|]. match goal with |- @eq _ (?a + ?b)%num _ => change (0 + b = b + 0) end. lra.
  - cbn [andb]. rewrite Rplus_0_r. destruct (Nat.ltb_spec j (nu k)) as [_|]; [|lia]. destruct (Nat.ltb_spec i (nu k)) as [Li|Li].
    + pose proof (F i j Li Lj) as E. fold L in E. bools; rewrite E; unfold lowsym; bools; reflexivity.
    + assert (E : sum (nu k) (fun l => X (i - nu k)%nat l * L j l) = sub (A := real) (nu k) 0 R2 (i - nu k) j).
      { unfold X, st_St, L. apply HT; try lia. intros a Ha E. specialize (Dg a Ha). rewrite E in Dg. lra. }
      rewrite E. unfold sub. bools; replace (nu k + (i - nu k))%nat with i by lia; reflexivity.
Qed.
Lemma out_quad (w : vecR) : quad (n k) (lowsym (st_out (A := real) eig potrf trsm nx nu delta bv ins k p)) w =
  sum (nu k) (fun l => sum (n k) (fun i => Y i l * w i) * sum (n k) (fun i => Y i l * w i)) + delta * sum (nx k) (fun j => w (nu k + j)%nat * w (nu k + j)%nat).
Proof.
  rewrite (quad_ext _ _ (fun i j => sum (nu k) (fun l => Y i l * Y j l) + (if (nu k <=? j)%nat && (i =? j)%nat then delta else 0))).
  2:{ intros i j Hi Hj. unfold lowsym. destruct (Nat.leb_spec j i); [apply out_fac; assumption|]. rewrite out_fac by lia. f_equal.
      - apply sum_ext. intros; ring.
      - bools; reflexivity. }
  rewrite (quad_plus (n k) (fun i j => sum (nu k) (fun l => Y i l * Y j l)) (fun i j => if (nu k <=? j)%nat && (i =? j)%nat then delta else 0)). f_equal.
  - rewrite quad_mv. rewrite (sum_ext (nu k) _ (fun l => sum (n k) (fun i => Y i l * w i * sum (n k) (fun j => Y j l * w j)))) by (intros; symmetry; apply sum_scal_r).
    rewrite <- sum_swap. apply sum_ext. intros i _.
    rewrite (sum_ext (n k) _ (fun j => sum (nu k) (fun l => Y i l * (Y j l * w j)))). 2:{ intros j _. rewrite <- sum_scal_r. apply sum_ext. intros; ring. }
    rewrite sum_swap, <- sum_scal. apply sum_ext. intros l _. rewrite sum_scal. ring.
  - unfold quad. rewrite sum_split, (sum_zero (nu k)).
    2:{ intros i Hi. apply sum_zero. intros j _. bools; ring. }
    rewrite Rplus_0_l, <- sum_scal. apply sum_ext. intros j Hj. rewrite (sum_one (n k) (nu k + j)).
    + rewrite Nat.eqb_refl. bools; ring.
    + lia.
    + intros a Ha NE. bools; try ring.
Qed.
Lemma out_posdef : posdef (n k) (lowsym (st_out (A := real) eig potrf trsm nx nu delta bv ins k p)).
Proof.
  intros w (i & Hi & Wi). rewrite out_quad.
  assert (N1 : 0 <= sum (nu k) (fun l => sum (n k) (fun i => Y i l * w i) * sum (n k) (fun i => Y i l * w i))) by (apply sum_nonneg; intros; apply Rle_0_sqr).
  assert (N2 : 0 <= sum (nx k) (fun j => w (nu k + j)%nat * w (nu k + j)%nat)) by (apply sum_nonneg; intros; apply Rle_0_sqr).
  destruct (Req_dec (sum (nx k) (fun j => w (nu k + j)%nat * w (nu k + j)%nat)) 0) as [Z|Z]; [|nra].
  pose proof (sum_sq_zero (nx k) (fun j => w (nu k + j)%nat) Z) as Zx. cbn beta in Zx.
  assert (Hu : (i < nu k)%nat). { destruct (le_lt_dec (nu k) i) as [Li|]; [|assumption]. exfalso. apply Wi. specialize (Zx (i - nu k)%nat ltac:(lia)). replace (nu k + (i - nu k))%nat with i in Zx by lia. exact Zx. }
  pose proof (PD w (ex_intro _ i (conj Hu Wi))) as P. pose proof (out_quad w) as E.
  assert (EQ : quad (n k) (lowsym (st_out (A := real) eig potrf trsm nx nu delta bv ins k p)) w = quad (nu k) (lowsym R2) w).
  { unfold quad. rewrite sum_split. rewrite (sum_zero (nx k)). 2:{ intros j Hj. apply sum_zero. intros a _. rewrite (Zx j Hj). ring. }
    rewrite Rplus_0_r. apply sum_ext. intros a Ha. rewrite sum_split. rewrite (sum_zero (nx k)). 2:{ intros j Hj. rewrite (Zx j Hj). ring. }
    rewrite Rplus_0_r. apply sum_ext. intros b Hb. do 2 f_equal. unfold lowsym, st_out, syrk_ln_at, inblk. fold R2. bools; reflexivity. }
  rewrite <- EQ, E in P. exact P.
Qed.
End One.

Hypothesis HE : eig_ok eig.
Lemma any_below_false m (d : vecR) : any_below (A := real) m d = false -> forall j, (j < m)%nat -> ncst (a := real) 1 (-10) <= d j.
Proof.
  induction m as [|m IH]; [lia|]. cbn [any_below loop]. unfold any_below in *. cbn [loop]. intros H j Hj.
  destruct (nltb (a := real) (d m) (ncst (a := real) 1 (-10))) eqn:E; [discriminate|]. destruct (Nat.eq_dec j m) as [->|]; [|apply IH; [exact H|lia]].
  change (Rltb (d m) (ncst (a := real) 1 (-10)) = false) in E. destruct (Rltb_spec (d m) (ncst (a := real) 1 (-10))); [discriminate|]. lra.
Qed.
Lemma reg_posdef ins k p : (nu k <= 1)%nat \/ needs (A := real) eig nx nu bv ins k p = true -> posdef (nu k) (lowsym (st_reg (A := real) eig nx nu bv ins k p)).
Proof.
  intros H. unfold st_reg. destruct (needs (A := real) eig nx nu bv ins k p) eqn:E.
  - intros v (i & Hi & Vi). set (M := fun i j => st_upd (A := real) nx nu bv ins k p j i). pose proof (HE (n k) M) as S1. destruct (eig (n k) M) as [V d] eqn:EV. cbn [fst snd] in S1.
    set (w := fun i => if (i <? nu k)%nat then v i else 0).
    pose proof (quad_lower (n k) (lowsym M) V d (ncst (a := real) 1 (-4)) w S1 (fun a => project_eig (A := real) (ncst (a := real) 1 (-4)) (d a))) as Q.
    assert (Q' : ncst (a := real) 1 (-4) * nrm2 (n k) w <= quad (n k) (reconstruct (A := real) (n k) V (fun a => project_eig (A := real) (ncst (a := real) 1 (-4)) (d a))) w).
    { apply Q. intros a _. rewrite project_eig_spec. apply Rmax_r. }
    assert (P : 0 < nrm2 (n k) w).
    { assert (0 <= nrm2 (n k) w) by (apply sum_nonneg; intros; apply Rle_0_sqr). destruct (Req_dec (nrm2 (n k) w) 0) as [Z|]; [|lra].
      pose proof (sum_sq_zero (n k) w Z i ltac:(lia)) as Z'. unfold w in Z'. destruct (Nat.ltb_spec i (nu k)); [contradiction|lia]. }
    assert (EQ : quad (nu k) (lowsym (dense (A := real) (n k) (acados_project (A := real) eig (n k) (ncst (a := real) 1 (-4))) (st_upd (A := real) nx nu bv ins k p))) v =
                 quad (n k) (reconstruct (A := real) (n k) V (fun a => project_eig (A := real) (ncst (a := real) 1 (-4)) (d a))) w).
    { unfold quad. rewrite (sum_split (nu k) (nx k)). rewrite (sum_zero (nx k)). 2:{ intros j Hj. apply sum_zero. intros a _. unfold w. destruct (Nat.ltb_spec (nu k + j) (nu k)); [lia|]. ring. }
      rewrite Rplus_0_r. apply sum_ext. intros a Ha. rewrite sum_split, (sum_zero (nx k)). 2:{ intros j Hj. unfold w. destruct (Nat.ltb_spec (nu k + j) (nu k)); [lia|]. ring. }
      rewrite Rplus_0_r. apply sum_ext. intros b Hb. unfold w. destruct (Nat.ltb_spec a (nu k)); [|lia]. destruct (Nat.ltb_spec b (nu k)); [|lia]. do 2 f_equal.
      assert (D : forall a b, (a < nu k)%nat -> (b < nu k)%nat -> dense (A := real) (n k) (acados_project (A := real) eig (n k) (ncst (a := real) 1 (-4))) (st_upd (A := real) nx nu bv ins k p) a b =
         reconstruct (A := real) (n k) V (fun a => project_eig (A := real) (ncst (a := real) 1 (-4)) (d a)) b a).
      { intros a' b' Ha' Hb'. unfold dense, acados_project. fold M. rewrite EV. bools. reflexivity. }
      unfold lowsym. bools; rewrite D by assumption; [apply (recon_sym (n k)); lia|reflexivity]. }
    rewrite EQ. pose proof (rcst_pos (-4)). nra.
  - destruct H as [H|H]; [|discriminate]. intros v (i & Hi & Vi). assert (U : nu k = 1%nat) by lia. assert (i = 0%nat) as -> by lia. unfold needs in E.
    pose proof (any_below_false _ _ E 0%nat ltac:(lia)) as B. set (M := fun i j => st_upd (A := real) nx nu bv ins k p j i) in B.
    destruct (HE (nu k) M) as (O & EV). rewrite U in *. specialize (O 0%nat 0%nat ltac:(lia) ltac:(lia)). specialize (EV 0%nat 0%nat ltac:(lia) ltac:(lia)). cbn in O, EV.
    unfold lowsym in EV. cbn in EV. unfold quad. cbn [sum]. unfold lowsym. cbn [Nat.leb]. pose proof (rcst_pos (-10)) as PC.
    set (d0 := snd (eig 1%nat M) 0%nat) in *. set (V0 := fst (eig 1%nat M) 0%nat 0%nat) in *. change (M 0%nat 0%nat) with (st_upd (A := real) nx nu bv ins k p 0%nat 0%nat) in EV.
    set (x := st_upd (A := real) nx nu bv ins k p 0%nat 0%nat) in *. set (c := ncst (a := real) 1 (-10)) in *. change (@eq R (0 + x * V0) (d0 * V0)) in EV.
    assert (V0 <> 0) by (intros Z; rewrite Z in O; lra). assert (XD : x = d0) by (apply (Rmult_eq_reg_r V0); [lra|assumption]).
    assert (0 < v 0%nat * v 0%nat) by (apply Rsqr_pos_lt; exact Vi). change (0 < 0 + (0 + v 0%nat * x * v 0%nat)). replace (0 + (0 + v 0%nat * x * v 0%nat)) with (x * (v 0%nat * v 0%nat)) by (change (x * (v 0%nat * v 0%nat) = 0 + (0 + v 0%nat * x * v 0%nat)); ring).
    apply Rmult_lt_0_compat; [|assumption]. rewrite XD. exact (Rlt_le_trans _ _ _ PC B).
Qed.
(** every stage but the last *)
Lemma sweep_posdef ins bak ext s k : (k < N)%nat -> (nu k <= 1)%nat \/ needs (A := real) eig nx nu bv ins k (sweep ins bak ext (N - 1 - k) s) = true ->
  posdef (n k) (lowsym (c_RSQ (sweep ins bak ext N s) k)).
Proof.
  intros Hk H. destruct (sweep_done eig potrf trsm N nx nu delta bv ins bak ext k s Hk) as (E & _). rewrite E.
  change (posdef (n k) (lowsym (setk k (st_out (A := real) eig potrf trsm nx nu delta bv ins k (before eig potrf trsm N nx nu delta bv ins bak ext k s)) (c_RSQ (before eig potrf trsm N nx nu delta bv ins bak ext k s)) k))).
  unfold setk. rewrite Nat.eqb_refl. apply out_posdef, reg_posdef, H.
Qed.
Lemma sweep_posdef_last ins bak ext s : nu N = 0%nat -> posdef (n N) (lowsym (c_RSQ (sweep ins bak ext N s) N)).
Proof.
  intros H. destruct (sweep_last eig potrf trsm N nx nu delta bv ins bak ext s) as (E & _). rewrite E. intros w (i & Hi & Wi).
  assert (EQ : quad (n N) (lowsym (c_RSQ (last_stage (A := real) N nx nu delta ins s) N)) w = delta * nrm2 (n N) w).
  { unfold quad, nrm2. rewrite <- sum_scal. apply sum_ext. intros a Ha. rewrite (sum_one (n N) a); [| exact Ha |].
    - unfold last_stage. cbn [c_RSQ]. unfold setk, lowsym. rewrite Nat.eqb_refl, Nat.leb_refl. unfold gecp, inblk, delta_eye. bools; ring.
    - intros b Hb NE. unfold last_stage. cbn [c_RSQ]. unfold setk, lowsym. rewrite Nat.eqb_refl. unfold gecp, inblk, delta_eye. bools; match goal with |- _ * ?z * _ = 0 => change z with 0 end; ring. }
  rewrite EQ. assert (0 <= nrm2 (n N) w) by (apply sum_nonneg; intros; apply Rle_0_sqr). destruct (Req_dec (nrm2 (n N) w) 0) as [Z|]; [|nra].
  exfalso. apply Wi. exact (sum_sq_zero (n N) w Z i Hi).
Qed.
End P.
