(** The terminal Hessian kept for the multipliers in the split real-time iteration. *)
From Coq Require Import ZArith List Bool Reals Lia Lra.
From Verif Require Import Arith Vec LinModel RSum IrkModel RegModel CvxModel CvxSpec CvxProofs CvxCases.
Open Scope R_scope.
Lemma restore_all N nx nu (s : cmem real) k i j : (k <= N)%nat -> (i < nu k + nx k + 1)%nat -> (j < nu k + nx k)%nat -> c_RSQ (restore (A := real) N nx nu s) k i j = c_org s k i j.
Proof.
  intros Hk Hi Hj. unfold restore. cbn [c_RSQ].
  assert (L : forall m R, (k < m)%nat -> loop m (fun k R => setk k (@gecp real (nu k + nx k + 1) (nu k + nx k) (c_org s k) (R k) 0 0) R) R k i j = c_org s k i j).
  { induction m as [|m IH]; intros R Hm; [lia|]. cbn [loop]. unfold setk at 1. destruct (Nat.eqb_spec k m) as [<-|]; [|apply IH; lia].
    unfold gecp, inblk. destruct (Nat.leb_spec 0 i), (Nat.ltb_spec i (0 + (nu k + nx k + 1))), (Nat.leb_spec 0 j), (Nat.ltb_spec j (0 + (nu k + nx k))); try lia. cbn [andb]. rewrite !Nat.sub_0_r. reflexivity. }
  apply L. lia.
Qed.
Lemma split_terminal eig potrf trsm N nx nu delta bv (s : cmem real) i j : (i < nu N + nx N)%nat -> (j < nu N + nx N)%nat ->
  c_org (cvx_rhs (A := real) eig potrf trsm N nx nu delta bv (cvx_lhs (A := real) eig potrf trsm N nx nu delta bv s)) N i j = c_RSQ s N i j.
Proof.
  intros Hi Hj. set (z := cvx_lhs (A := real) eig potrf trsm N nx nu delta bv s).
  unfold cvx_rhs. destruct (sweep_last eig potrf trsm N nx nu delta bv true false true (restore (A := real) N nx nu z)) as (_ & E & _). rewrite E.
  unfold last_stage. cbv zeta. cbn [c_org]. unfold setk at 1. rewrite Nat.eqb_refl. unfold gecp at 1, inblk.
  destruct (Nat.leb_spec 0 i), (Nat.ltb_spec i (0 + (nu N + nx N + 1))), (Nat.leb_spec 0 j), (Nat.ltb_spec j (0 + (nu N + nx N))); try lia. cbn [andb]. rewrite !Nat.sub_0_r.
  unfold rowin. destruct (Nat.eqb_spec i (nu N + nx N)); [lia|]. cbn [andb]. rewrite restore_all by lia.
  unfold z, cvx_lhs. destruct (sweep_last eig potrf trsm N nx nu delta bv false true false s) as (_ & E' & _). rewrite E'.
  unfold last_stage. cbv zeta. cbn [c_org]. unfold setk at 1. rewrite Nat.eqb_refl. unfold gecp at 1, inblk.
  destruct (Nat.leb_spec 0 i), (Nat.ltb_spec i (0 + (nu N + nx N + 1))), (Nat.leb_spec 0 j), (Nat.ltb_spec j (0 + (nu N + nx N))); try lia. cbn [andb]. rewrite !Nat.sub_0_r. reflexivity.
Qed.
