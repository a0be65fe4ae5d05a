(** Entries of the convexified matrices. *)
From Coq Require Import ZArith List Bool Lia Reals Lra.
From Verif Require Import Arith Vec LinModel RSum InterpProofs RegModel RegProofs IrkModel DynProofs CvxModel CvxSpec.
Open Scope R_scope.

Ltac bools := repeat match goal with
  | |- context [(?a <? ?b)%nat] => destruct (Nat.ltb_spec a b)
  | |- context [(?a <=? ?b)%nat] => destruct (Nat.leb_spec a b)
  | |- context [(?a =? ?b)%nat] => destruct (Nat.eqb_spec a b) end; cbn [andb]; try lia.

Section P.
Variable eig : nat -> matR -> matR * vecR.
Variable potrf : nat -> matR -> matR.
Variable trsm : nat -> nat -> matR -> matR -> matR.
Variable N : nat.
Variable nx nu : nat -> nat.
Variable delta : R.
Variable bv : nat -> vecR.
Local Notation n k := (nu k + nx k)%nat.
Local Notation stage := (stage (A := real) eig potrf trsm nx nu delta bv).
Local Notation sweep := (sweep (A := real) eig potrf trsm N nx nu delta bv).
Local Notation last_stage := (last_stage (A := real) N nx nu delta).

Definition blk (o : nat) (q : matR) : matR := fun i j => if (o <=? i)%nat && (o <=? j)%nat then q (i - o)%nat (j - o)%nat else 0.
Definition GG (m : nat) (BA q : matR) : matR := fun i j => sum m (fun a => sum m (fun b => BA i a * q a b * BA j b)).

Lemma GG_sym m BA q : sym m q -> forall i j, GG m BA q i j = GG m BA q j i.
Proof.
  intros Hs i j. unfold GG. rewrite sum_swap. apply sum_ext. intros a Ha. apply sum_ext. intros b Hb. rewrite (Hs b a) by assumption. lra.
Qed.

Section OneStage.
Variables ins bak ext : bool.
Variable k : nat.
Variable s : cmem real.
Hypothesis ND : (nx (k + 1) <= nx k)%nat.
Hypothesis SY : sym (nx (k + 1)) (c_Qbar s).
Let q : matR := c_Qbar s.
Let BA : matR := c_BAbt s k.
Local Notation m := (nx (k + 1)%nat).

Lemma babt_in i l : (i < n k)%nat -> st_BAbt (A := real) nx nu bv k s i l = BA i l.
Proof. clear ND SY. intros. unfold st_BAbt, rowin. bools; reflexivity. Qed.
Lemma babt_row l : (l < m)%nat -> st_BAbt (A := real) nx nu bv k s (n k) l = bv k l.
Proof. clear ND SY. intros. unfold st_BAbt, rowin. bools; reflexivity. Qed.
Lemma in_in i j : (i < n k)%nat -> st_in (A := real) nx nu ins k s i j = c_RSQ s k i j.
Proof. clear ND SY. intros. unfold st_in. destruct ins; [|reflexivity]. unfold rowin. bools; reflexivity. Qed.
Lemma in_row j : (j < n k)%nat -> st_in (A := real) nx nu ins k s (n k) j = if ins then c_rq s k j else c_RSQ s k (n k) j.
Proof. clear ND SY. intros. unfold st_in. destruct ins; [|reflexivity]. unfold rowin. bools; reflexivity. Qed.
Lemma baq_in i j : (i < n k)%nat -> (j < m)%nat -> st_BAQ (A := real) nx nu bv k s i j = sum m (fun l => BA i l * q j l).
Proof. clear SY.
  intros. unfold st_BAQ, gemm_nt. assert ((j < nx k)%nat) by lia. bools. rewrite vsum_sum. apply sum_ext. intros l Hl.
  rewrite babt_in by assumption. reflexivity.
Qed.
Lemma upd_low i j : (i < n k)%nat -> (j <= i)%nat -> st_upd (A := real) nx nu bv ins k s i j = c_RSQ s k i j + GG m BA q i j.
Proof. clear SY.
  intros. unfold st_upd, syrk_ln_mn. bools. rewrite vsum_sum, in_in by assumption.
  change (c_RSQ s k i j + sum m (fun l => st_BAbt (A := real) nx nu bv k s i l * st_BAQ (A := real) nx nu bv k s j l) = c_RSQ s k i j + GG m BA q i j). f_equal. unfold GG.
  apply sum_ext. intros a Ha. rewrite babt_in, baq_in by (assumption || lia). rewrite <- sum_scal. apply sum_ext. intros b Hb.
  unfold q. ring.
Qed.
Lemma upd_up i j : (i < j)%nat -> (j < n k)%nat -> st_upd (A := real) nx nu bv ins k s i j = c_RSQ s k i j.
Proof. clear ND SY. intros. unfold st_upd, syrk_ln_mn. bools. apply in_in; lia. Qed.
Lemma upd_row j : (j < n k)%nat ->
  st_upd (A := real) nx nu bv ins k s (n k) j = (if ins then c_rq s k j else c_RSQ s k (n k) j) + sum m (fun a => sum m (fun b => bv k a * q a b * BA j b)).
Proof. clear SY.
  intros. unfold st_upd, syrk_ln_mn. bools. rewrite vsum_sum, in_row by assumption.
  change ((if ins then c_rq s k j else c_RSQ s k (n k) j) + sum m (fun l => st_BAbt (A := real) nx nu bv k s (n k) l * st_BAQ (A := real) nx nu bv k s j l) =
          (if ins then c_rq s k j else c_RSQ s k (n k) j) + sum m (fun a => sum m (fun b => bv k a * q a b * BA j b))). f_equal.
  apply sum_ext. intros a Ha. rewrite babt_row, baq_in by assumption. rewrite <- sum_scal. apply sum_ext. intros b Hb. ring.
Qed.
Lemma org_in i j : (i < n k)%nat -> (j < n k)%nat -> (bak = true \/ forall i j, (i < n k)%nat -> (j < n k)%nat -> c_org s k i j = c_RSQ s k i j) ->
  st_org (A := real) eig nx nu bv ins bak k s i j + st_upd (A := real) nx nu bv ins k s i j = c_RSQ s k i j + st_reg (A := real) eig nx nu bv ins k s i j.
Proof. clear ND SY.
  intros Hi Hj HB. unfold st_org.
  assert (O : (if bak then gecp (A := real) (n k + 1) (n k) (st_in (A := real) nx nu ins k s) (c_org s k) 0 0 else c_org s k) i j = c_RSQ s k i j).
  { destruct HB as [->|HB].
    - unfold gecp, inblk. bools. rewrite !Nat.sub_0_r. apply in_in. exact Hi.
    - destruct bak; [|apply HB; assumption]. unfold gecp, inblk. bools. rewrite !Nat.sub_0_r. apply in_in. exact Hi. }
  destruct (needs (A := real) eig nx nu bv ins k s) eqn:E.
  - unfold gead at 1, inblk. bools. rewrite !Nat.sub_0_r, O. unfold gead, inblk. bools. rewrite !Nat.sub_0_r.
    change (c_RSQ s k i j + - (1) * (st_upd (A := real) nx nu bv ins k s i j + - (1) * st_reg (A := real) eig nx nu bv ins k s i j) + st_upd (A := real) nx nu bv ins k s i j = c_RSQ s k i j + st_reg (A := real) eig nx nu bv ins k s i j). lra.
  - rewrite O. unfold st_reg. rewrite E. reflexivity.
Qed.
Lemma org_low i j : (i < n k)%nat -> (j < n k)%nat -> (bak = true \/ forall i j, (i < n k)%nat -> (j < n k)%nat -> c_org s k i j = c_RSQ s k i j) ->
  lowsym (st_org (A := real) eig nx nu bv ins bak k s) i j + GG m BA q i j = lowsym (st_reg (A := real) eig nx nu bv ins k s) i j.
Proof.
  intros Hi Hj HB. unfold lowsym. destruct (Nat.leb_spec j i).
  - pose proof (org_in i j Hi Hj HB) as E. rewrite upd_low in E by assumption. lra.
  - pose proof (org_in j i Hj Hi HB) as E. rewrite upd_low in E by (assumption || lia). rewrite (GG_sym m BA q SY i j). lra.
Qed.
Lemma org_row j : (j < n k)%nat -> bak = true -> st_org (A := real) eig nx nu bv ins bak k s (n k) j = if ins then c_rq s k j else c_RSQ s k (n k) j.
Proof. clear ND SY.
  intros Hj ->. unfold st_org.
  assert (E : gecp (A := real) (n k + 1) (n k) (st_in (A := real) nx nu ins k s) (c_org s k) 0 0 (n k) j = if ins then c_rq s k j else c_RSQ s k (n k) j).
  { unfold gecp, inblk. bools. rewrite !Nat.sub_0_r. apply in_row. exact Hj. }
  destruct (needs _ _ _ _ _ _ _); [|exact E]. unfold gead at 1, inblk. bools. exact E.
Qed.
Lemma qbar_stage : sym (nx k) (c_Qbar (stage ins bak ext k s)) /\
  forall i j, (j <= i)%nat -> (i < nx k)%nat ->
    c_Qbar (stage ins bak ext k s) i j = st_reg (A := real) eig nx nu bv ins k s (nu k + i)%nat (nu k + j)%nat - st_out (A := real) eig potrf trsm nx nu delta bv ins k s (nu k + i)%nat (nu k + j)%nat.
Proof. clear ND SY.
  split.
  - intros i j Hi Hj. unfold CvxModel.stage. cbn [c_Qbar]. unfold symmetrise. bools; try reflexivity. replace j with i by lia. reflexivity.
  - intros i j Hj Hi. unfold CvxModel.stage. cbn [c_Qbar]. unfold symmetrise. bools. unfold gead, gecp, inblk. bools. rewrite !Nat.sub_0_r. unfold sub.
    match goal with |- @eq _ ?a ?b => change (@eq R a b) end. 
    change (st_reg (A := real) eig nx nu bv ins k s (nu k + i)%nat (nu k + j)%nat + - (1) * st_out (A := real) eig potrf trsm nx nu delta bv ins k s (nu k + i)%nat (nu k + j)%nat = st_reg (A := real) eig nx nu bv ins k s (nu k + i)%nat (nu k + j)%nat - st_out (A := real) eig potrf trsm nx nu delta bv ins k s (nu k + i)%nat (nu k + j)%nat). lra.
Qed.
Lemma out_low i j : (i < n k)%nat -> (j < n k)%nat ->
  lowsym (st_out (A := real) eig potrf trsm nx nu delta bv ins k s) i j + blk (nu k) (c_Qbar (stage ins bak ext k s)) i j = lowsym (st_reg (A := real) eig nx nu bv ins k s) i j.
Proof. clear ND SY.
  intros Hi Hj. destruct qbar_stage as (Sq & Eq).
  assert (K : forall i j, (j <= i)%nat -> (i < n k)%nat -> st_out (A := real) eig potrf trsm nx nu delta bv ins k s i j + blk (nu k) (c_Qbar (stage ins bak ext k s)) i j = st_reg (A := real) eig nx nu bv ins k s i j).
  { clear i j Hi Hj. intros i j Hj Hi. unfold blk. destruct (Nat.leb_spec (nu k) j).
    - bools. rewrite Eq by lia. replace (nu k + (i - nu k))%nat with i by lia. replace (nu k + (j - nu k))%nat with j by lia. lra.
    - assert (E : st_out (A := real) eig potrf trsm nx nu delta bv ins k s i j = st_reg (A := real) eig nx nu bv ins k s i j) by (unfold st_out, syrk_ln_at, inblk; bools; reflexivity).
      rewrite E. bools; lra. }
  unfold lowsym. destruct (Nat.leb_spec j i); [apply K; assumption|].
  rewrite <- (K j i) by lia. f_equal. unfold blk. bools; try reflexivity. apply Sq; lia.
Qed.
End OneStage.

(** components that a sweep has not reached yet, or has left behind *)
Definition same (s s' : cmem real) (k : nat) : Prop := c_RSQ s k = c_RSQ s' k /\ c_org s k = c_org s' k /\ c_rq s k = c_rq s' k /\ c_BAbt s k = c_BAbt s' k.
Lemma same_refl s k : same s s k. Proof. repeat split. Qed.
Lemma same_trans s1 s2 s3 k : same s1 s2 k -> same s2 s3 k -> same s1 s3 k.
Proof. intros (A1 & A2 & A3 & A4) (B1 & B2 & B3 & B4). repeat split; etransitivity; eassumption. Qed.
Lemma same_stage ins bak ext k s i : i <> k -> same (stage ins bak ext k s) s i.
Proof. intros Hi. unfold same, CvxModel.stage. cbn. unfold setk. destruct (Nat.eqb_spec i k); [contradiction|]. repeat split; destruct ext; try reflexivity. destruct (Nat.eqb_spec i k); [contradiction|reflexivity]. Qed.
Lemma same_last ins s i : i <> N -> same (last_stage ins s) s i.
Proof. intros Hi. unfold same, CvxModel.last_stage. cbn. unfold setk. destruct (Nat.eqb_spec i N); [contradiction|]. repeat split. Qed.
Lemma sweep_S ins bak ext t s : sweep ins bak ext (S t) s = stage ins bak ext (N - 1 - t) (sweep ins bak ext t s).
Proof. reflexivity. Qed.
Lemma sweep_keep ins bak ext t d s i : (t + d <= N)%nat -> (i < N - (t + d) \/ N - t <= i)%nat -> same (sweep ins bak ext (t + d) s) (sweep ins bak ext t s) i.
Proof.
  induction d as [|d IH]; intros Ht Hi. { rewrite Nat.add_0_r. apply same_refl. }
  rewrite Nat.add_succ_r, sweep_S. eapply same_trans; [apply same_stage; lia|apply IH; lia].
Qed.
Lemma sweep_todo ins bak ext t s i : (t <= N)%nat -> (i < N - t)%nat -> same (sweep ins bak ext t s) s i.
Proof.
  intros Ht Hi. eapply same_trans; [exact (sweep_keep ins bak ext 0 t s i Ht (or_introl Hi))|]. apply same_last. lia.
Qed.
(** the state in which stage k is treated, and the result of the sweep there *)
Definition before ins bak ext k s := sweep ins bak ext (N - 1 - k) s.
Lemma before_same ins bak ext k s : (k < N)%nat -> same (before ins bak ext k s) s k.
Proof. intros. apply sweep_todo; lia. Qed.
Lemma sweep_at ins bak ext k s : (k < N)%nat -> sweep ins bak ext (N - k) s = stage ins bak ext k (before ins bak ext k s).
Proof. intros. unfold before. replace (N - k)%nat with (S (N - 1 - k)) by lia. rewrite sweep_S. f_equal. lia. Qed.
Lemma sweep_done ins bak ext k s : (k < N)%nat -> same (sweep ins bak ext N s) (stage ins bak ext k (before ins bak ext k s)) k.
Proof.
  intros. rewrite <- sweep_at by assumption. pose proof (sweep_keep ins bak ext (N - k) k s k) as E. rewrite (Nat.sub_add k N) in E by lia. apply E; lia.
Qed.
Lemma sweep_last ins bak ext s : same (sweep ins bak ext N s) (last_stage ins s) N.
Proof. exact (sweep_keep ins bak ext 0 N s N (le_n N) (or_intror (Nat.le_sub_l N 0))). Qed.

Section Chain.
Variables bak : bool.
Variable s : cmem real.
Hypothesis ND : forall k, (k < N)%nat -> (nx (k + 1) <= nx k)%nat.
Hypothesis HB : bak = true \/ forall k i j, (k < N)%nat -> (i < n k)%nat -> (j < n k)%nat -> c_org s k i j = c_RSQ s k i j.
Let f := sweep true bak true N s.
(** the matrix carried from stage k to stage k - 1 *)
Definition QB (k : nat) : matR := c_Qbar (sweep true bak true (N - k) s).
Lemma qb_sym k : (k <= N)%nat -> sym (nx k) (QB k).
Proof.
  intros Hk. unfold QB. destruct (Nat.eq_dec k N) as [->|].
  - rewrite Nat.sub_diag. intros i j Hi Hj. unfold CvxModel.sweep, loop, CvxModel.last_stage. cbn [c_Qbar]. unfold symmetrise. bools; try reflexivity. replace j with i by lia. reflexivity.
  - rewrite sweep_at by lia. apply qbar_stage.
Qed.
Lemma qb_before k : (k < N)%nat -> c_Qbar (before true bak true k s) = QB (k + 1).
Proof. intros. unfold before, QB. do 2 f_equal. lia. Qed.
Lemma chain_H k i j : (k < N)%nat -> (i < n k)%nat -> (j < n k)%nat ->
  lowsym (c_RSQ f k) i j + blk (nu k) (QB k) i j = lowsym (c_org f k) i j + GG (nx (k + 1)) (c_BAbt s k) (QB (k + 1)) i j.
Proof.
  intros Hk Hi Hj. destruct (sweep_done true bak true k s Hk) as (E1 & E2 & _). fold f in E1, E2. rewrite E1, E2. unfold QB at 1. rewrite sweep_at by exact Hk.
  set (p := before true bak true k s). destruct (before_same true bak true k s Hk) as (S1 & S2 & S3 & S4). fold p in S1, S2, S3, S4.
  change (c_RSQ (stage true bak true k p) k) with (setk k (st_out (A := real) eig potrf trsm nx nu delta bv true k p) (c_RSQ p) k).
  change (c_org (stage true bak true k p) k) with (setk k (st_org (A := real) eig nx nu bv true bak k p) (c_org p) k).
  unfold setk. rewrite Nat.eqb_refl. rewrite out_low by assumption. rewrite <- S4, <- (qb_before k Hk). fold p. symmetry. apply org_low; try assumption.
  - apply ND, Hk.
  - unfold p. rewrite qb_before by exact Hk. apply qb_sym. lia.
  - destruct HB as [HB'|HB']; [left; exact HB'|right]. intros a b Ha Hb. rewrite S1, S2. apply HB'; assumption.
Qed.
Lemma chain_r k j : (k < N)%nat -> (j < n k)%nat ->
  c_rq f k j = c_rq s k j + sum (nx (k + 1)) (fun a => sum (nx (k + 1)) (fun b => bv k a * QB (k + 1) a b * c_BAbt s k j b)).
Proof.
  intros Hk Hj. destruct (sweep_done true bak true k s Hk) as (_ & _ & E3 & _). fold f in E3. rewrite E3.
  set (p := before true bak true k s). destruct (before_same true bak true k s Hk) as (S1 & S2 & S3 & S4). fold p in S1, S2, S3, S4.
  change (c_rq (stage true bak true k p) k) with (setk k (rowex (n k) (st_upd (A := real) nx nu bv true k p) (n k) (c_rq p k)) (c_rq p) k).
  unfold setk. rewrite Nat.eqb_refl. unfold rowex. bools. rewrite upd_row by (apply ND, Hk || assumption). rewrite <- S3, <- S4, <- (qb_before k Hk). reflexivity.
Qed.
Lemma chain_HN i j : (i < n N)%nat -> (j < n N)%nat -> lowsym (c_RSQ f N) i j + blk (nu N) (QB N) i j = lowsym (c_org f N) i j.
Proof.
  intros Hi Hj. destruct (sweep_last true bak true s) as (E1 & E2 & _). fold f in E1, E2. rewrite E1, E2.
  pose proof (qb_sym N (le_n N)) as Sq. unfold QB in *. rewrite Nat.sub_diag in *. change (sweep true bak true 0 s) with (last_stage true s) in *.
  assert (K : forall i j, (j <= i)%nat -> (i < n N)%nat -> c_RSQ (last_stage true s) N i j + blk (nu N) (c_Qbar (last_stage true s)) i j = c_org (last_stage true s) N i j).
  { clear i j Hi Hj. intros i j Hj Hi. unfold CvxModel.last_stage. cbn [c_RSQ c_org c_Qbar]. unfold setk. rewrite Nat.eqb_refl.
    set (M := if true then rowin (A := real) (n N) (c_rq s N) (n N) (c_RSQ s N) else c_RSQ s N).
    assert (EO : gecp (A := real) (n N + 1) (n N) M (c_org s N) 0 0 i j = M i j) by (unfold gecp, inblk; bools; rewrite !Nat.sub_0_r; reflexivity).
    rewrite EO. clear EO. clearbody M. unfold blk.
    destruct (Nat.leb_spec (nu N) j) as [Lj|Lj].
    - destruct (Nat.leb_spec (nu N) i) as [Li|Li]; [|lia]. cbn [andb].
      assert (EG : gecp (A := real) (nx N) (nx N) (delta_eye (A := real) delta) M (nu N) (nu N) i j = delta_eye (A := real) delta (i - nu N) (j - nu N)) by (unfold gecp, inblk; bools; reflexivity).
      rewrite EG. clear EG. generalize (delta_eye (A := real) delta). intros D.
      unfold symmetrise. destruct (Nat.ltb_spec (i - nu N) (j - nu N)); [lia|]. cbn [andb].
      unfold gead, inblk. bools. unfold gecp, inblk. bools. unfold sub. rewrite !Nat.sub_0_r. replace (nu N + (i - nu N))%nat with i by lia. replace (nu N + (j - nu N))%nat with j by lia.
      generalize (M i j) (D (i - nu N)%nat (j - nu N)%nat). intros a b. change (b + (a + - (1) * b) = a). lra.
    - assert (EG : gecp (A := real) (nx N) (nx N) (delta_eye (A := real) delta) M (nu N) (nu N) i j = M i j) by (unfold gecp, inblk; bools; reflexivity).
      rewrite EG, andb_false_r. apply Rplus_0_r. }
  unfold lowsym. destruct (Nat.leb_spec j i); [apply K; assumption|]. rewrite <- (K j i) by lia. f_equal. unfold blk. bools; try reflexivity. apply Sq; lia.
Qed.
Lemma chain_rN j : c_rq f N j = c_rq s N j.
Proof. destruct (sweep_last true bak true s) as (_ & _ & E3 & _). fold f in E3. rewrite E3. reflexivity. Qed.
Lemma chain_BA k i j : (k < N)%nat -> (i < n k)%nat -> c_BAbt f k i j = c_BAbt s k i j.
Proof.
  intros Hk Hi. destruct (sweep_done true bak true k s Hk) as (_ & _ & _ & E4). fold f in E4. rewrite E4. destruct (before_same true bak true k s Hk) as (_ & _ & _ & S4). rewrite <- S4.
  change (setk k (st_BAbt (A := real) nx nu bv k (before true bak true k s)) (c_BAbt (before true bak true k s)) k i j = c_BAbt (before true bak true k s) k i j).
  unfold setk. rewrite Nat.eqb_refl. apply babt_in; assumption.
Qed.
(** the gradient kept next to the original Hessian *)
Lemma chain_row k j : bak = true -> (k <= N)%nat -> (j < n k)%nat -> c_org f k (n k) j = c_rq s k j.
Proof.
  intros Hb Hk Hj. destruct (Nat.eq_dec k N) as [->|NE].
  - destruct (sweep_last true bak true s) as (_ & E2 & _). fold f in E2. rewrite E2. unfold CvxModel.last_stage. cbn [c_org]. unfold setk. rewrite Nat.eqb_refl.
    unfold gecp, rowin, inblk. bools; rewrite ?Nat.sub_0_r in *; try lia; reflexivity.
  - assert (k < N)%nat as Hk' by lia. destruct (sweep_done true bak true k s Hk') as (_ & E2 & _). fold f in E2. rewrite E2.
    destruct (before_same true bak true k s Hk') as (_ & _ & S3 & _). rewrite <- S3.
    change (setk k (st_org (A := real) eig nx nu bv true bak k (before true bak true k s)) (c_org (before true bak true k s)) k (n k) j = c_rq (before true bak true k s) k j).
    unfold setk. rewrite Nat.eqb_refl. rewrite org_row by assumption. reflexivity.
Qed.
End Chain.
End P.
