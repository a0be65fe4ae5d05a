(** C46: solving the scaled QP is solving the original one. *)
From Coq Require Import ZArith List Bool Lia Reals Lra Psatz.
From Verif Require Import Arith Vec LinModel QpsModel QpsSpec Poly RSum QpsProofs QpsTop.
Open Scope R_scope.

(** the memory once the QP solver has written its output *)
Definition solved (m : qmem real) (s : rsol) : qmem real := mkQM (m_status m) (m_fac m) (m_sc m) (m_in m) s.

Section W.
Variable nrm : nat -> vecR -> R.
Variables (o : qopts real) (d : qdims) (m : qmem real) (q : rqp).
Hypothesis Own : own_slacks d q.
Hypothesis M01 : masks01 d q.
Notation m1 := (scale_qp (A := real) nrm o d m q).
Hypothesis Fpos : 0 < m_fac m1.
Definition f : R := m_fac m1.
Definition sf (i j : nat) : R := sfv (qnx d i) (qnu d i) (qnb d i) (qng d i) (q_DC q i) (q_mask q i) (q_d q i) j.
Definition rho (i k : nat) : R := if o_con o && (qnb d i <=? k)%nat then sf i (k - qnb d i) else 1.
Definition sig (i k : nat) : R :=
  if o_con o then sprod (qnx d i) (qnu d i) (qnb d i) (qng d i) (q_DC q i) (q_mask q i) (q_d q i) (q_rev q i) (qng d i) k else 1.

Lemma Rv i : (i <= qN d)%nat -> forall j, (j < qng d i)%nat -> (q_rev q i (qnb d i + j)%nat = -1 \/ 0 <= q_rev q i (qnb d i + j)%nat < Z.of_nat (qns d i))%Z.
Proof. intros Hi j Hj. exact (proj1 (Own i (qnb d i + j)%nat Hi ltac:(unfold nrow; lia))). Qed.
Lemma rho_pos i k : 0 < rho i k.
Proof. unfold rho. destruct (_ && _); [apply sfv_pos|lra]. Qed.
Lemma sig_pos i k : 0 < sig i k.
Proof. unfold sig. destruct (o_con o); [apply sprod_pos|lra]. Qed.
Lemma sig_rho i k : (i <= qN d)%nat -> (k < nrow d i)%nat -> (0 <= q_rev q i k)%Z -> sig i (Z.to_nat (q_rev q i k)) = rho i k.
Proof.
  intros Hi Hk P. destruct (Own i k Hi Hk) as [_ U]. unfold sig, rho. destruct (o_con o); cbn [andb]; [|reflexivity].
  destruct (Nat.leb_spec (qnb d i) k) as [L|L].
  - apply sprod_own; [unfold nrow in Hk; lia| |].
    + replace (qnb d i + (k - qnb d i))%nat with k by lia. lia.
    + intros l Hl Nl. rewrite Z2Nat.id by exact P. apply (U P L); unfold nrow in *; lia.
  - apply sprod_one. intros j Hj. rewrite Z2Nat.id by exact P. intros E.
    destruct (Own i (qnb d i + j)%nat Hi ltac:(unfold nrow; lia)) as [_ U']. rewrite E in U'. exact (U' P ltac:(lia) k Hk ltac:(lia) eq_refl).
Qed.
Lemma mask1 i k : (i <= qN d)%nat -> (k < nall d i)%nat -> (q_mask q i k : R) <> 0 -> eq1 (A := real) (q_mask q i k) = true.
Proof. intros Hi Hk N. apply eq1_true. destruct (M01 i k Hi Hk); [contradiction|assumption]. Qed.

(** the stage state of the constraint scaling *)
Notation sq := (let s := alias_in o q (m_in m) in if o_obj o then scale_objective d q f s else s).
Notation st i := (scale_stage (A := real) o d q sq (m_sc m) i).
Lemma st_inv i : (i <= qN d)%nat -> o_con o = true -> exists s0, st i = loop (qng d i) (scale_row (A := real) (qnx d i) (qnu d i) (qnb d i) (qng d i) (qns d i) (q_DC q i) (q_mask q i) (q_d q i) (q_rev q i)) s0 /\
  (forall k, (k < nall d i)%nat -> (c_d s0 k : R) = q_d q i k) /\
  (forall k, (k < nv d i + 2 * qns d i)%nat -> (c_rqz s0 k : R) = f * q_rqz q i k) /\
  (forall k, (k < 2 * qns d i)%nat -> (c_Z s0 k : R) = f * q_Z q i k).
Proof.
  intros Hi Hc. unfold scale_stage. cbv zeta. eexists. split; [reflexivity|]. cbn [c_d c_rqz c_Z]. unfold nall, nv, cp.
  assert (Ef : o_obj o = false -> f = 1) by (intros E; unfold f, scale_qp; rewrite E; reflexivity).
  split; [|split].
  - intros k Hk. destruct (Nat.ltb_spec k (2 * (qnb d i + qng d i + qns d i))); [reflexivity|lia].
  - intros k Hk. destruct (o_obj o) eqn:Eo.
    + unfold scale_objective. cbn [q_rqz]. destruct (Nat.leb_spec i (qN d)); [|lia]. unfold cpsc. destruct (Nat.ltb_spec k (qnx d i + qnu d i + 2 * qns d i)); [reflexivity|lia].
    + rewrite (Ef eq_refl). destruct (Nat.ltb_spec k (qnx d i + qnu d i + 2 * qns d i)); [rng|lia].
  - intros k Hk. destruct (o_obj o) eqn:Eo.
    + unfold scale_objective. cbn [q_Z]. destruct (Nat.leb_spec i (qN d)); [|lia]. unfold cpsc. destruct (Nat.ltb_spec k (2 * qns d i)); [reflexivity|lia].
    + rewrite (Ef eq_refl). destruct (Nat.ltb_spec k (2 * qns d i)); [rng|lia].
Qed.
Lemma m_in_con : o_con o = true -> m_in m1 = fst (scale_constraints (A := real) o d q sq (m_sc m)).
Proof. intros E. unfold scale_qp. rewrite E. unfold f, scale_qp. destruct (o_obj o) eqn:Eo; rewrite ?E, ?Eo; reflexivity. Qed.
Lemma m_sc_con : o_con o = true -> m_sc m1 = snd (scale_constraints (A := real) o d q sq (m_sc m)).
Proof. intros E. unfold scale_qp. rewrite E. unfold f, scale_qp. destruct (o_obj o) eqn:Eo; rewrite ?E, ?Eo; reflexivity. Qed.
Lemma m_in_obj : o_con o = false -> m_in m1 = sq.
Proof. intros E. unfold scale_qp. rewrite E. unfold f, scale_qp. destruct (o_obj o) eqn:Eo; rewrite ?E, ?Eo; reflexivity. Qed.

Lemma scaled_ok : Scaled d f rho sig q (m_in m1).
Proof.
  assert (Ef : o_obj o = false -> f = 1) by (intros E; unfold f, scale_qp; rewrite E; reflexivity).
  constructor; try exact Fpos; try exact rho_pos; try exact sig_pos.
  - intros i k Hk. unfold rho. destruct (Nat.leb_spec (qnb d i) k); [lia|]. rewrite andb_false_r. reflexivity.
  - intros i k Hi Hk P. split; [|apply sig_rho; assumption]. destruct (proj1 (Own i k Hi Hk)); lia.
  - intros i r c Hi Hr Hc.
    assert (G : o_obj o = true -> forall s, (q_H (scale_objective (A := real) d q f s) i r c : R) = f * q_H q i r c).
    { intros _ s. unfold scale_objective, mcpsc. cbn [q_H]. destruct (Nat.leb_spec i (qN d)); [|lia]. unfold nv in *.
      destruct (Nat.ltb_spec r (qnx d i + qnu d i)); [|lia]. destruct (Nat.ltb_spec c (qnx d i + qnu d i)); [|lia]. reflexivity. }
    destruct (o_con o) eqn:Ec; [rewrite (m_in_con Ec)|rewrite (m_in_obj Ec)]; cbv zeta; unfold scale_constraints; cbn [fst q_H].
    + destruct (o_obj o) eqn:Eo; [apply G; reflexivity|]. rewrite (Ef eq_refl). unfold alias_in. rewrite Ec, Eo. cbn [q_H]. rng.
    + destruct (o_obj o) eqn:Eo; [apply G; reflexivity|]. rewrite (Ef eq_refl). unfold alias_in. rewrite Ec, Eo. rng.
  - intros i r j Hi Hr Hj. destruct (o_con o) eqn:Ec; [rewrite (m_in_con Ec)|rewrite (m_in_obj Ec)]; cbv zeta.
    + unfold scale_constraints. cbn [fst q_DC]. destruct (Nat.leb_spec i (qN d)); [|lia]. destruct (st_inv i Hi Ec) as (s0 & E & _). cbv zeta in E. rewrite E.
      destruct (rows_inv (qnx d i) (qnu d i) (qnb d i) (qng d i) (qns d i) (q_DC q i) (q_mask q i) (q_d q i) (q_rev q i) (Rv i Hi) s0 (qng d i) (le_n _)) as (_ & I2 & _).
      etransitivity; [apply I2|]. unfold nv in Hr. destruct (Nat.ltb_spec r (qnu d i + qnx d i)); [|lia]. destruct (Nat.ltb_spec j (qng d i)); [|lia]. cbn [andb].
      unfold rho. rewrite Ec. destruct (Nat.leb_spec (qnb d i) (qnb d i + j)); [|lia]. cbn [andb]. replace (qnb d i + j - qnb d i)%nat with j by lia. reflexivity.
    + unfold rho. rewrite Ec. cbn [andb]. destruct (o_obj o) eqn:Eo; unfold scale_objective, alias_in; rewrite ?Ec, ?Eo; cbn [q_DC]; rng.
  - intros i r Hi Hr. destruct (o_con o) eqn:Ec; [rewrite (m_in_con Ec)|rewrite (m_in_obj Ec)]; cbv zeta.
    + unfold scale_constraints. cbn [fst q_rqz]. destruct (Nat.leb_spec i (qN d)); [|lia]. destruct (st_inv i Hi Ec) as (s0 & E & _ & G & _). cbv zeta in E. rewrite E.
      destruct (rows_inv (qnx d i) (qnu d i) (qnb d i) (qng d i) (qns d i) (q_DC q i) (q_mask q i) (q_d q i) (q_rev q i) (Rv i Hi) s0 (qng d i) (le_n _)) as (_ & _ & _ & _ & I5 & _).
      etransitivity; [apply I5; exact Hr|]. apply G. lia.
    + destruct (o_obj o) eqn:Eo.
      * unfold scale_objective, cpsc. cbn [q_rqz]. destruct (Nat.leb_spec i (qN d)); [|lia]. unfold nv in *. destruct (Nat.ltb_spec r (qnx d i + qnu d i + 2 * qns d i)); [reflexivity|lia].
      * rewrite (Ef eq_refl). unfold alias_in. rewrite Ec, Eo. rng.
  - intros i k up Hi Hk. assert (Hu : (side d i up + k < 2 * qns d i)%nat) by (unfold side; destruct up; lia).
    destruct (o_con o) eqn:Ec; [rewrite (m_in_con Ec)|rewrite (m_in_obj Ec)]; cbv zeta.
    + unfold scale_constraints. cbn [fst q_rqz]. destruct (Nat.leb_spec i (qN d)); [|lia]. destruct (st_inv i Hi Ec) as (s0 & E & _ & G & _). cbv zeta in E. rewrite E.
      destruct (rows_inv (qnx d i) (qnu d i) (qnb d i) (qng d i) (qns d i) (q_DC q i) (q_mask q i) (q_d q i) (q_rev q i) (Rv i Hi) s0 (qng d i) (le_n _)) as (_ & _ & _ & _ & _ & I6 & _).
      etransitivity; [exact (I6 k up Hk)|]. unfold sig. rewrite Ec. f_equal. apply G. unfold nv, side in *. unfold sd. lia.
    + unfold sig. rewrite Ec. destruct (o_obj o) eqn:Eo.
      * unfold scale_objective, cpsc. cbn [q_rqz]. destruct (Nat.leb_spec i (qN d)); [|lia]. unfold nv in *.
        destruct (Nat.ltb_spec (qnu d i + qnx d i + (side d i up + k)) (qnx d i + qnu d i + 2 * qns d i)); [|lia]. rR; rr; fld.
      * rewrite (Ef eq_refl). unfold alias_in. rewrite Ec, Eo. rR; rr; fld.
  - intros i k up Hi Hk. assert (Hu : (side d i up + k < 2 * qns d i)%nat) by (unfold side; destruct up; lia).
    destruct (o_con o) eqn:Ec; [rewrite (m_in_con Ec)|rewrite (m_in_obj Ec)]; cbv zeta.
    + unfold scale_constraints. cbn [fst q_Z]. destruct (Nat.leb_spec i (qN d)); [|lia]. destruct (st_inv i Hi Ec) as (s0 & E & _ & _ & G). cbv zeta in E. rewrite E.
      destruct (rows_inv (qnx d i) (qnu d i) (qnb d i) (qng d i) (qns d i) (q_DC q i) (q_mask q i) (q_d q i) (q_rev q i) (Rv i Hi) s0 (qng d i) (le_n _)) as (_ & _ & _ & _ & _ & _ & I7).
      etransitivity; [exact (I7 k up Hk)|]. unfold sig. rewrite Ec. f_equal. apply G. exact Hu.
    + unfold sig. rewrite Ec. destruct (o_obj o) eqn:Eo.
      * unfold scale_objective, cpsc. cbn [q_Z]. destruct (Nat.leb_spec i (qN d)); [|lia].
        destruct (Nat.ltb_spec (side d i up + k) (2 * qns d i)); [|lia]. rR; rr; fld.
      * rewrite (Ef eq_refl). unfold alias_in. rewrite Ec, Eo. rR; rr; fld.
  - intros i k Hi Hk K. pose proof (mask1 i k Hi Hk K) as K1. destruct (o_con o) eqn:Ec; [rewrite (m_in_con Ec)|rewrite (m_in_obj Ec)]; cbv zeta.
    + unfold scale_constraints. cbn [fst q_d]. destruct (Nat.leb_spec i (qN d)); [|lia]. destruct (st_inv i Hi Ec) as (s0 & E & G & _ & _). cbv zeta in E. rewrite E.
      destruct (rows_inv (qnx d i) (qnu d i) (qnb d i) (qng d i) (qns d i) (q_DC q i) (q_mask q i) (q_d q i) (q_rev q i) (Rv i Hi) s0 (qng d i) (le_n _)) as (_ & _ & I3 & I4 & _).
      unfold tau. unfold nall in Hk. destruct (Nat.ltb_spec k (nrow d i)) as [L|L]; [|destruct (Nat.ltb_spec k (2 * nrow d i)) as [L2|L2]]; unfold nrow in *.
      * etransitivity; [apply I3; lia|]. unfold low_d, rho. rewrite K1, Ec, !andb_true_r. cbn [andb]. unfold sf.
        destruct (Nat.leb_spec (qnb d i) k); cbn [andb]; [destruct (Nat.ltb_spec k (qnb d i + qng d i)); [|lia]|].
        -- f_equal. apply G. unfold nall; lia.
        -- destruct (Nat.leb_spec (2 * qnb d i + qng d i) k); [lia|]. cbn [andb]. rewrite (G k) by (unfold nall; lia). rng.
      * etransitivity; [apply I3; lia|]. unfold low_d, rho. rewrite K1, Ec, !andb_true_r. cbn [andb]. unfold sf.
        destruct (Nat.leb_spec (qnb d i) k); [|lia]. cbn [andb]. destruct (Nat.ltb_spec k (qnb d i + qng d i)); [lia|].
        destruct (Nat.leb_spec (2 * qnb d i + qng d i) k); cbn [andb]; destruct (Nat.leb_spec (qnb d i) (k - (qnb d i + qng d i))); try lia.
        -- destruct (Nat.ltb_spec k (2 * qnb d i + qng d i + qng d i)); [|lia]. replace (k - (qnb d i + qng d i) - qnb d i)%nat with (k - (2 * qnb d i + qng d i))%nat by lia.
           f_equal. apply G. unfold nall; lia.
        -- rewrite (G k) by (unfold nall; lia). rng.
      * cbv zeta. set (e := (k - 2 * (qnb d i + qng d i))%nat). assert (He : (e < 2 * qns d i)%nat) by (unfold e; lia).
        assert (X : exists l up, (l < qns d i)%nat /\ e = (sd (qns d i) up + l)%nat /\ (if (e <? qns d i)%nat then e else (e - qns d i)%nat) = l).
        { destruct (Nat.ltb_spec e (qns d i)); [exists e, false|exists (e - qns d i)%nat, true]; unfold sd; repeat split; lia. }
        destruct X as (l & up & Hl & E1 & E2). rewrite E2.
        replace k with (2 * (qnb d i + qng d i) + (sd (qns d i) up + l))%nat by (unfold e in *; lia).
        etransitivity; [exact (I4 l up Hl)|]. unfold sig. rewrite Ec. f_equal. apply G. unfold nall, sd. unfold e, sd in *. lia.
    + assert (E1 : tau d rho sig i k = 1).
      { unfold tau, rho, sig. rewrite Ec. cbn [andb]. destruct (_ <? _)%nat; [reflexivity|]. destruct (_ <? _)%nat; reflexivity. }
      rewrite E1. destruct (o_obj o) eqn:Eo; unfold scale_objective, alias_in; rewrite ?Ec, ?Eo; cbn [q_d]; rng.
  - destruct (o_con o) eqn:Ec; [rewrite (m_in_con Ec)|rewrite (m_in_obj Ec)]; cbv zeta; destruct (o_obj o) eqn:Eo; unfold scale_constraints, scale_objective, alias_in; rewrite ?Ec, ?Eo; reflexivity.
  - destruct (o_con o) eqn:Ec; [rewrite (m_in_con Ec)|rewrite (m_in_obj Ec)]; cbv zeta; destruct (o_obj o) eqn:Eo; unfold scale_constraints, scale_objective, alias_in; rewrite ?Ec, ?Eo; reflexivity.
  - destruct (o_con o) eqn:Ec; [rewrite (m_in_con Ec)|rewrite (m_in_obj Ec)]; cbv zeta; destruct (o_obj o) eqn:Eo; unfold scale_constraints, scale_objective, alias_in; rewrite ?Ec, ?Eo; reflexivity.
  - destruct (o_con o) eqn:Ec; [rewrite (m_in_con Ec)|rewrite (m_in_obj Ec)]; cbv zeta; destruct (o_obj o) eqn:Eo; unfold scale_constraints, scale_objective, alias_in; rewrite ?Ec, ?Eo; reflexivity.
  - destruct (o_con o) eqn:Ec; [rewrite (m_in_con Ec)|rewrite (m_in_obj Ec)]; cbv zeta; destruct (o_obj o) eqn:Eo; unfold scale_constraints, scale_objective, alias_in; rewrite ?Ec, ?Eo; reflexivity.
Qed.

Lemma sc_ok i j : (i <= qN d)%nat -> (j < qng d i)%nat -> o_con o = true -> (m_sc m1 i j : R) = sf i j.
Proof.
  intros Hi Hj Ec. rewrite (m_sc_con Ec). unfold scale_constraints. cbn [snd]. destruct (Nat.leb_spec i (qN d)); [|lia].
  destruct (st_inv i Hi Ec) as (s0 & E & _). cbv zeta in E. rewrite E.
  destruct (rows_inv (qnx d i) (qnu d i) (qnb d i) (qng d i) (qns d i) (q_DC q i) (q_mask q i) (q_d q i) (q_rev q i) (Rv i Hi) s0 (qng d i) (le_n _)) as (I1 & _).
  etransitivity; [apply I1|]. destruct (Nat.ltb_spec j (qng d i)); [reflexivity|lia].
Qed.
Variables s' out : rsol.
Notation s1 := (rescale_solution (A := real) o d (solved m1 s') q out).
Lemma fac_m1 : (1 / m_fac m1 : R)%R = / f.
Proof. unfold f, Rdiv. rewrite Rmult_1_l. reflexivity. Qed.
Lemma rel_ok : Rel d f rho sig s1 s'.
Proof.
  assert (Ef : o_obj o = false -> f = 1) by (intros E; unfold f, scale_qp; rewrite E; reflexivity). pose proof Fpos as Fp. change (0 < f) in Fp.
  (* the multipliers before the constraint scaling is undone *)
  set (o1 := let out := alias_out o out s' in if o_obj o then scale_duals (A := real) d (1 / m_fac m1)%R s' out else out).
  assert (L1 : forall i k, (i <= qN d)%nat -> (k < nall d i)%nat -> (if o_obj o then (s_lam o1 i k : R) else s_lam s' i k) = s_lam s' i k / f).
  { intros i k Hi Hk. destruct (o_obj o) eqn:Eo; [|rewrite (Ef eq_refl); rR; fld]. unfold o1, scale_duals, cpsc. cbn [s_lam].
    destruct (Nat.leb_spec i (qN d)); [|lia]. unfold nall in Hk. destruct (Nat.ltb_spec k (2 * (qnb d i + qng d i + qns d i))); [|lia].
    rewrite fac_m1. rR; rr; fld; lra. }
  assert (L2 : forall i c, (i < qN d)%nat -> (c < qnx d (S i))%nat -> o_obj o = true -> (s_pi o1 i c : R) = s_pi s' i c / f).
  { intros i c Hi Hc Eo. unfold o1, scale_duals, cpsc. rewrite Eo. cbn [s_pi]. destruct (Nat.ltb_spec i (qN d)); [|lia].
    destruct (Nat.ltb_spec c (qnx d (S i))); [|lia]. rewrite fac_m1. rR; rr; fld; lra. }
  destruct (o_con o) eqn:Ec.
  - assert (E1 : s1 = rescale_constraints (A := real) o d q (m_sc m1) s' o1).
    { unfold rescale_solution, rescale. rewrite Ec. cbn [m_sc m_out m_fac solved]. unfold o1. reflexivity. }
    rewrite E1.
    pose (lam0 := (fun i => if o_obj o then s_lam o1 i else cp (2 * qnb d i + 2 * qng d i + 2 * qns d i) (s_lam s' i) (s_lam o1 i)) : nat -> vecR).
    pose (ux0 := (fun i => cp (qnx d i + qnu d i + 2 * qns d i) (s_ux s' i) (s_ux o1 i)) : nat -> vecR).
    assert (B : forall i, (i <= qN d)%nat -> let r := loop (qng d i) (rescale_row (A := real) (qnx d i) (qnu d i) (qnb d i) (qng d i) (qns d i) (q_rev q i) (m_sc m1 i))
       (lam0 i, ux0 i) in
       s_lam (rescale_constraints (A := real) o d q (m_sc m1) s' o1) i = fst r /\ s_ux (rescale_constraints (A := real) o d q (m_sc m1) s' o1) i = snd r).
    { intros i Hi. unfold rescale_constraints. cbv zeta. cbn [s_lam s_ux]. destruct (Nat.leb_spec i (qN d)); [|lia]. split; reflexivity. }
    assert (Bi : forall i, (i <= qN d)%nat -> _) by exact (fun i Hi =>
      backs_inv (qnx d i) (qnu d i) (qnb d i) (qng d i) (qns d i) (q_DC q i) (q_mask q i) (q_d q i) (q_rev q i) (Rv i Hi) (m_sc m1 i)
        (fun j Hj => sc_ok i j Hi Hj Ec)
        (lam0 i) (ux0 i) (qng d i) (le_n _)).
    constructor; [constructor| |].
    + intros i r Hi Hr. destruct (B i Hi) as [_ B2]. destruct (Bi i Hi) as (_ & _ & G & _). rewrite B2. unfold nv in Hr.
      etransitivity; [apply G; lia|]. unfold ux0, cp. destruct (Nat.ltb_spec r (qnx d i + qnu d i + 2 * qns d i)); [reflexivity|lia].
    + intros i k up Hi Hk. destruct (B i Hi) as [_ B2]. destruct (Bi i Hi) as (_ & _ & _ & G). rewrite B2.
      etransitivity; [exact (G k up Hk)|]. unfold sig. rewrite Ec. f_equal. unfold ux0, cp, side, sd, nv.
      destruct (Nat.ltb_spec (qnu d i + qnx d i + ((if up then qns d i else 0) + k)) (qnx d i + qnu d i + 2 * qns d i)) as [|X]; [reflexivity|destruct up; lia].
    + intros i c Hi Hc. unfold rescale_constraints. cbn [s_pi]. destruct (o_obj o) eqn:Eo; cbn [negb andb]; [apply L2; auto|].
      destruct (Nat.ltb_spec i (qN d)); [|lia]. unfold cp. destruct (Nat.ltb_spec c (qnx d (S i))); [|lia]. rewrite (Ef eq_refl). rR; fld.
    + intros i k Hi Hk. destruct (B i Hi) as [B1 _]. destruct (Bi i Hi) as (G1 & G2 & _). rewrite B1.
      assert (L3 : (lam0 i k : R) = s_lam s' i k / f).
      { rewrite <- (L1 i k Hi Hk). unfold lam0. destruct (o_obj o); [reflexivity|]. unfold cp, nall in *. destruct (Nat.ltb_spec k (2 * qnb d i + 2 * qng d i + 2 * qns d i)); [reflexivity|lia]. }
      unfold tau. unfold nall in Hk. destruct (Nat.ltb_spec k (nrow d i)) as [L|L]; [|destruct (Nat.ltb_spec k (2 * nrow d i)) as [L'|L']]; unfold nrow in *.
      * etransitivity; [apply G1; lia|]. unfold back_low, rho. rewrite Ec. cbn [andb]. unfold sf.
        destruct (Nat.leb_spec (qnb d i) k); cbn [andb]; [destruct (Nat.ltb_spec k (qnb d i + qng d i)); [|lia]|destruct (Nat.leb_spec (2 * qnb d i + qng d i) k); [lia|]; cbn [andb]].
        -- rewrite L3. rR; fld; lra.
        -- rewrite L3. rR; fld; lra.
      * etransitivity; [apply G1; lia|]. unfold back_low, rho. rewrite Ec. cbn [andb]. unfold sf.
        destruct (Nat.leb_spec (qnb d i) k); [|lia]. destruct (Nat.ltb_spec k (qnb d i + qng d i)); [lia|]. cbn [andb].
        destruct (Nat.leb_spec (2 * qnb d i + qng d i) k); cbn [andb]; destruct (Nat.leb_spec (qnb d i) (k - (qnb d i + qng d i))); try lia.
        -- destruct (Nat.ltb_spec k (2 * qnb d i + qng d i + qng d i)); [|lia]. replace (k - (qnb d i + qng d i) - qnb d i)%nat with (k - (2 * qnb d i + qng d i))%nat by lia.
           rewrite L3. rR; fld; lra.
        -- rewrite L3. rR; fld; lra.
      * cbv zeta. set (e := (k - 2 * (qnb d i + qng d i))%nat). assert (He : (e < 2 * qns d i)%nat) by (unfold e; lia).
        assert (X : exists l up, (l < qns d i)%nat /\ e = (sd (qns d i) up + l)%nat /\ (if (e <? qns d i)%nat then e else (e - qns d i)%nat) = l).
        { destruct (Nat.ltb_spec e (qns d i)); [exists e, false|exists (e - qns d i)%nat, true]; unfold sd; repeat split; lia. }
        destruct X as (l & up & Hl & X1 & X2). rewrite X2.
        assert (Ek : k = (2 * (qnb d i + qng d i) + (sd (qns d i) up + l))%nat) by (unfold e in *; lia). pose proof (G2 l up Hl) as G. rewrite <- Ek, L3 in G.
        etransitivity; [exact G|]. unfold sig. rewrite Ec. rR; fld; lra.
  - assert (T1 : forall i k, tau d rho sig i k = 1).
    { intros i k. unfold tau, rho, sig. rewrite Ec. cbn [andb]. destruct (_ <? _)%nat; [reflexivity|]. destruct (_ <? _)%nat; reflexivity. }
    assert (E1 : s1 = o1) by (unfold rescale_solution, rescale; rewrite Ec; reflexivity). rewrite E1.
    assert (U : s_ux o1 = s_ux s').
    { unfold o1, scale_duals, alias_out. rewrite Ec. destruct (o_obj o); reflexivity. }
    constructor; [constructor| |].
    + intros i r Hi Hr. rewrite U. reflexivity.
    + intros i k up Hi Hk. rewrite U. unfold sig. rewrite Ec. rR; fld.
    + intros i c Hi Hc. destruct (o_obj o) eqn:Eo; [apply L2; auto|]. unfold o1. rewrite ?Eo. unfold alias_out. rewrite Ec, ?Eo, (Ef eq_refl). rR; fld.
    + intros i k Hi Hk. rewrite T1. specialize (L1 i k Hi Hk). destruct (o_obj o) eqn:Eo.
      * rewrite L1. rR; fld; lra.
      * unfold o1. rewrite ?Eo. unfold alias_out. rewrite Ec, ?Eo, (Ef eq_refl). rR; fld.
Qed.
Lemma kkt_ok : kkt d (m_in m1) s' <-> kkt d q s1.
Proof. exact (kkt_scaled d f rho sig q (m_in m1) s1 s' scaled_ok rel_ok). Qed.
Lemma minimiser_ok : minimiser d (m_in m1) (s_ux s') <-> minimiser d q (s_ux s1).
Proof. exact (minimiser_scaled d f rho sig q (m_in m1) scaled_ok _ _ (Ru _ _ _ _ _ _ rel_ok)). Qed.
End W.
