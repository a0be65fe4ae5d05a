(** Concrete QPs for C46, C47 and C65. *)
From Coq Require Import ZArith List Bool Lia Reals Lra Psatz.
From Verif Require Import FP Arith Vec LinModel QpsModel QpsSpec Poly RSum QpsProofs QpsTop QpsWhole InterpProofs QpsFactor QpsTol.
Import ListNotations.
Open Scope R_scope.

(** the infinity norm *)
Definition vnrm (n : nat) (x : vecR) : R := loop n (fun k a => Rmax a (Rabs (x k))) 0.
Lemma vnrm_ok : nrm_ok vnrm.
Proof.
  intros n x. unfold vnrm. induction n as [|n [I1 I2]]; cbn [loop]; [split; [lra|lia]|].
  set (a := loop n _ 0) in *. pose proof (Rmax_l a (Rabs (x n))) as A1. pose proof (Rmax_r a (Rabs (x n))) as A2. split; [lra|].
  intros k Hk. destruct (Nat.eq_dec k n) as [->|N]; [exact A2|]. specialize (I2 k ltac:(lia)). lra.
Qed.
Lemma Rltb_t a b : a < b -> Rltb a b = true.
Proof. intros H. destruct (Rltb_spec a b); [reflexivity|lra]. Qed.
Lemma Rltb_f a b : b <= a -> Rltb a b = false.
Proof. intros H. destruct (Rltb_spec a b); [lra|reflexivity]. Qed.
Lemma Rleb_t a b : a <= b -> Rleb a b = true.
Proof. intros H. destruct (Rleb_spec a b); [reflexivity|lra]. Qed.
Lemma Rleb_f a b : b < a -> Rleb a b = false.
Proof. intros H. destruct (Rleb_spec a b); [lra|reflexivity]. Qed.
Ltac dec := repeat match goal with
  | |- context [Rabs ?a] => first [rewrite (Rabs_pos_eq a) by lra | rewrite (Rabs_left1 a) by lra]
  | |- context [Rltb ?a ?b] => first [rewrite (Rltb_t a b) by lra | rewrite (Rltb_f a b) by lra]
  | |- context [Rleb ?a ?b] => first [rewrite (Rleb_t a b) by lra | rewrite (Rleb_f a b) by lra]
  | |- context [Rmax ?a ?b] => first [rewrite (Rmax_left a b) by lra | rewrite (Rmax_right a b) by lra]
  | |- context [Rmin ?a ?b] => first [rewrite (Rmin_left a b) by lra | rewrite (Rmin_right a b) by lra]
  end; try lra; try (field; lra).

Definition lst (l : list R) (k : nat) : R := nth k l 0.
Definition out0 : rsol := mkSol (fun _ _ => 0) (fun _ _ => 0) (fun _ _ => 0).
Definition mem0 : qmem real := mkQM (A := real) 0 1 (fun _ _ => 1) (mkQp (fun _ _ => 0) (fun _ _ => 0) (fun _ _ _ => 0) (fun _ _ _ => 0) (fun _ _ => 0) (fun _ _ => 0) (fun _ _ => 0) (fun _ _ _ => 0) (fun _ _ => O) (fun _ _ => 0%Z)) out0.
Ltac one i := replace i with O in * by lia; clear i.

(** * A soft constraint: minimise u^2 - 4 u + sl + su subject to 4 u <= 4 + su *)
Definition dA : qdims := mkD 0 (fun _ => O) (fun _ => 1%nat) (fun _ => O) (fun _ => 1%nat) (fun _ => 1%nat).
Definition qA : rqp := mkQp (A := real) (fun _ => lst [-4; 1; 1]) (fun _ _ => 0) (fun _ _ _ => 2) (fun _ _ _ => 0) (fun _ _ => 0)
  (fun _ => lst [0; -4; 0; 0]) (fun _ => lst [0; 1; 1; 1]) (fun _ _ _ => 4) (fun _ _ => O) (fun _ _ => 0%Z).
Definition oA : qopts real := mkO (A := real) 1 (/ 10) true true.
Definition sA' : rsol := mkSol (A := real) (fun _ => lst [1; 0; 0]) (fun _ _ => 0) (fun _ => lst [0; 1; 2; 1]).
Definition sA : rsol := mkSol (A := real) (fun _ => lst [1; 0; 0]) (fun _ _ => 0) (fun _ => lst [0; / 2; 1; / 2]).
Lemma A_own : own_slacks dA qA.
Proof. intros i k Hi Hk. cbn in *. split; [right; lia|]. intros _ _ l Hl N. lia. Qed.
Lemma A_masks : masks01 dA qA.
Proof. intros i m Hi Hm. unfold nall in Hm. cbn in *. do 4 (destruct m as [|m]; [cbn; lra|]). lia. Qed.
Lemma A_eig : eig_grad (A := real) vnrm dA qA = (2, 4).
Proof.
  unfold eig_grad. cbn [qN dA loop fst snd]. rewrite !nmax_real. rr. change (num real) with R in *.
  assert (G : gersh_max (A := real) (qnx dA 0 + qnu dA 0) (q_H qA 0%nat) = 2).
  { unfold gersh_max, gersh_radius, cmax. cbn -[Rltb Rleb Rabs]. rr. dec. }
  assert (Z1 : vnrm (2 * qns dA 0) (q_Z qA 0%nat) = 0) by (cbn -[Rmax Rabs]; dec).
  assert (Z2 : vnrm (qnx dA 0 + qnu dA 0 + 2 * qns dA 0) (q_rqz qA 0%nat) = 4) by (cbn -[Rmax Rabs]; dec).
  rewrite G, Z1, Z2. f_equal; dec.
Qed.
Notation mA := (scale_qp (A := real) vnrm oA dA mem0 qA).
Lemma A_fac : m_fac mA = / 2 /\ m_status mA = 0%Z.
Proof.
  unfold scale_qp. cbn [o_obj oA m_fac m_status]. rewrite A_eig. unfold obj_factor. cbn [fst snd o_ub o_lb oA]. rr. cbn [nltb nleb ndiv nmul real]. change (num real) with R.
  dec. cbn [fst snd]. idtac. split; [rR; rr; lra|reflexivity].
Qed.
Lemma A_f : QpsWhole.f vnrm oA dA mem0 qA = / 2.
Proof. exact (proj1 A_fac). Qed.
Lemma A_sf : sf dA qA 0 0 = / 4.
Proof. unfold sf, sfv, col_norm. cbn -[Rmax Rabs nmax]. rewrite !nmax_real. rr. unfold lst. cbn [nth]. dec. Qed.
Lemma A_rho i : i = O -> rho oA dA qA i 0 = / 4.
Proof. intros ->. unfold rho. cbn [o_con oA andb qnb dA Nat.leb Nat.sub]. exact A_sf. Qed.
Lemma A_sig i : i = O -> sig oA dA qA i 0 = / 4.
Proof.
  intros ->. unfold sig. cbn [o_con oA qng dA]. rewrite (sprod_own _ _ _ _ _ _ _ _ 1 0 0); [exact A_sf|lia|reflexivity|lia].
Qed.
Lemma A_rel : Rel dA (/ 2) (rho oA dA qA) (sig oA dA qA) sA sA'.
Proof.
  constructor; [constructor| |].
  - intros i r Hi Hr. reflexivity.
  - intros i k up Hi Hk. cbn in Hi, Hk. replace k with O by lia. rewrite (A_sig i) by lia. destruct up; cbn; rr; lra.
  - intros i c Hi. cbn in Hi. lia.
  - intros i m Hi Hm. unfold nall in Hm. cbn in Hi, Hm.
    do 4 (destruct m as [|m]; [unfold tau; cbn [nrow qnb qng dA Nat.add Nat.ltb Nat.leb Nat.mul Nat.sub qns]; rewrite ?A_rho, ?A_sig by lia; cbn; rr; lra|]). lia.
Qed.
Lemma A_kkt : kkt dA qA sA.
Proof.
  split; [|split; [|split]].
  - intros i r Hi Hr. cbn in Hi, Hr. replace i with O by lia. replace r with O by lia. unfold stat, sym, coef. cbn. rr. unfold lst. cbn [nth]. lra.
  - intros i k up Hi Hk. cbn in Hi, Hk. replace i with O by lia. replace k with O by lia. unfold stat_slack. destruct up; cbn; rr; unfold lst; cbn [nth]; lra.
  - intros i c Hi. cbn in Hi. lia.
  - intros i m Hi Hm. unfold nall in Hm. cbn in Hi, Hm. replace i with O by lia.
    do 4 (destruct m as [|m]; [unfold ineq, lin, coef, slack; cbn; rr; unfold lst; cbn [nth]; lra|]). lia.
Qed.
Lemma A_scaled : kkt dA (m_in mA) sA'.
Proof.
  assert (F : 0 < m_fac mA) by (rewrite (proj1 A_fac); lra).
  pose proof (scaled_ok vnrm oA dA mem0 qA A_own A_masks F) as Sc. rewrite A_f in Sc.
  exact (proj2 (kkt_scaled _ _ _ _ _ _ _ _ Sc A_rel) A_kkt).
Qed.

(** * Two constraints sharing one slack: minimise u^2 + s/8 subject to u + s >= 1 and 4 u + s >= -8 *)
Definition dB : qdims := mkD 0 (fun _ => O) (fun _ => 1%nat) (fun _ => O) (fun _ => 2%nat) (fun _ => 1%nat).
Definition qB : rqp := mkQp (A := real) (fun _ => lst [0; / 8; 0]) (fun _ _ => 0) (fun _ _ _ => 2) (fun _ _ _ => 0) (fun _ _ => 0)
  (fun _ => lst [1; -8; 0; 0; 0; 0]) (fun _ => lst [1; 1; 0; 0; 1; 1]) (fun _ _ c => lst [1; 4] c) (fun _ _ => O) (fun _ _ => 0%Z).
Definition oB : qopts real := mkO (A := real) 1 (/ 10) false true.
Definition sB' : rsol := mkSol (A := real) (fun _ => lst [/ 2; / 2; 0]) (fun _ _ => 0) (fun _ => lst [1; 0; 0; 0; 0; 0]).
Section B.
Variable nrm : nat -> vecR -> R.
Notation mB := (scale_qp (A := real) nrm oB dB mem0 qB).
Lemma B_sf : sf dB qB 0 0 = 1 /\ sf dB qB 0 1 = / 8.
Proof. unfold sf, sfv, col_norm. cbn -[Rmax Rabs nmax]. rewrite !nmax_real. rr. unfold lst. cbn [nth]. split; dec. Qed.
Notation sfB := (sfv 0 1 0 2 (q_DC qB 0%nat) (q_mask qB 0%nat) (q_d qB 0%nat)).
Lemma B_in : let q' := m_in mB in
  q_H q' 0%nat 0%nat 0%nat = 2 /\ q_rqz q' 0%nat 0%nat = 0 /\ q_rqz q' 0%nat 1%nat = 1 /\ q_rqz q' 0%nat 2%nat = 0 /\ (forall e, (e < 2)%nat -> q_Z q' 0%nat e = 0) /\
  q_DC q' 0%nat 0%nat 0%nat = 1 /\ q_DC q' 0%nat 0%nat 1%nat = / 2 /\ (forall m, q_d q' 0%nat m = lst [1; -1; 0; 0; 0; 0] m \/ (6 <= m)%nat) /\
  q_mask q' = q_mask qB /\ q_rev q' = q_rev qB /\ (forall j, (j < 2)%nat -> m_sc mB 0%nat j = lst [1; / 8] j).
Proof.
  destruct B_sf as [S0 S1]. unfold sf in S0, S1. cbn [qnx qnu qnb qng dB] in S0, S1.
  assert (P : sprod 0 1 0 2 (q_DC qB 0%nat) (q_mask qB 0%nat) (q_d qB 0%nat) (q_rev qB 0%nat) 2 0 = / 8) by (cbn [sprod]; rewrite S0, S1; cbn; lra).
  cbv zeta. unfold scale_qp. cbn [o_obj o_con oB]. cbn [m_in m_sc]. unfold scale_constraints. cbn [fst snd qN dB Nat.leb].
  set (st := scale_stage (A := real) oB dB qB _ _ 0).
  unfold scale_stage in st. cbn [o_obj oB dB qnx qnu qnb qng qns Nat.add Nat.mul] in st.
  match eval unfold st in st with loop _ _ ?s0 =>
    destruct (rows_inv 0 1 0 2 1 (q_DC qB 0%nat) (q_mask qB 0%nat) (q_d qB 0%nat) (q_rev qB 0%nat) ltac:(intros j Hj; right; cbn; lia) s0 2 (le_n _)) as (I1 & I2 & I3 & I4 & I5 & I6 & I7) end.
  fold st in I1, I2, I3, I4, I5, I6, I7. cbn [c_d c_rqz c_Z c_DC c_sc] in I1, I2, I3, I4, I5, I6, I7.
  assert (M : forall m x, lst [1; 1; 0; 0; 1; 1] m = x -> x = 1 -> eq1 (A := real) (q_mask qB 0%nat m) = true) by (intros m x H ->; apply eq1_true, H).
  split; [|split; [|split; [|split; [|split; [|split; [|split; [|split; [|split; [reflexivity|split; [reflexivity|]]]]]]]]]].
  - reflexivity.
  - etransitivity; [exact (I5 0%nat ltac:(lia))|reflexivity].
  - etransitivity; [exact (I6 0%nat false ltac:(lia))|]. rewrite P. cbn. unfold lst. cbn [nth]. rR. field.
  - etransitivity; [exact (I6 0%nat true ltac:(lia))|]. rewrite P. cbn. unfold lst. cbn [nth]. rR. field.
  - intros [|[|e]] He; [| |lia].
    + etransitivity; [exact (I7 0%nat false ltac:(lia))|]. rewrite P. cbn. rR. field.
    + etransitivity; [exact (I7 0%nat true ltac:(lia))|]. rewrite P. cbn. rR. field.
  - etransitivity; [exact (I2 0%nat 0%nat)|]. transitivity (sfB 0 * 1); [reflexivity|]. rewrite S0. lra.
  - etransitivity; [exact (I2 0%nat 1%nat)|]. transitivity (sfB 1 * 4); [reflexivity|]. rewrite S1. lra.
  - intros m. destruct (Nat.lt_ge_cases m 6) as [L|L]; [left|right; exact L]. destruct m as [|[|[|[|[|[|m]]]]]]; [clear L|clear L|clear L|clear L|clear L|clear L|lia].
    + etransitivity; [exact (I3 0%nat ltac:(lia))|]. unfold low_d. rewrite (M 0%nat 1) by (unfold lst; cbn; lra). transitivity (sfB 0 * 1); [reflexivity|]. rewrite S0. unfold lst. cbn [nth]. lra.
    + etransitivity; [exact (I3 1%nat ltac:(lia))|]. unfold low_d. rewrite (M 1%nat 1) by (unfold lst; cbn; lra). transitivity (sfB 1 * -8); [reflexivity|]. rewrite S1. unfold lst. cbn [nth]. lra.
    + etransitivity; [exact (I3 2%nat ltac:(lia))|]. unfold low_d. cbn -[sfv eq1]. destruct (eq1 _); unfold lst; cbn [nth]; rR; lra.
    + etransitivity; [exact (I3 3%nat ltac:(lia))|]. unfold low_d. cbn -[sfv eq1]. destruct (eq1 _); unfold lst; cbn [nth]; rR; lra.
    + etransitivity; [exact (I4 0%nat false ltac:(lia))|]. cbn -[sprod]. unfold lst. cbn [nth]. rR. lra.
    + etransitivity; [exact (I4 0%nat true ltac:(lia))|]. cbn -[sprod]. unfold lst. cbn [nth]. rR. lra.
  - intros [|[|j]] Hj; [| |lia]; (etransitivity; [exact (I1 _)|]); [exact S0|exact S1].
Qed.
Lemma B_scaled : kkt dB (m_in mB) sB'.
Proof.
  destruct B_in as (H0 & r0 & r1 & r2 & Z0 & D0 & D1 & d0 & Em & Er & _). cbv zeta in *. set (q' := m_in mB) in *. clearbody q'.
  split; [|split; [|split]].
  - intros i r Hi Hr. cbn in Hi, Hr. replace i with O by lia. replace r with O by lia. unfold stat, sym, coef. cbn -[q_H q_rqz q_DC]. rr. rR. unfold lst. cbn [nth].
    rewrite H0, r0, D0, D1. lra.
  - intros i k up Hi Hk. cbn in Hi, Hk. replace i with O by lia. replace k with O by lia. unfold stat_slack. rewrite Er.
    destruct up; cbn -[q_Z q_rqz]; rewrite Z0 by lia; rr; rR; unfold lst; cbn [nth]; rewrite ?r1, ?r2; lra.
  - intros i c Hi. cbn in Hi. lia.
  - intros i m Hi Hm. unfold nall in Hm. cbn in Hi, Hm. replace i with O by lia. rewrite Em. unfold ineq, lin, coef, slack. rewrite Er.
    destruct (d0 m) as [Ed|L]; [|lia]. rewrite Ed.
    do 6 (destruct m as [|m]; [cbn -[q_DC]; rr; rR; unfold lst; cbn [nth]; rewrite ?D0, ?D1; lra|]). lia.
Qed.
Lemma B_wrong : ~ kkt dB qB (rescale_solution (A := real) oB dB (solved mB sB') qB out0).
Proof.
  destruct B_in as (_ & _ & _ & _ & _ & _ & _ & _ & _ & _ & Sc). cbv zeta in Sc.
  pose proof (Sc 0%nat ltac:(lia)) as S0. pose proof (Sc 1%nat ltac:(lia)) as S1. clear Sc.
  intros (_ & _ & _ & P). destruct (P 0%nat 0%nat (le_n _) ltac:(cbn; lia)) as [Q _].
  assert (K : q_mask qB 0%nat 0%nat <> 0) by (cbn; unfold lst; cbn [nth]; rr; lra). destruct (Q K) as (_ & _ & C). revert C.
  set (s1 := rescale_solution (A := real) oB dB (solved mB sB') qB out0).
  assert (L0 : (s_lam s1 0%nat 0%nat : R) = 1).
  { unfold s1, rescale_solution, rescale, rescale_constraints, rescale_row, vmul, vdiv, vset, cp. cbn -[scale_qp]. change (m_sc (solved mB sB')) with (m_sc mB).
    rewrite S0. unfold lst. cbn [nth]. rr. rR. lra. }
  assert (U0 : (s_ux s1 0%nat 0%nat : R) = / 2) by reflexivity.
  assert (U1 : (s_ux s1 0%nat 1%nat : R) = 4).
  { unfold s1, rescale_solution, rescale, rescale_constraints, rescale_row, vmul, vdiv, vset, cp. cbn -[scale_qp]. change (m_sc (solved mB sB')) with (m_sc mB).
    rewrite S0, S1. unfold lst. cbn [nth]. rr. rR. field. }
  clearbody s1. unfold ineq, lin, slack, coef. cbn -[s_lam s_ux]. rewrite L0, U0, U1. unfold lst. cbn [nth]. rr. rR. lra.
Qed.
End B.
