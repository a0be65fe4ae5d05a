(** Concrete QPs for the OSQP interface. *)
From Coq Require Import ZArith List Bool Lia Reals Lra Arith.
From Verif Require Import Arith QpsModel CscModel CscSpec RSum QpsSpec OsqpModel OsqpSpec CscProofs OsqpProofs OsqpRows OsqpKkt OsqpTop OsqpRun OsqpCsc.
Import ListNotations.
Open Scope R_scope.

Definition li (l : list R) (k : nat) : R := nth k l 0.
Definition ey (r c : nat) : R := if (r =? c)%nat then 1 else 0.
Definition om0 : omem real := mkOM (A := real) true [] [] [] [] [] [] [] (fun _ => Fin (A := real) 0) (fun _ => Fin (A := real) 0).

(** * Two stages, a softened bound that is violated and a hard bound that is active:
    u = 2 with u <= 1 + su, x0 = 1, x1 = x0 + u <= 3 *)
Definition dO : qdims := mkD 1 (fun _ => 1%nat) (fun k => if (k =? 0)%nat then 1%nat else O) (fun _ => 1%nat) (fun _ => O) (fun k => if (k =? 0)%nat then 1%nat else O).
Definition qO : rqp := mkQp (A := real) (fun k => if (k =? 0)%nat then li [-7; -5; 1; 1] else li [-1]) (fun _ _ => 0) (fun _ => ey) (fun _ _ _ => 1) (fun _ _ => 0)
  (fun k => if (k =? 0)%nat then li [-5; -1; 0; 0] else li [-10; -3]) (fun _ _ => 1) (fun _ _ _ => 0) (fun _ _ => O) (fun k _ => if (k =? 0)%nat then 0%Z else (-1)%Z).
Definition sO : rsol := mkSol (A := real) (fun k => if (k =? 0)%nat then li [2; 1; 0; 1] else li [3]) (fun _ _ => 4) (fun k => if (k =? 0)%nat then li [0; 1; 1; 0] else li [0; 2]).
Lemma O_bounds : wf_bounds dO qO.
Proof. intros k i Hk Hi. cbn in *. split; [unfold nv; cbn; lia|]. intros j Hj _. lia. Qed.
Lemma O_soft : wf_soft dO qO.
Proof. intros k Hk. cbn in Hk. unfold nrow. destruct k as [|[|k]]; [| |lia]; cbn; (split; [intros i Hi|reflexivity]); lia. Qed.
Lemma O_unmasked : unmasked dO qO.
Proof. intros k m _ _. cbn. lra. Qed.
Ltac kk := cbn -[Rplus Rmult Rminus Ropp Rinv]; unfold li, ey; cbn [nth]; lra.
Lemma O_kkt : kkt dO qO sO.
Proof.
  split; [|split; [|split]].
  - intros k r Hk Hr. cbn in Hk. unfold nv in Hr. destruct k as [|[|k]]; [| |lia]; cbn in Hr.
    + destruct r as [|[|r]]; [| |lia]; unfold stat, sym, coef, nv, nrow; kk.
    + destruct r as [|r]; [|lia]; unfold stat, sym, coef, nv, nrow; kk.
  - intros k j up Hk Hj. cbn in Hk. destruct k as [|[|k]]; [| |lia]; cbn in Hj; [|lia]. replace j with O by lia. destruct up; unfold stat_slack, nv, nrow; kk.
  - intros k c Hk Hc. cbn in Hk, Hc. replace k with O by lia. replace c with O by lia. unfold dyn, nv; kk.
  - intros k m Hk Hm. split; [intros _|intros C; exfalso; exact (O_unmasked k m Hk Hm C)]. cbn in Hk. unfold nall in Hm. destruct k as [|[|k]]; [| |lia]; cbn in Hm.
    + do 4 (destruct m as [|m]; [unfold ineq, lin, slack, coef, nv, nrow; kk|]). lia.
    + do 2 (destruct m as [|m]; [unfold ineq, lin, slack, coef, nv, nrow; kk|]). lia.
Qed.
Lemma O_structure : let m := calls dO [qO] om0 in
  num_vars dO = 5%nat /\ num_constr dO = 6%nat /\ A_p m = [0; 3; 4; 6; 8; 10]%nat /\ A_i m = [0; 1; 2; 0; 1; 4; 2; 5; 0; 3]%nat /\ A_x m = [1; 1; 1; 1; 1; 1; -1; 1; -1; 1] /\
  P_p m = [0; 1; 3; 4; 5; 6]%nat /\ P_i m = [0; 0; 1; 2; 3; 4]%nat.
Proof. repeat split. Qed.
Lemma O_solved : exists z y, mem_kkt dO (calls dO [qO] om0) z y /\ z 0%nat = 2 /\ z 4%nat = 3.
Proof.
  destruct (run_backward dO qO O_bounds O_soft O_unmasked om0 [] eq_refl ltac:(intros ? []) sO O_kkt) as (z & y & K & E). exists z, y. split; [exact K|].
  split; [exact (E sO 0%nat 0%nat ltac:(cbn; lia) ltac:(unfold nv; cbn; lia))|exact (E sO 1%nat 0%nat ltac:(cbn; lia) ltac:(unfold nv; cbn; lia))].
Qed.

(** * A masked upper bound: minimise 1/2 u^2 - u subject to -5 <= u *)
Definition dM : qdims := mkD 0 (fun _ => O) (fun _ => 1%nat) (fun _ => 1%nat) (fun _ => O) (fun _ => O).
Definition qM : rqp := mkQp (A := real) (fun _ => li [-1]) (fun _ _ => 0) (fun _ => ey) (fun _ _ _ => 0) (fun _ _ => 0)
  (fun _ => li [-5; 0]) (fun _ => li [1; 0]) (fun _ _ _ => 0) (fun _ _ => O) (fun _ _ => (-1)%Z).
Definition sM : rsol := mkSol (A := real) (fun _ => li [1]) (fun _ _ => 0) (fun _ => li [0; 0]).
Lemma M_bounds : wf_bounds dM qM.
Proof. intros k i Hk Hi. cbn in *. split; [unfold nv; cbn; lia|]. intros j Hj _. lia. Qed.
Lemma M_soft : wf_soft dM qM.
Proof. intros k Hk. unfold nrow. cbn. split; [intros i Hi|reflexivity]; lia. Qed.
Lemma M_masks : masks01 dM qM.
Proof. intros k m Hk Hm. unfold nall in Hm. cbn in *. do 2 (destruct m as [|m]; [cbn; lra|]). lia. Qed.
Lemma M_kkt : kkt dM qM sM.
Proof.
  split; [|split; [|split]].
  - intros k r Hk Hr. unfold nv in Hr. cbn in Hr, Hk. replace r with O by lia. replace k with O by lia. unfold stat, sym, coef, nv, nrow; kk.
  - intros k j up Hk Hj. cbn in Hj. lia.
  - intros k c Hk. cbn in Hk. lia.
  - intros k m Hk Hm. unfold nall in Hm. cbn in Hk, Hm. replace k with O by lia. do 2 (destruct m as [|m]; [split; [|intros _; reflexivity]; intros C; unfold ineq, lin, slack, coef, nv, nrow in *; cbn in C; try (exfalso; unfold li in C; cbn in C; lra); kk|]). lia.
Qed.
Lemma M_mem z y : mem_kkt dM (calls dM [qM] om0) z y -> z 0%nat <= 0.
Proof. intros [_ _ KU _ _]. specialize (KU 0%nat ltac:(cbn; lia)). cbn in KU. unfold cent in KU. cbn in KU. unfold li in KU. cbn in KU. lra. Qed.
Lemma M_exists : mem_kkt dM (calls dM [qM] om0) (fun _ => 0) (fun _ => 1).
Proof.
  constructor.
  - intros c Hc. cbn in Hc. replace c with O by lia. unfold cent. cbn. unfold li, ey. cbn. lra.
  - intros r Hr. cbn in Hr. replace r with O by lia. unfold cent. cbn. unfold li. cbn. lra.
  - intros r Hr. cbn in Hr. replace r with O by lia. unfold cent. cbn. unfold li. cbn. lra.
  - intros r Hr. lra.
  - intros r Hr _. cbn in Hr. replace r with O by lia. unfold cent. cbn. unfold li. cbn. f_equal. lra.
Qed.
Lemma M_wrong out : ~ kkt dM qM (fill_in_qp_out dM qM (fun _ => 0) (fun _ => 1) out).
Proof.
  intros (_ & _ & _ & K). destruct (K 0%nat 1%nat ltac:(cbn; lia) ltac:(unfold nall; cbn; lia)) as [_ H]. specialize (H eq_refl). revert H.
  cbn -[Rle_dec Rleb]. change (@nleb real) with Rleb. destruct (Rleb_spec 1 0); [lra|]. cbn. lra.
Qed.

(** * The index map changes after the first call *)
Definition dI : qdims := mkD 0 (fun _ => O) (fun _ => 2%nat) (fun _ => 1%nat) (fun _ => O) (fun _ => O).
Definition qI (v : nat) : rqp := mkQp (A := real) (fun _ => li [-1; -1]) (fun _ _ => 0) (fun _ => ey) (fun _ _ _ => 0) (fun _ _ => 0)
  (fun _ => li [-5; 0]) (fun _ _ => 1) (fun _ _ _ => 0) (fun _ _ => v) (fun _ _ => (-1)%Z).
Lemma I_bounds v : (v < 2)%nat -> wf_bounds dI (qI v).
Proof. intros Hv k i Hk Hi. cbn in *. split; [unfold nv; cbn; lia|]. intros j Hj _. lia. Qed.
Lemma I_soft v : wf_soft dI (qI v).
Proof. intros k Hk. unfold nrow. cbn. split; [intros i Hi|reflexivity]; lia. Qed.
Lemma I_unmasked v : unmasked dI (qI v).
Proof. intros k m _ _. cbn. lra. Qed.
Definition zI (c : nat) : R := li [0; 1] c.
Lemma I_exists : mem_kkt dI (calls dI [qI 0; qI 1] om0) zI (fun _ => 1).
Proof.
  constructor.
  - intros c Hc. cbn in Hc. destruct c as [|[|c]]; [| |lia]; unfold cent, zI; cbn; unfold li, ey; cbn; lra.
  - intros r Hr. cbn in Hr. replace r with O by lia. unfold cent, zI. cbn. unfold li. cbn. lra.
  - intros r Hr. cbn in Hr. replace r with O by lia. unfold cent, zI. cbn. unfold li. cbn. lra.
  - intros r Hr. lra.
  - intros r Hr _. cbn in Hr. replace r with O by lia. unfold cent, zI. cbn. unfold li. cbn. f_equal. lra.
Qed.
(** the returned point violates the bound on the second variable *)
Lemma I_wrong out : ~ feasible dI (qI 1) (s_ux (fill_in_qp_out dI (qI 1) zI (fun _ => 1) out)).
Proof.
  intros [_ K]. specialize (K 0%nat 1%nat ltac:(cbn; lia) ltac:(unfold nall; cbn; lia) ltac:(cbn; lra)). revert K. unfold ineq, lin, slack, coef, nv, nrow, zI. cbn. unfold li. cbn. lra.
Qed.

(** * One slack for three constraints *)
Definition dS : qdims := mkD 0 (fun _ => O) (fun _ => 2%nat) (fun _ => O) (fun _ => 3%nat) (fun _ => 1%nat).
Definition qS (rev : Z) : rqp := mkQp (A := real) (fun _ _ => 0) (fun _ _ => 0) (fun _ => ey) (fun _ _ _ => 0) (fun _ _ => 0)
  (fun _ => li [-1; -1; -1; -1; -1; -1; 0; 0]) (fun _ _ => 1) (fun _ _ _ => 1) (fun _ _ => O) (fun _ _ => rev).
Lemma S_overflow m : A_x (update_memory dS (qS 0) m) = over (concat (con_cols_vals dS (qS 0))) (A_x m) /\ length (concat (con_cols_vals dS (qS 0))) = 20%nat /\ nnzmax_A dS = 16%nat /\
  length (concat (con_cols_rows dS (qS 0))) = 20%nat.
Proof. repeat split. Qed.

(** * A slack that softens nothing: the bound of its row keeps the old value *)
Definition sS : rsol := mkSol (A := real) (fun _ _ => 0) (fun _ _ => 0) (fun _ _ => 0).
Lemma S_kkt : kkt dS (qS (-1)) sS.
Proof.
  split; [|split; [|split]].
  - intros k r Hk Hr. unfold nv in Hr. cbn in Hr, Hk. replace k with O by lia. destruct r as [|[|r]]; [| |lia]; unfold stat, sym, coef, nv, nrow; kk.
  - intros k j up Hk Hj. cbn in Hj, Hk. replace k with O by lia. replace j with O by lia. destruct up; unfold stat_slack, nv, nrow; kk.
  - intros k c Hk. cbn in Hk. lia.
  - intros k m Hk Hm. unfold nall in Hm. cbn in Hk, Hm. replace k with O by lia. split; [|cbn; intros C; lra]. intros _. do 8 (destruct m as [|m]; [unfold ineq, lin, slack, coef, nv, nrow; kk|]). lia.
Qed.
Lemma S_stale m : first_run m = true -> ub m 3%nat = Fin (A := real) (-1) -> forall z y, ~ mem_kkt dS (update_memory dS (qS (-1)) m) z y.
Proof.
  intros F U z y [_ _ KU _ _]. specialize (KU 3%nat ltac:(cbn; lia)). revert KU. unfold update_memory. rewrite F. cbn [A_p A_i A_x ub].
  change (store (ub m) (stores_u dS (qS (-1))) 3%nat) with (ub m 3%nat). rewrite U. unfold cent, over. cbn. lra.
Qed.

(** * Two bounds on one variable: the second row of the matrix stays empty *)
Definition dT : qdims := mkD 0 (fun _ => O) (fun _ => 1%nat) (fun _ => 2%nat) (fun _ => O) (fun _ => O).
Definition qT : rqp := mkQp (A := real) (fun _ => li [-2]) (fun _ _ => 0) (fun _ => ey) (fun _ _ _ => 0) (fun _ _ => 0)
  (fun _ => li [-5; 1; -5; -5]) (fun _ _ => 1) (fun _ _ _ => 0) (fun _ _ => O) (fun _ _ => (-1)%Z).
Definition sT : rsol := mkSol (A := real) (fun _ => li [2]) (fun _ _ => 0) (fun _ _ => 0).
Lemma T_kkt : kkt dT qT sT.
Proof.
  split; [|split; [|split]].
  - intros k r Hk Hr. unfold nv in Hr. cbn in Hr, Hk. replace k with O by lia. replace r with O by lia. unfold stat, sym, coef, nv, nrow; kk.
  - intros k j up Hk Hj. cbn in Hj. lia.
  - intros k c Hk. cbn in Hk. lia.
  - intros k m Hk Hm. unfold nall in Hm. cbn in Hk, Hm. replace k with O by lia. split; [|cbn; intros C; lra]. intros _. do 4 (destruct m as [|m]; [unfold ineq, lin, slack, coef, nv, nrow; kk|]). lia.
Qed.
Lemma T_none z y : ~ mem_kkt dT (calls dT [qT] om0) z y.
Proof. intros [_ KL _ _ _]. specialize (KL 1%nat ltac:(cbn; lia)). revert KL. unfold cent. cbn. unfold li. cbn. lra. Qed.

Lemma S_refuted : exists d (q : rqp), (forall k i, (k <= qN d)%nat -> (0 <= q_rev q k i < Z.of_nat (qns d k))%Z) /\
  (nnzmax_A d < length (concat (con_cols_rows d q)))%nat /\ (nnzmax_A d < length (concat (con_cols_vals d q)))%nat.
Proof. exists dS, (qS 0). split; [intros k i _; cbn; lia|]. destruct (S_overflow om0) as (_ & -> & -> & ->). lia. Qed.
Lemma M_refuted : exists d q m0 s, wf_bounds d q /\ wf_soft d q /\ masks01 d q /\ first_run m0 = true /\ kkt d q s /\ s_ux s 0%nat 0%nat = 1 /\
  (exists z y, mem_kkt d (calls d [q] m0) z y /\ forall out, ~ kkt d q (fill_in_qp_out d q z y out)) /\
  (forall z y, mem_kkt d (calls d [q] m0) z y -> z 0%nat <= 0).
Proof.
  exists dM, qM, om0, sM. split; [exact M_bounds|]. split; [exact M_soft|]. split; [exact M_masks|]. split; [reflexivity|]. split; [exact M_kkt|]. split; [reflexivity|]. split; [|exact M_mem].
  exists (fun _ => 0), (fun _ => 1). split; [exact M_exists|exact M_wrong].
Qed.
Lemma I_refuted : exists d q1 q2 m0 z y, wf_bounds d q1 /\ wf_bounds d q2 /\ wf_soft d q1 /\ wf_soft d q2 /\ unmasked d q2 /\ first_run m0 = true /\
  mem_kkt d (calls d [q1; q2] m0) z y /\ forall out, ~ feasible d q2 (s_ux (fill_in_qp_out d q2 z y out)).
Proof.
  exists dI, (qI 0), (qI 1), om0, zI, (fun _ => 1). split; [apply I_bounds; lia|]. split; [apply I_bounds; lia|]. split; [apply I_soft|]. split; [apply I_soft|]. split; [apply I_unmasked|].
  split; [reflexivity|]. split; [exact I_exists|exact I_wrong].
Qed.
Lemma U_refuted : exists d q s, wf_bounds d q /\ unmasked d q /\ kkt d q s /\
  forall m, first_run m = true -> ub m 3%nat = Fin (A := real) (-1) -> forall z y, ~ mem_kkt d (update_memory d q m) z y.
Proof.
  exists dS, (qS (-1)), sS. split; [intros k i _ Hi; cbn in Hi; lia|]. split; [intros k m _ _; cbn; lra|]. split; [exact S_kkt|exact S_stale].
Qed.
Lemma T_refuted : exists d q m0 s, wf_soft d q /\ unmasked d q /\ first_run m0 = true /\ kkt d q s /\ forall z y, ~ mem_kkt d (calls d [q] m0) z y.
Proof.
  exists dT, qT, om0, sT. split; [intros k Hk; unfold nrow; cbn; split; [intros i Hi|reflexivity]; lia|]. split; [intros k m _ _; cbn; lra|]. split; [reflexivity|]. split; [exact T_kkt|exact T_none].
Qed.
