(** Concrete dense QPs for the qpOASES interface. *)
From Coq Require Import ZArith List Bool Lia Reals Lra Arith.
From Verif Require Import Arr Arith Vec LinModel RSum DenseModel QpoModel DenseSpec DenseProofs StackProofs QpoProofs QpoTop QpoKkt.
Import ListNotations.
Open Scope R_scope.

Definition lr (l : list R) (k : nat) : R := nth k l 0.
Definition eyem (r c : nat) : R := if (r =? c)%nat then 1 else 0.
Definition o0 : rdqp := mkDq (A := real) (fun _ _ => 7) (fun _ => 7) (fun _ => 7) (fun _ _ => 7) (fun _ => 7) (fun _ _ => 7) (fun _ => 7) (fun _ => 7) (fun _ => 7) (fun _ => O) (fun _ => 0%Z).
Definition s0 : rdsol := mkDs (A := real) (fun _ => 9) (fun _ => 9) (fun _ => 9) (fun _ => 9).
Definition dense (g Zs d mask : list R) (H C : nat -> nat -> R) (idxb : list nat) (rev : list Z) : rdqp :=
  mkDq (A := real) H (lr g) (lr Zs) (fun _ _ => 0) (fun _ => 0) C (lr d) (fun _ => 0) (lr mask) (fun i => nth i idxb O) (fun k => nth k rev (-1)%Z).
Lemma Rltb_t a b : a < b -> Rltb a b = true. Proof. destruct (Rltb_spec a b); lra. Qed.
Lemma Rltb_f a b : b <= a -> Rltb a b = false. Proof. destruct (Rltb_spec a b); lra. Qed.
Lemma Rleb_t a b : a <= b -> Rleb a b = true. Proof. destruct (Rleb_spec a b); lra. Qed.
Lemma Rleb_f a b : b < a -> Rleb a b = false. Proof. destruct (Rleb_spec a b); lra. Qed.
Ltac dd := cbv -[Rplus Rmult Rminus Ropp Rinv Rltb Rleb IZR Rle Rlt Rdiv].
Ltac db := repeat (first [rewrite Rltb_t by lra | rewrite Rltb_f by lra | rewrite Rleb_t by lra | rewrite Rleb_f by lra]; dd).
(** the loop over the hard bounds without the comparisons *)
Definition bounds_c (d : ddims) (q o : rdqp) : vecR * (nat -> nat) * nat :=
  loop (dnb d) (fun n s => if hard q n then
    (vset (vset (fst (fst s)) (snd s) (dq_d q n)) (stk_nb d q + stk_ng d q + snd s) (- dq_d q (dnb d + dng d + n)%nat), iset (snd (fst s)) (snd s) n, S (snd s)) else s)
  (st_d (stack_rows d q o), st_idxb (stack_rows d q o), O).
Lemma bounds_comp d q o : (0 < dns d)%nat -> stack_bounds d q o = bounds_c d q o.
Proof.
  intros H. rewrite bt_bounds. unfold bounds_c. set (f := fun n s => _). cut (forall n, (n <= dnb d)%nat -> bt d q o n = loop n f (st_d (stack_rows d q o), st_idxb (stack_rows d q o), O)); [intros C; apply C; lia|].
  induction n as [|n IH]; intros L; [reflexivity|]. rewrite bt_S by (assumption || lia). rewrite loop_S, <- IH by lia. reflexivity.
Qed.
Ltac ev := unfold qpo_in, stack_slacks; cbv zeta; rewrite ?bounds_comp by (cbn; lia).

(** * A violated softened bound: minimise 1/2 x^2 + 5 x with 0 <= x <= 10 softened and -100 <= x <= 100 *)
Definition dV := mkDd 1 0 1 1 1.
Definition qV : rdqp := dense [5; 1; 1] [1; 1] [0; -100; -10; -100; 0; 0] [1; 1; 1; 1; 1; 1] eyem (fun _ _ => 1) [0%nat] [0%Z; (-1)%Z].
Definition xV : vecR := lr [-2; 2; 0].
Definition yV : vecR := lr [0; 0; 4; 0; 3].
Lemma V_own : own_bounds dV qV.
Proof. intros i Hi. cbn in *. replace i with O by lia. split; [cbn; lia|]. intros j Hj _. lia. Qed.
Lemma V_rows : one_row_each dV qV.
Proof.
  unfold one_row_each, drows. cbn. split; [|split].
  - intros k Hk. destruct k as [|[|k]]; [| |lia]; cbn; lia.
  - intros k l Hk Hl. destruct k as [|[|k]]; [| |lia]; (destruct l as [|[|l]]; [| |lia]); cbn; lia.
  - intros i Hi. exists O. cbn. lia.
Qed.
Lemma V_stack : stackable dV qV.
Proof.
  constructor; cbn.
  - intros i j H. lia.
  - intros _ i Hi. replace i with O by lia. cbn. lia.
  - intros e He. destruct e as [|[|e]]; [reflexivity|reflexivity|lia].
  - intros e He. destruct e as [|[|e]]; [| |lia]; unfold lr; cbn; lra.
Qed.
Lemma V_mask m : (m < dall dV)%nat -> dq_mask qV m = 1.
Proof. intros H. cbn in H. unfold dall in H. cbn in H. do 6 (destruct m as [|m]; [reflexivity|]). lia. Qed.
Lemma V_kkt : box_kkt (qpo_in 1000 dV qV o0) xV yV.
Proof.
  ev. constructor.
  - intros r Hr. cbv in Hr. do 3 (destruct r as [|r]; [dd; db; try lra|]). exfalso. lia.
  - intros r Hr. cbv in Hr. do 3 (destruct r as [|r]; [dd; db; try lra|]). exfalso. lia.
  - intros r Hr. cbv in Hr. do 2 (destruct r as [|r]; [dd; db; try lra|]). exfalso. lia.
Qed.

Definition outV := qpo_out dV qV (fun _ => O) true xV yV s0.
Lemma V_out : ds_v outV 0%nat = -2 /\ ds_v outV 1%nat = 2 /\ ds_lam outV 0%nat = 3 /\ ds_lam outV 5%nat = 1 /\ ds_t outV 0%nat = 0 /\ ds_t outV 2%nat = 12.
Proof. unfold outV. repeat split; dd; db; lra. Qed.

(** * The hard bound 0 <= x1 <= 10 put on x0 *)
Definition dB := mkDd 2 0 1 1 1.
Definition qB : rdqp := dense [0; 5; 1; 1] [1; 1] [0; 0; -10; -1; 0; 0] [1; 1; 1; 1; 1; 1] eyem (fun r _ => if (r =? 0)%nat then 1 else 0) [1%nat] [(-1)%Z; 0%Z].
Definition xB : vecR := lr [0; -5; 0; 0].
Definition yB : vecR := lr [0; 0; 1; 1; 0].
Lemma B_own : own_bounds dB qB.
Proof. intros i Hi. cbn in *. replace i with O by lia. split; [cbn; lia|]. intros j Hj _. lia. Qed.
Lemma B_rows : one_row_each dB qB.
Proof.
  unfold one_row_each, drows. cbn. split; [|split].
  - intros k Hk. destruct k as [|[|k]]; [| |lia]; cbn; lia.
  - intros k l Hk Hl. destruct k as [|[|k]]; [| |lia]; (destruct l as [|[|l]]; [| |lia]); cbn; lia.
  - intros i Hi. exists 1%nat. cbn. lia.
Qed.
Lemma B_rest : (forall e, (e < 2 * dns dB)%nat -> dq_d qB (2 * drows dB + e)%nat = 0 /\ 0 <= dq_Z qB e /\ 0 <= dq_g qB (dnv dB + e)%nat) /\ (forall m, (m < dall dB)%nat -> dq_mask qB m = 1).
Proof.
  split.
  - intros e He. cbn in He. destruct e as [|[|e]]; [| |lia]; dd; lra.
  - intros m H. unfold dall in H. cbn in H. do 6 (destruct m as [|m]; [reflexivity|]). lia.
Qed.
Lemma B_kkt : box_kkt (qpo_in 1000 dB qB o0) xB yB.
Proof.
  ev. constructor.
  - intros r Hr. cbv in Hr. do 4 (destruct r as [|r]; [dd; db; try lra|]). exfalso. lia.
  - intros r Hr. cbv in Hr. do 4 (destruct r as [|r]; [dd; db; try lra|]). exfalso. lia.
  - intros r Hr. cbv in Hr. do 1 (destruct r as [|r]; [dd; db; try lra|]). exfalso. lia.
Qed.
Lemma B_out i0 ct out : dineq dB qB (ds_v (qpo_out dB qB i0 ct xB yB out)) 0 = -5.
Proof. dd. lra. Qed.

(** * A masked lower bound *)
Definition dW := mkDd 1 0 1 0 0.
Definition qW : rdqp := dense [1] [] [0; -10] [0; 1] eyem (fun _ _ => 0) [0%nat] [(-1)%Z].
Lemma W_wf : own_bounds dW qW /\ one_row_each dW qW /\ stackable dW qW.
Proof.
  split; [|split].
  - intros i Hi. cbn in *. replace i with O by lia. split; [cbn; lia|]. intros j Hj _. lia.
  - unfold one_row_each, drows. cbn. split; [|split].
    + intros k Hk. replace k with O by lia. cbn. lia.
    + intros k l Hk Hl. lia.
    + intros i Hi. lia.
  - constructor; cbn; try lia; intros e He; lia.
Qed.
Lemma W_kkt : box_kkt (qpo_in 1000 dW qW o0) (lr [0]) (lr [1]).
Proof.
  ev. constructor.
  - intros r Hr. cbv in Hr. replace r with O by lia. dd; db; lra.
  - intros r Hr. cbv in Hr. replace r with O by lia. dd; db; lra.
  - intros r Hr. cbv in Hr. exfalso. lia.
Qed.
Lemma W_out sg i0 ct out : dstat dW qW sg (qpo_out dW qW i0 ct (lr [0]) (lr [1]) out) 0 = 1.
Proof. dd; db; lra. Qed.
Lemma W_solution : dkkt dW qW (-1) (mkDs (A := real) (fun _ => -1) (fun _ => 0) (fun _ => 0) (fun _ => 0)).
Proof.
  constructor.
  - intros r Hr. cbn in Hr. replace r with O by lia. dd; lra.
  - intros k up Hk. cbn in Hk. lia.
  - intros j Hj. cbn in Hj. lia.
  - intros m H. unfold dall in H. cbn in H. do 2 (destruct m as [|m]; [dd; intros C; lra|]). lia.
  - intros m _ _. reflexivity.
Qed.

(** * Slack bounds other than zero *)
Definition dZ := mkDd 1 0 1 0 1.
Definition qZ : rdqp := dense [5; 1; 1] [1; 1] [0; -1; 1; 1] [1; 1; 1; 1] eyem (fun _ _ => 0) [0%nat] [0%Z].
Definition xZ : vecR := lr [- (3 / 2); 5 / 2; 1].
Definition yZ : vecR := lr [0; 0; 11 / 2; 7 / 2].
Lemma Z_wf : own_bounds dZ qZ /\ one_row_each dZ qZ.
Proof.
  split.
  - intros i Hi. cbn in *. replace i with O by lia. split; [cbn; lia|]. intros j Hj _. lia.
  - unfold one_row_each, drows. cbn. split; [|split].
    + intros k Hk. replace k with O by lia. cbn. lia.
    + intros k l Hk Hl. lia.
    + intros i Hi. exists O. cbn. lia.
Qed.
Lemma Z_rest : (forall i j, (i < j < dnb dZ)%nat -> False) /\ (forall e, (e < 2 * dns dZ)%nat -> 0 < dq_Z qZ e /\ 0 < dq_g qZ (dnv dZ + e)%nat) /\ (forall m, (m < dall dZ)%nat -> dq_mask qZ m = 1).
Proof.
  split; [|split].
  - intros i j H. cbn in H. lia.
  - intros e He. cbn in He. destruct e as [|[|e]]; [| |lia]; dd; lra.
  - intros m H. unfold dall in H. cbn in H. do 4 (destruct m as [|m]; [reflexivity|]). lia.
Qed.
Lemma Z_kkt : box_kkt (qpo_in 1000 dZ qZ o0) xZ yZ.
Proof.
  ev. constructor.
  - intros r Hr. cbv in Hr. do 3 (destruct r as [|r]; [dd; db; try lra|]). exfalso. lia.
  - intros r Hr. cbv in Hr. do 3 (destruct r as [|r]; [dd; db; try lra|]). exfalso. lia.
  - intros r Hr. cbv in Hr. do 1 (destruct r as [|r]; [dd; db; try lra|]). exfalso. lia.
Qed.
Lemma Z_out i0 ct out : let s := qpo_out dZ qZ i0 ct xZ yZ out in ds_lam s 0%nat = 7 / 2 /\ dineq dZ qZ (ds_v s) 0 = 1.
Proof. cbv zeta. split; dd; db; lra. Qed.

(** * Two softened bounds whose slacks are numbered in the other order *)
Definition dP := mkDd 2 0 2 0 2.
Definition qP : rdqp := dense [5; 0; 1; 1; 1; 1] [1; 1; 1; 1] [0; 0; -10; -10; 0; 0; 0; 0] [1; 1; 1; 1; 1; 1; 1; 1] eyem (fun _ _ => 0) [0%nat; 1%nat] [1%Z; 0%Z].
Definition xP : vecR := lr [-2; 0; 0; 2; 0; 0].
Definition yP : vecR := lr [0; 0; 1; 0; 1; 4; 3; 0].
Lemma P_wf : own_bounds dP qP /\ one_row_each dP qP.
Proof.
  split.
  - intros i Hi. cbn in Hi. destruct i as [|[|i]]; [| |lia]; (split; [cbn; lia|]); intros j Hj; cbn in Hj; (destruct j as [|[|j]]; [| |lia]); cbn; lia.
  - unfold one_row_each, drows. cbn. split; [|split].
    + intros k Hk. destruct k as [|[|k]]; [| |lia]; cbn; lia.
    + intros k l Hk Hl. destruct k as [|[|k]]; [| |lia]; (destruct l as [|[|l]]; [| |lia]); cbn; lia.
    + intros i Hi. destruct i as [|[|i]]; [exists 1%nat|exists 0%nat|lia]; cbn; lia.
Qed.
Lemma P_rest : (forall i, (i < dnb dP)%nat -> dq_idxb qP i = i) /\ (forall e, (e < 2 * dns dP)%nat -> dq_d qP (2 * drows dP + e)%nat = 0 /\ 0 <= dq_Z qP e /\ 0 <= dq_g qP (dnv dP + e)%nat) /\
  (forall m, (m < dall dP)%nat -> dq_mask qP m = 1).
Proof.
  split; [|split].
  - intros i Hi. cbn in Hi. destruct i as [|[|i]]; [reflexivity|reflexivity|lia].
  - intros e He. cbn in He. do 4 (destruct e as [|e]; [dd; lra|]). lia.
  - intros m H. unfold dall in H. cbn in H. do 8 (destruct m as [|m]; [reflexivity|]). lia.
Qed.
Lemma P_kkt : box_kkt (qpo_in 1000 dP qP o0) xP yP.
Proof.
  ev. constructor.
  - intros r Hr. cbv in Hr. do 6 (destruct r as [|r]; [dd; db; try lra|]). exfalso. lia.
  - intros r Hr. cbv in Hr. do 6 (destruct r as [|r]; [dd; db; try lra|]). exfalso. lia.
  - intros r Hr. cbv in Hr. do 2 (destruct r as [|r]; [dd; db; try lra|]). exfalso. lia.
Qed.
Lemma P_out sg i0 ct out : dstat dP qP sg (qpo_out dP qP i0 ct xP yP out) 0 = 3.
Proof. dd; db; lra. Qed.

(** * A softened row that has to be violated by more than 1e6 *)
Definition dC := mkDd 1 0 1 1 1.
Definition qC : rdqp := dense [0; 1; 1] [1; 1] [0; 2000000; 0; -3000000; 0; 0] [1; 1; 1; 1; 1; 1] eyem (fun _ _ => 1) [0%nat] [(-1)%Z; 0%Z].
Definition sC : rdsol := mkDs (A := real) (lr [0; 2000000; 0]) (fun _ => 0) (lr [0; 2000001; 2000001; 0; 0; 1]) (fun _ => 0).
Lemma C_wf : own_bounds dC qC /\ one_row_each dC qC /\ stackable dC qC /\ forall m, (m < dall dC)%nat -> dq_mask qC m = 1.
Proof.
  split; [|split; [|split]].
  - intros i Hi. cbn in *. replace i with O by lia. split; [cbn; lia|]. intros j Hj _. lia.
  - unfold one_row_each, drows. cbn. split; [|split].
    + intros k Hk. destruct k as [|[|k]]; [| |lia]; cbn; lia.
    + intros k l Hk Hl. destruct k as [|[|k]]; [| |lia]; (destruct l as [|[|l]]; [| |lia]); cbn; lia.
    + intros i Hi. exists 1%nat. cbn. lia.
  - constructor; cbn.
    + intros i j H. lia.
    + intros _ i Hi _. replace i with O by lia. reflexivity.
    + intros e He. destruct e as [|[|e]]; [reflexivity|reflexivity|lia].
    + intros e He. destruct e as [|[|e]]; [| |lia]; dd; lra.
  - intros m H. unfold dall in H. cbn in H. do 6 (destruct m as [|m]; [reflexivity|]). lia.
Qed.
Lemma C_kkt sg : dkkt dC qC sg sC.
Proof.
  constructor.
  - intros r Hr. cbn in Hr. replace r with O by lia. dd; lra.
  - intros k up Hk. cbn in Hk. replace k with O by lia. destruct up; dd; lra.
  - intros j Hj. cbn in Hj. lia.
  - intros m H _. unfold dall in H. cbn in H. do 6 (destruct m as [|m]; [dd; lra|]). lia.
  - intros m H E. rewrite (proj2 (proj2 (proj2 C_wf)) m H) in E. lra.
Qed.
Lemma C_none inf o x y : ~ box_kkt (qpo_in inf dC qC o) x y.
Proof.
  ev. intros K. destruct (bk_row _ _ _ K 0%nat ltac:(cbv; lia)) as [R _]. destruct (bk_box _ _ _ K 0%nat ltac:(cbv; lia)) as [B0 _]. destruct (bk_box _ _ _ K 1%nat ltac:(cbv; lia)) as [B1 _]. destruct (bk_box _ _ _ K 2%nat ltac:(cbv; lia)) as [B2 _].
  revert R B0 B1 B2. dd; db. lra.
Qed.

(** * Equality constraints *)
Definition dE := mkDd 1 1 0 0 0.
Definition qE : rdqp := mkDq (A := real) eyem (lr [0]) (fun _ => 0) (fun _ _ => 1) (fun _ => 1) (fun _ _ => 0) (fun _ => 0) (fun _ => 0) (fun _ => 1) (fun _ => O) (fun _ => (-1)%Z).
Lemma E_kkt : box_kkt (qpo_in 1000 dE qE o0) (lr [0]) (lr [0]).
Proof.
  ev. constructor.
  - intros r Hr. cbv in Hr. replace r with O by lia. dd; lra.
  - intros r Hr. cbv in Hr. replace r with O by lia. dd; lra.
  - intros r Hr. cbv in Hr. exfalso. lia.
Qed.
Lemma E_out i0 ct out : sum 1 (fun r => dq_A qE 0%nat r * ds_v (qpo_out dE qE i0 ct (lr [0]) (lr [0]) out) r) = 0 /\ dq_b qE 0%nat = 1.
Proof. split; dd; lra. Qed.

(** * A second call with another Hessian *)
Definition dH := mkDd 1 0 0 1 0.
Definition qH (h : R) : rdqp := dense [-2] [] [-10; -10] [1; 1] (fun _ _ => h) (fun _ _ => 1) [] [(-1)%Z].
Definition hot : qpo_opts := mkQo true false true true.
Lemma H_wf h : own_bounds dH (qH h) /\ one_row_each dH (qH h) /\ stackable dH (qH h) /\ forall m, (m < dall dH)%nat -> dq_mask (qH h) m = 1.
Proof.
  split; [|split; [|split]].
  - intros i Hi. cbn in *. lia.
  - unfold one_row_each, drows. cbn. split; [|split].
    + intros k Hk. replace k with O by lia. cbn. lia.
    + intros k l Hk Hl. lia.
    + intros i Hi. lia.
  - constructor; cbn; try lia; intros e He; lia.
  - intros m H. unfold dall in H. cbn in H. do 2 (destruct m as [|m]; [reflexivity|]). lia.
Qed.
Definition B2 : bool * box real := qpo_calls hot [qpo_in 1000 dH (qH 1) o0; qpo_in 1000 dH (qH 2) o0] (true, qpo_in 1000 dH (qH 1) o0).
Lemma H_kkt : box_kkt (snd B2) (lr [2]) (lr [0; 0]).
Proof.
  constructor.
  - intros r Hr. cbv in Hr. replace r with O by lia. dd; lra.
  - intros r Hr. cbv in Hr. replace r with O by lia. dd; lra.
  - intros r Hr. cbv in Hr. replace r with O by lia. dd; lra.
Qed.
Lemma H_out sg i0 ct out : dstat dH (qH 2) sg (qpo_out dH (qH 2) i0 ct (lr [2]) (lr [0; 0]) out) 0 = 2.
Proof. dd; db; lra. Qed.
