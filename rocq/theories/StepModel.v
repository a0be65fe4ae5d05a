(** Iterate updates: acados/ocp_nlp/ocp_nlp_common.c:3292-3348 ocp_nlp_update_variables_sqp and
    acados/ocp_nlp/ocp_nlp_ddp.c:334-430 ocp_nlp_ddp_compute_trial_iterate.

    The vectors ux, lam, pi, z of the iterates live in a heap indexed by (object, field, stage), so
    that the source and the destination of an update may be the same object (they are, for the full SQP step and
    for the fixed step globalization).  BLASFEO vector operations are element loops that read their
    operands when the element is written.  The QP solver's gains K, k and the dynamics are parameters. *)
From Coq Require Import ZArith List Bool.
From Verif Require Import Arith Vec LinModel.

Inductive field := Fux | Flam | Fpi | Fz.
Definition field_eqb (a b : field) : bool := match a, b with Fux, Fux | Flam, Flam | Fpi, Fpi | Fz, Fz => true | _, _ => false end.

Section S.
Variable A : arith.
Notation T := (num A).
Notation vec := (nat -> T).
Local Open Scope num_scope.

Definition heap := nat -> field -> nat -> vec.  (* object, field, stage *)
Definition hset (h : heap) (ob : nat) (f : field) (st k : nat) (x : T) : heap :=
  fun ob' f' st' => if ((ob' =? ob)%nat && field_eqb f' f && (st' =? st)%nat)%bool then vset (h ob' f' st') k x else h ob' f' st'.
(** element loop writing n entries of (ob, f, st) from offset zi *)
Definition emap (n : nat) (ob : nat) (f : field) (st zi : nat) (g : heap -> nat -> T) (h : heap) : heap :=
  loop n (fun k h => hset h ob f st (zi + k) (g h k)) h.

Record sdims := mkSdims { sN : nat; snx : nat -> nat; snu : nat -> nat; sni : nat -> nat; snv : nat -> nat; snz : nat -> nat }.
(** mem->dzduxt (row index over (u, x), column over z) and mem->z_alg *)
Record zdata := mkZdata { dzduxt : nat -> nat -> nat -> T; z_alg : nat -> vec }.
Variable d : sdims.
Variable zd : zdata.
Variables src qp dst : nat.  (* object numbers of out_start, qp_out, out_destination *)
Variable alpha : T.

(** :3340-3342; blasfeo_dgemv_t *)
Definition z_update (i : nat) (h : heap) : heap :=
  if (i <? sN d)%nat then emap (snz d i) dst Fz i 0 (fun h k => vsum (snu d i + snx d i) (fun r => dzduxt zd i r k * h qp Fux i r) * alpha + z_alg zd i k) h else h.
(** :3319-3334 *)
Definition dual_update (full : bool) (i : nat) (h : heap) : heap :=
  if full then
    let h := emap (2 * sni d i) dst Flam i 0 (fun h k => h qp Flam i k) h in
    if (i <? sN d)%nat then emap (snx d (S i)) dst Fpi i 0 (fun h k => h qp Fpi i k) h else h
  else
    let h := emap (2 * sni d i) dst Flam i 0 (fun h k => (1 - alpha) * h src Flam i k + alpha * h qp Flam i k) h in
    if (i <? sN d)%nat then emap (snx d (S i)) dst Fpi i 0 (fun h k => (1 - alpha) * h src Fpi i k + alpha * h qp Fpi i k) h else h.
Definition update_variables_sqp (full : bool) (h : heap) : heap :=
  loop (S (sN d)) (fun i h =>
    let h := emap (snv d i) dst Fux i 0 (fun h k => h src Fux i k + alpha * h qp Fux i k) h in
    z_update i (dual_update full i h)) h.

(** ** DDP *)
Variable K : nat -> nat -> nat -> T.   (* solver_get "K" *)
Variable kff : nat -> vec.             (* solver_get "k" *)
Variable phi : nat -> vec -> vec.      (* the dynamics function of stage i, argument the ux vector *)
(** ocp_nlp_ddp.c:385-387 tmp_nv: k in 0..nu-1, x - xbar from nu on, then the product added to alpha*k *)
Definition ddp_du (i : nat) (h : heap) : vec := fun r =>
  vsum (snx d i) (fun c => K i r c * ((0 - 1) * h src Fux i (snu d i + c)%nat + h dst Fux i (snu d i + c)%nat)) + alpha * kff i r.
Definition ddp_stage (i : nat) (h : heap) : heap :=
  let du := ddp_du i h in
  let h := emap (snu d i) dst Fux i 0 (fun h r => h src Fux i r + du r) h in
  (* :391-396 dynamics module at the new ux; its "next state" pointer still is the source iterate *)
  let fn : vec := fun r => phi i (h dst Fux i) r - h src Fux (S i) (snu d (S i) + r)%nat in
  emap (snx d (S i)) dst Fux (S i) (snu d (S i)) (fun h r => fn r + h src Fux (S i) (snu d (S i) + r)%nat) h.
Definition ddp_primal (h : heap) : heap :=
  let h := emap (snx d 0) dst Fux 0 (snu d 0) (fun h k => h src Fux 0%nat (snu d 0 + k)%nat + alpha * h qp Fux 0%nat (snu d 0 + k)%nat) h in
  loop (sN d) ddp_stage h.
(** :404-422: the old multipliers are those found in the destination *)
Definition ddp_dual (full : bool) (i : nat) (h : heap) : heap :=
  if full then
    let h := emap (2 * sni d i) dst Flam i 0 (fun h k => h qp Flam i k) h in
    if (i <? sN d)%nat then emap (snx d (S i)) dst Fpi i 0 (fun h k => h qp Fpi i k) h else h
  else
    let h := emap (2 * sni d i) dst Flam i 0 (fun h k => (1 - alpha) * h dst Flam i k) h in
    let h := emap (2 * sni d i) dst Flam i 0 (fun h k => h dst Flam i k + alpha * h qp Flam i k) h in
    if (i <? sN d)%nat then
      let h := emap (snx d (S i)) dst Fpi i 0 (fun h k => (1 - alpha) * h dst Fpi i k) h in
      emap (snx d (S i)) dst Fpi i 0 (fun h k => h dst Fpi i k + alpha * h qp Fpi i k) h
    else h.
Definition ddp_trial (full : bool) (h : heap) : heap :=
  loop (S (sN d)) (fun i h => z_update i (ddp_dual full i h)) (ddp_primal h).
End S.
Arguments hset {A}. Arguments emap {A}. Arguments mkZdata {A}. Arguments dzduxt {A}. Arguments z_alg {A}. Arguments z_update {A}. Arguments dual_update {A}. Arguments update_variables_sqp {A}.
Arguments ddp_du {A}. Arguments ddp_stage {A}. Arguments ddp_primal {A}. Arguments ddp_dual {A}. Arguments ddp_trial {A}.

(** ** where the DDP update takes its full_step_dual flag from (ocp_nlp_ddp.c:357, :407)

    opts->globalization points to the options struct of the chosen globalization, which starts with a pointer to the
    common options (merit backtracking) or with the step length followed by that pointer (fixed step).  The
    update reads the int at offset 8, the position of full_step_dual in the common options.  In the
    merit backtracking options that is the first int behind the pointer, where opts_assign
    (merit_backtracking.c:94-105) has placed the common options: use_SOC.  In the fixed step options it is the
    low half of the pointer. *)
Record glob_opts := mkGlobOpts { use_SOC : Z; ls_sufficient_descent : Z; full_step_dual : Z }.
Inductive glob := MeritBacktracking (g : glob_opts) | FixedStep (ptr_low : Z) (g : glob_opts).
Definition ddp_full_flag (gl : glob) : bool :=
  negb (Z.eqb (match gl with MeritBacktracking g => use_SOC g | FixedStep ptr_low g => ptr_low end) 0).
Definition glob_common (gl : glob) : glob_opts := match gl with MeritBacktracking g => g | FixedStep _ g => g end.
