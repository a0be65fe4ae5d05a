(** KKT residual norms: acados/ocp_nlp/ocp_nlp_common.c:3680-3795 ocp_nlp_res_compute, ocp_nlp_res_get_inf_norm.

    blasfeo_dvecnrm_inf is an external routine and a parameter here.  The element loops of blasfeo_daxpy,
    blasfeo_dvecmul, blasfeo_dvecad on distinct vectors are written as functions of the index.  The scratch vector
    res->tmp is threaded through the whole function, because its entries survive from one part to the next. *)
From Coq Require Import ZArith List Bool.
From Verif Require Import Arith Vec LinModel.

Section S.
Variable A : arith.
Notation T := (num A).
Notation vec := (nat -> T).
Local Open Scope num_scope.
Variable nrm : nat -> vec -> T.  (* blasfeo_dvecnrm_inf(m, x, 0, &.) *)

Record res_in := mkResIn {
  rN : nat; rnv : nat -> nat; rnx : nat -> nat; rnu : nat -> nat; rni : nat -> nat;
  cost_grad : nat -> vec; ineq_adj : nat -> vec; dyn_adj : nat -> vec; dyn_fun : nat -> vec; ineq_fun : nat -> vec;
  rlam : nat -> vec; dmask : nat -> vec; tau_min : T;
  rne : nat -> nat;                 (* nbue + nbxe + nge *)
  idxe : nat -> nat -> nat }.
Record res_out := mkResOut { inf_norm_res_stat : T; inf_norm_res_eq : T; inf_norm_res_ineq : T; inf_norm_res_comp : T; res_tmp : vec }.
Variable r : res_in.

(** :3697-3700 *)
Definition res_stat (i : nat) : vec := fun k =>
  let z := cost_grad r i k + (0 - 1) * ineq_adj r i k in
  if (k <? rnu r i + rnx r i)%nat then z + (0 - 1) * dyn_adj r i k else z.
(** :3695-3703 *)
Definition tmp_stat (tmp : vec) : vec := loop (S (rN r)) (fun i tmp => vset tmp i (nrm (rnv r i) (res_stat i))) tmp.
(** :3707-3712 *)
Definition tmp_eq (tmp : vec) : vec := loop (rN r) (fun i tmp => vset tmp i (nrm (rnx r (S i)) (dyn_fun r i))) tmp.
(** :3716-3727 *)
Definition ineq_norm : T :=
  loop (S (rN r)) (fun i n => loop (2 * rni r i) (fun j n => let tmp := ineq_fun r i j in if nltb n tmp then tmp else n) n) 0.
(** :3750-3762 *)
Definition zero_equalities (i : nat) (v : vec) : vec :=
  loop (rne r i) (fun j v => vset (vset v (idxe r i j) 0) (idxe r i j + rni r i) 0) v.
Definition res_comp_tau (i : nat) : vec :=
  let v : vec := fun k => rlam r i k * ineq_fun r i k + 1 * tau_min r in
  let v := zero_equalities i v in
  fun k => dmask r i k * v k.
Definition tmp_comp_tau (tmp : vec) : vec :=
  loop (S (rN r)) (fun i tmp => if (0 <? rni r i)%nat then vset tmp i (nrm (2 * rni r i) (res_comp_tau i)) else tmp) tmp.
(** :3773-3778 *)
Definition tmp_comp (tmp : vec) : vec :=
  loop (S (rN r)) (fun i tmp => vset tmp i (nrm (2 * rni r i) (fun k => rlam r i k * ineq_fun r i k))) tmp.

Definition neqb (x y : T) : bool := negb (nleb x y && nleb y x).  (* x != y *)
Definition res_compute (tmp : vec) : res_out :=
  let tmp := tmp_stat tmp in
  let rs := nrm (rN r + 1) tmp in
  let tmp := tmp_eq tmp in
  let re := nrm (rN r) tmp in
  let ri := ineq_norm in
  let tmp := if neqb (tau_min r) 0 then tmp_comp_tau tmp else tmp_comp tmp in
  mkResOut rs re ri (nrm (rN r + 1) tmp) tmp.

(** :3784-3791 *)
Definition res_get_inf_norm (o : res_out) : T :=
  let n := inf_norm_res_stat o in
  let n := if nltb n (inf_norm_res_eq o) then inf_norm_res_eq o else n in
  let n := if nltb n (inf_norm_res_ineq o) then inf_norm_res_ineq o else n in
  if nltb n (inf_norm_res_comp o) then inf_norm_res_comp o else n.
End S.
Arguments mkResIn {A}. Arguments rN {A}. Arguments rnv {A}. Arguments rnx {A}. Arguments rnu {A}. Arguments rni {A}. Arguments cost_grad {A}. Arguments ineq_adj {A}. Arguments dyn_adj {A}.
Arguments dyn_fun {A}. Arguments ineq_fun {A}. Arguments rlam {A}. Arguments dmask {A}. Arguments tau_min {A}. Arguments rne {A}. Arguments idxe {A}.
Arguments inf_norm_res_stat {A}. Arguments inf_norm_res_eq {A}. Arguments inf_norm_res_ineq {A}. Arguments inf_norm_res_comp {A}. Arguments res_tmp {A}.
Arguments res_stat {A}. Arguments tmp_stat {A}. Arguments tmp_eq {A}. Arguments ineq_norm {A}. Arguments zero_equalities {A}. Arguments res_comp_tau {A}. Arguments tmp_comp_tau {A}. Arguments tmp_comp {A}. Arguments neqb {A}. Arguments res_compute {A}. Arguments res_get_inf_norm {A}.
