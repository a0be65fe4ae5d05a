(** Scaling of the quadratic subproblem: acados/ocp_nlp/ocp_nlp_qpscaling.c:240-680, and the tolerances derived from the
    scaling in acados/ocp_nlp/ocp_nlp_common.c:4487-4515.

    An OCP QP is a record of functions of the stage; vectors and matrices are functions of their indices.  The scaled QP shares
    with the original the fields that ocp_nlp_qpscaling_precompute aliases: [alias_in] and [alias_out] give the scaled objects
    as seen through those pointers.  blasfeo_dvecnrm_inf is a parameter.  The last row of BAbt and RSQrq (copies of b and rq
    that the QP solver maintains) and the fields m, diag_H_flag, idxe and misc are left out. *)
From Coq Require Import ZArith List Bool.
From Verif Require Import Arith Vec LinModel.

Section Q.
Variable A : arith.
Notation T := (num A).
Notation vec := (nat -> T).
Notation mat := (nat -> nat -> T).
Local Open Scope num_scope.

(** d_ocp_qp_dim *)
Record qdims := mkD { qN : nat; qnx : nat -> nat; qnu : nat -> nat; qnb : nat -> nat; qng : nat -> nat; qns : nat -> nat }.
(** d_ocp_qp: rqz = (r, q, zl, zu), d = (lb, lg, -ub, -ug, lls, lus), DCt column j is the gradient of constraint j *)
Record qp := mkQp {
  q_rqz : nat -> vec; q_Z : nat -> vec; q_H : nat -> mat; q_BA : nat -> mat; q_b : nat -> vec;
  q_d : nat -> vec; q_mask : nat -> vec; q_DC : nat -> mat; q_idxb : nat -> nat -> nat; q_rev : nat -> nat -> Z }.
(** d_ocp_qp_sol *)
Record qsol := mkSol { s_ux : nat -> vec; s_pi : nat -> vec; s_lam : nat -> vec }.
(** ocp_nlp_qpscaling.h:57-66, :69-76 *)
Record qopts := mkO { o_ub : T; o_lb : T; o_obj : bool; o_con : bool }.
Record qmem := mkQM { m_status : Z; m_fac : T; m_sc : nat -> vec; m_in : qp; m_out : qsol }.

(** blasfeo_dveccp, blasfeo_dveccpsc, blasfeo_dgecpsc *)
Definition cp (n : nat) (x y : vec) : vec := fun k => if (k <? n)%nat then x k else y k.
Definition cpsc (n : nat) (a : T) (x y : vec) : vec := fun k => if (k <? n)%nat then a * x k else y k.
Definition mcpsc (n m : nat) (a : T) (X Y : mat) : mat := fun r c => if (r <? n)%nat && (c <? m)%nat then a * X r c else Y r c.
(** BLASFEO_DVECEL(v, k) *= a, /= a *)
Definition vmul (k : nat) (a : T) (v : vec) : vec := vset v k (v k * a).
Definition vdiv (k : nat) (a : T) (v : vec) : vec := vset v k (v k / a).

(** :418-475 ocp_nlp_qpscaling_precompute *)
Definition alias_in (o : qopts) (q s : qp) : qp :=
  if o_con o then
    mkQp (q_rqz s) (q_Z s) (if o_obj o then q_H s else q_H q) (q_BA q) (q_b q) (q_d s) (q_mask q) (q_DC s) (q_idxb q) (q_rev q)
  else if o_obj o then
    mkQp (q_rqz s) (q_Z s) (q_H s) (q_BA q) (q_b q) (q_d q) (q_mask q) (q_DC q) (q_idxb q) (q_rev q)
  else q.
(** the unscaled solution object, given the solver's output in the scaled one *)
Definition alias_out (o : qopts) (out s : qsol) : qsol :=
  if o_con o then out else if o_obj o then mkSol (s_ux s) (s_pi out) (s_lam out) else s.

(** :313-323 norm_inf_matrix_col *)
Definition col_norm (col n : nat) (M : mat) : T := loop n (fun j m => nmax m (nabs (M j col))) 0.

(** :483-540 ocp_nlp_qpscaling_compute_obj_scaling_factor *)
Section Factor.
Variable nrm : nat -> vec -> T.  (* blasfeo_dvecnrm_inf(n, x, 0, &.) *)
Definition eig_grad (d : qdims) (q : qp) : T * T :=
  loop (S (qN d)) (fun i (s : T * T) =>
    let e := nmax (fst s) (gersh_max (qnx d i + qnu d i) (q_H q i)) in
    let e := nmax e (nrm (2 * qns d i)%nat (q_Z q i)) in
    (e, nmax (snd s) (nabs (nrm (qnx d i + qnu d i + 2 * qns d i)%nat (q_rqz q i))))) (0, 0).
(** the factor, and whether the status becomes ACADOS_QPSCALING_BOUNDS_NOT_SATISFIED *)
Definition obj_factor (ub lb eig grad : T) : T * bool :=
  let low := eig <? ub in
  let f := if low then 1 else ub / eig in
  let up := if low then ub / eig else f in
  if f * grad <=? lb then (nmax f (nmin up (lb / grad)), true) else (f, false).
(** :376-390 ocp_qp_scale_objective *)
Definition scale_objective (d : qdims) (q : qp) (f : T) (s : qp) : qp :=
  let stage {X : Type} (new old : nat -> X) : nat -> X := fun i => if (i <=? qN d)%nat then new i else old i in
  mkQp (stage (fun i => cpsc (qnx d i + qnu d i + 2 * qns d i) f (q_rqz q i) (q_rqz s i)) (q_rqz s))
       (stage (fun i => cpsc (2 * qns d i) f (q_Z q i) (q_Z s i)) (q_Z s))
       (stage (fun i => mcpsc (qnx d i + qnu d i) (qnx d i + qnu d i) f (q_H q i) (q_H s i)) (q_H s))
       (q_BA s) (q_b s) (q_d s) (q_mask s) (q_DC s) (q_idxb s) (q_rev s).

(** :544-624 ocp_nlp_qpscaling_scale_constraints, one constraint of one stage *)
Record cst := mkC { c_d : vec; c_rqz : vec; c_Z : vec; c_DC : mat; c_sc : vec }.
Definition eq1 (x : T) : bool := (x <=? 1) && (1 <=? x).   (* x == 1.0 *)
Definition scale_row (nx nu nb ng ns : nat) (DC : mat) (mask dv : vec) (rev : nat -> Z) (j : nat) (s : cst) : cst :=
  let coeff := col_norm j (nu + nx) DC in
  let ml := mask (nb + j)%nat in
  let mu := mask (2 * nb + ng + j)%nat in
  let bound := nmax (nabs (ml * dv (nb + j)%nat)) (nabs (mu * dv (2 * nb + ng + j)%nat)) in
  let sf := 1 / nmax 1 (nmax bound coeff) in
  let sc := vset (c_sc s) j sf in
  let DCs : mat := fun r c => if (r <? nu + nx)%nat && (c =? j)%nat then sf * DC r c else c_DC s r c in
  let k := rev (nb + j)%nat in
  let s1 := if negb (k =? -1)%Z then
      let k := Z.to_nat k in
      mkC (vmul (2 * (nb + ng) + ns + k) sf (vmul (2 * (nb + ng) + k) sf (c_d s)))
          (vdiv (nu + nx + ns + k) sf (vdiv (nu + nx + k) sf (c_rqz s)))
          (vdiv (ns + k) (sf * sf) (vdiv k (sf * sf) (c_Z s))) DCs sc
    else mkC (c_d s) (c_rqz s) (c_Z s) DCs sc in
  let d1 := if eq1 ml then vmul (nb + j) sf (c_d s1) else c_d s1 in
  let d2 := if eq1 mu then vmul (2 * nb + ng + j) sf d1 else d1 in
  mkC d2 (c_rqz s1) (c_Z s1) (c_DC s1) (c_sc s1).
Definition scale_stage (o : qopts) (d : qdims) (q s : qp) (sc : nat -> vec) (i : nat) : cst :=
  let n := (2 * (qnb d i + qng d i + qns d i))%nat in
  let rqz := if o_obj o then q_rqz s i else cp (qnx d i + qnu d i + 2 * qns d i) (q_rqz q i) (q_rqz s i) in
  let Zs := if o_obj o then q_Z s i else cp (2 * qns d i) (q_Z q i) (q_Z s i) in
  loop (qng d i) (scale_row (qnx d i) (qnu d i) (qnb d i) (qng d i) (qns d i) (q_DC q i) (q_mask q i) (q_d q i) (q_rev q i))
    (mkC (cp n (q_d q i) (q_d s i)) rqz Zs (q_DC s i) (sc i)).
Definition scale_constraints (o : qopts) (d : qdims) (q s : qp) (sc : nat -> vec) : qp * (nat -> vec) :=
  let st := scale_stage o d q s sc in
  let pick {X : Type} (f : cst -> X) (old : nat -> X) : nat -> X := fun i => if (i <=? qN d)%nat then f (st i) else old i in
  (mkQp (pick c_rqz (q_rqz s)) (pick c_Z (q_Z s)) (q_H s) (q_BA s) (q_b s) (pick c_d (q_d s)) (q_mask s) (pick c_DC (q_DC s)) (q_idxb s) (q_rev s),
   pick c_sc sc).

(** :643-669 ocp_nlp_qpscaling_scale_qp *)
Definition scale_qp (o : qopts) (d : qdims) (m : qmem) (q : qp) : qmem :=
  let s := alias_in o q (m_in m) in
  let eg := eig_grad d q in
  let fs := if o_obj o then obj_factor (o_ub o) (o_lb o) (fst eg) (snd eg) else (1, false) in
  let s := if o_obj o then scale_objective d q (fst fs) s else s in
  let r := if o_con o then scale_constraints o d q s (m_sc m) else (s, m_sc m) in
  mkQM (if snd fs then 8 else 0) (fst fs) (snd r) (fst r) (m_out m).
End Factor.

(** :394-405 ocp_qp_out_scale_duals *)
Definition scale_duals (d : qdims) (f : T) (s out : qsol) : qsol :=
  mkSol (s_ux out)
    (fun i => if (i <? qN d)%nat then cpsc (qnx d (S i)) f (s_pi s i) (s_pi out i) else s_pi out i)
    (fun i => if (i <=? qN d)%nat then cpsc (2 * (qnb d i + qng d i + qns d i)) f (s_lam s i) (s_lam out i) else s_lam out i).
(** :326-373 rescale_solution_constraint_scaling, one constraint: (lam, ux) *)
Definition rescale_row (nx nu nb ng ns : nat) (rev : nat -> Z) (sc : vec) (j : nat) (s : vec * vec) : vec * vec :=
  let sf := sc j in
  let lam := vmul (2 * nb + ng + j) sf (vmul (nb + j) sf (fst s)) in
  let k := rev (nb + j)%nat in
  if (0 <=? k)%Z then
    let k := Z.to_nat k in
    (vmul (2 * nb + 2 * ng + ns + k) sf (vmul (2 * nb + 2 * ng + k) sf lam),
     vdiv (nx + nu + ns + k) sf (vdiv (nx + nu + k) sf (snd s)))
  else (lam, snd s).
Definition rescale_constraints (o : qopts) (d : qdims) (q : qp) (sc : nat -> vec) (s out : qsol) : qsol :=
  let st i :=
    let ux := cp (qnx d i + qnu d i + 2 * qns d i) (s_ux s i) (s_ux out i) in
    let lam := if o_obj o then s_lam out i else cp (2 * qnb d i + 2 * qng d i + 2 * qns d i) (s_lam s i) (s_lam out i) in
    loop (qng d i) (rescale_row (qnx d i) (qnu d i) (qnb d i) (qng d i) (qns d i) (q_rev q i) (sc i)) (lam, ux) in
  mkSol (fun i => if (i <=? qN d)%nat then snd (st i) else s_ux out i)
    (fun i => if negb (o_obj o) && (i <? qN d)%nat then cp (qnx d (S i)) (s_pi s i) (s_pi out i) else s_pi out i)
    (fun i => if (i <=? qN d)%nat then fst (st i) else s_lam out i).
(** :672-687 ocp_nlp_qpscaling_rescale_solution; the solver's output is in [m_out] *)
Definition rescale (o : qopts) (d : qdims) (m : qmem) (q : qp) (out : qsol) : qsol :=
  let out := if o_obj o then scale_duals d (1 / m_fac m) (m_out m) out else out in
  if o_con o then rescale_constraints o d q (m_sc m) (m_out m) out else out.
(** ... through the pointers shared by the scaled and the unscaled solution object *)
Definition rescale_solution (o : qopts) (d : qdims) (m : qmem) (q : qp) (out : qsol) : qsol := rescale o d m q (alias_out o out (m_out m)).
(** the end of ocp_nlp_common.c:4381-4566 ocp_nlp_solve_qp_and_correct_dual when it is called for the feasibility QP
    (ocp_nlp_sqp_with_feasible_qp.c:1012-1016): the QP solver has written [sol] to the scaled solution of the feasibility QP, and
    :4551 undoes the scaling with nlp_mem->qpscaling, the memory [m] of the nominal QP *)
Definition feasibility_solution (o : qopts) (d : qdims) (m : qmem) (q : qp) (sol out : qsol) : qsol := rescale o d m q (alias_out o out sol).

(** :281-296, "min_constraint_scaling"; None: constraints_scaling_vec is a null pointer because :212 assigns it only with
    constraint scaling, and an entry of it is read *)
Definition min_scaling (o : qopts) (d : qdims) (m : qmem) : option T :=
  if o_con o then
    Some (loop (qN d) (fun i s => loop (qng d i) (fun j s => let t := m_sc m i j in if t <? s then t else s) s) 1)
  else if loop (qN d) (fun i b => b || (0 <? qng d i)%nat) false then None else Some 1.
(** ocp_nlp_common.c:4487-4515: tol_stat, tol_eq, tol_ineq, tol_comp of the QP solver from those of the NLP solver *)
Record tols := mkT { t_stat : T; t_eq : T; t_ineq : T; t_comp : T }.
Definition adaptive_tols (safety : T) (nlp floor : tols) (o : qopts) (d : qdims) (m : qmem) : option tols :=
  match min_scaling o d m with
  | None => None
  | Some mc =>
    let sf := nmin (m_fac m) mc in
    Some (mkT (nmax (safety * t_stat nlp * sf) (t_stat floor)) (nmax (safety * t_eq nlp * 1) (t_eq floor))
              (nmax (safety * t_ineq nlp * mc) (t_ineq floor)) (nmax (safety * t_comp nlp * mc) (t_comp floor)))
  end.
End Q.

Arguments mkQp {A}. Arguments q_rqz {A}. Arguments q_Z {A}. Arguments q_H {A}. Arguments q_BA {A}. Arguments q_b {A}. Arguments q_d {A}.
Arguments q_mask {A}. Arguments q_DC {A}. Arguments q_idxb {A}. Arguments q_rev {A}. Arguments mkSol {A}. Arguments s_ux {A}. Arguments s_pi {A}.
Arguments s_lam {A}. Arguments mkO {A}. Arguments o_ub {A}. Arguments o_lb {A}. Arguments o_obj {A}. Arguments o_con {A}. Arguments mkQM {A}.
Arguments m_status {A}. Arguments m_fac {A}. Arguments m_sc {A}. Arguments m_in {A}. Arguments m_out {A}. Arguments cp {A}. Arguments cpsc {A}.
Arguments mcpsc {A}. Arguments vmul {A}. Arguments vdiv {A}. Arguments alias_in {A}. Arguments alias_out {A}. Arguments col_norm {A}.
Arguments eig_grad {A}. Arguments obj_factor {A}. Arguments scale_objective {A}. Arguments mkC {A}. Arguments c_d {A}. Arguments c_rqz {A}.
Arguments c_Z {A}. Arguments c_DC {A}. Arguments c_sc {A}. Arguments eq1 {A}. Arguments scale_row {A}. Arguments scale_stage {A}.
Arguments scale_constraints {A}. Arguments scale_qp {A}. Arguments scale_duals {A}. Arguments rescale_row {A}. Arguments rescale_constraints {A}.
Arguments rescale {A}. Arguments rescale_solution {A}. Arguments feasibility_solution {A}. Arguments min_scaling {A}. Arguments mkT {A}. Arguments t_stat {A}. Arguments t_eq {A}. Arguments t_ineq {A}.
Arguments t_comp {A}. Arguments adaptive_tols {A}.
