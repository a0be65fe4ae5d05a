(** Tolerances handed to the QP solver in every SQP iteration with the strategy ADAPTIVE_CURRENT_RES_JOINT
    (acados/ocp_nlp/ocp_nlp_common.c:4460-4486), and what the setters of the QP solvers make of them. *)
From Coq Require Import ZArith List Bool.
From Verif Require Import Arith.
Import ListNotations.
Open Scope num_scope.

(** the four kinds of residual and tolerance: tol_stat, tol_eq, tol_ineq, tol_comp *)
Inductive kind := KStat | KEq | KIneq | KComp.
Definition kind_eqb (a b : kind) : bool :=
  match a, b with KStat, KStat | KEq, KEq | KIneq, KIneq | KComp, KComp => true | _, _ => false end.

Section Tol.
Context {A : arith}.
Definition tols := kind -> num A.

(** ocp_nlp_common.c:4466-4469; the cap is the literal 1e-2 *)
Definition reduced (rf : num A) (res : tols) : tols := fun k => nmin (rf * res k) (ncst 1 (-2)).
(** :4471 *)
Definition joint (rf : num A) (res : tols) : num A :=
  let t := reduced rf res in nmax (t KStat) (nmax (t KEq) (nmax (t KIneq) (t KComp))).
(** :4473-4476; rf = nlp_qp_tol_reduction_factor, sf = nlp_qp_tol_safety_factor, tol = tolerances of the NLP *)
Definition adaptive (rf sf : num A) (tol res : tols) : tols := fun k => nmax (sf * tol k) (joint rf res).

(** The four calls opts_set(.., "tol_stat" / "tol_eq" / "tol_ineq" / "tol_comp", ..) of :4478-4485, in this order. *)
Definition in_order (S : Type) (set1 : kind -> num A -> S -> S) (t : tols) (s : S) : S :=
  set1 KComp (t KComp) (set1 KIneq (t KIneq) (set1 KEq (t KEq) (set1 KStat (t KStat) s))).

(** dense_qp_qpoases.c:143-161, the single field opts->tolerance (default 1e-4, :123) *)
Definition qpoases_set1 (k : kind) (v : num A) (s : num A) : num A := nmin s v.
(** ocp_qp_osqp.c:1031-1061 *)
Record osqp := mkOsqp { o_eps_rel : num A; o_eps_dual_inf : num A; o_eps_prim_inf : num A; o_polish : bool }.
Definition osqp_set1 (k : kind) (v : num A) (s : osqp) : osqp :=
  match k with
  | KStat => mkOsqp (nmax v (ncst 1 (-5))) (nmax v (ncst 1 (-5))) (o_eps_prim_inf s) (if v <=? ncst 1 (-3) then true else o_polish s)
  | KEq | KIneq => mkOsqp (o_eps_rel s) (o_eps_dual_inf s) v (o_polish s)
  | KComp => s
  end.
(** ocp_qp_clarabel.c:823-842 *)
Record clarabel := mkClarabel { c_tol_gap_abs : num A; c_tol_infeas_abs : num A }.
Definition clarabel_set1 (k : kind) (v : num A) (s : clarabel) : clarabel :=
  match k with
  | KStat => mkClarabel v (c_tol_infeas_abs s)
  | KEq | KIneq => mkClarabel (c_tol_gap_abs s) v
  | KComp => s
  end.
(** dense_qp_daqp.c:115-134, the field daqp_opts->primal_tol *)
Definition daqp_set1 (k : kind) (v : num A) (s : num A) : num A := match k with KIneq => v | _ => s end.

(** several SQP iterations, one residual vector each: 4460-4486 executed once per iteration *)
Definition iterations (S : Type) (set1 : kind -> num A -> S -> S) (rf sf : num A) (tol : tols) (hist : list tols) (s : S) : S :=
  fold_left (fun s res => in_order S set1 (adaptive rf sf tol res) s) hist s.
End Tol.
Arguments tols : clear implicits.
Arguments osqp : clear implicits.
Arguments clarabel : clear implicits.
