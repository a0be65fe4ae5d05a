(** Compressed-column data of an OCP QP, the parts common to the OSQP and Clarabel interfaces:
    acados/ocp_qp/ocp_qp_osqp.c:227-432 and acados/ocp_qp/ocp_qp_clarabel.c:112-310.

    The C code writes row indices and values into preallocated arrays behind a running counter nn.  Here a column is the list of
    what is written for it, in order; the arrays are the concatenation of the columns and the column pointers the values of the
    counter.  Whether the arrays are long enough is stated as a property of the lengths. *)
From Coq Require Import ZArith List Bool Arith.
From Verif Require Import Arith QpsModel.
Import ListNotations.

Section S.
Variable A : arith.
Notation T := (num A).

(** sum over the stages 0..n-1 *)
Fixpoint nsum (n : nat) (f : nat -> nat) : nat := match n with O => 0 | S m => nsum m f + f m end.

(** the values of the counter: ocp_qp_osqp.c:372,387,398 P_p[col] = nn *)
Fixpoint ptrs {X} (nn : nat) (cols : list (list X)) : list nat :=
  match cols with [] => [nn] | c :: r => nn :: ptrs (nn + length c) r end.

Variable d : qdims.
Variable q : qp A.
Notation N := (qN d). Notation nx := (qnx d). Notation nu := (qnu d). Notation nb := (qnb d). Notation ng := (qng d). Notation ns := (qns d).

(** ocp_qp_osqp.c:227-244, ocp_qp_clarabel.c:112-122 *)
Definition num_vars : nat := nsum (S N) (fun k => nx k + nu k + 2 * ns k).

(** a loop over the stages emitting columns *)
Definition stages {X} (f : nat -> list X) : list X := flat_map f (seq 0 (S N)).

(** update_gradient, ocp_qp_osqp.c:335-350, ocp_qp_clarabel.c:205-223 *)
Definition gradient : list T := stages (fun k => map (q_rqz q k) (seq 0 (nu k + nx k + 2 * ns k))).

(** update_hessian_structure, ocp_qp_osqp.c:354-399, ocp_qp_clarabel.c:227-274: offset = number of variables before the stage *)
Definition hess_off (k : nat) : nat := nsum k (fun k => nx k + nu k + 2 * ns k).
Definition hess_rows : list (list nat) := stages (fun k =>
  map (fun jj => map (fun ii => hess_off k + ii) (seq 0 (S jj))) (seq 0 (nx k + nu k)) ++
  map (fun jj => [hess_off k + (nx k + nu k) + jj]) (seq 0 (2 * ns k))).
(** update_hessian_data, ocp_qp_osqp.c:403-432, ocp_qp_clarabel.c:278-309: row ii of the lower triangle, then Z *)
Definition hess_vals : list (list T) := stages (fun k =>
  map (fun ii => map (fun c => q_H q k ii c) (seq 0 (S ii))) (seq 0 (nx k + nu k)) ++
  map (fun jj => [q_Z q k jj]) (seq 0 (2 * ns k))).

(** for (ii = 0; ii < nb[kk]; ii++) if (idxb[kk][ii] == v) { ...; break; }: the final value of ii, ocp_qp_osqp.c:494-504, :571-581 *)
Fixpoint scan (k v ii fuel : nat) : nat :=
  match fuel with O => ii | S f => if q_idxb q k ii =? v then ii else scan k v (S ii) f end.
Definition bound_of (k v : nat) : nat := scan k v 0 (nb k).

(** con_start and row_offset_dyn, ocp_qp_osqp.c:449-462 and :675, ocp_qp_clarabel.c:330-335 and :481 *)
Definition off_dyn (k : nat) : nat := nsum k (fun k => if k <? N then nx (S k) else 0).
Definition con_start : nat := off_dyn (S N).
(** the rows and values written for the dynamics in column v of the stage: B or A, ocp_qp_osqp.c:484-492, :561-569; and -I, :554-559 *)
Definition dyn_rows (k : nat) : list nat := if k <? N then map (fun ii => off_dyn k + ii) (seq 0 (nx (S k))) else [].
Definition dyn_vals (k v : nat) : list T := if k <? N then map (fun ii => q_BA q k v ii) (seq 0 (nx (S k))) else [].
Definition eye_rows (k jj : nat) : list nat := if 0 <? k then [off_dyn k - nx k + jj] else [].
Definition eye_vals (k : nat) : list T := if 0 <? k then [nopp (n1 (a := A))] else [].
End S.
Arguments gradient {A}. Arguments hess_vals {A}. Arguments scan {A}. Arguments bound_of {A}. Arguments dyn_vals {A}. Arguments eye_vals {A}.
