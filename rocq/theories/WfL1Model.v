(** l1 infeasibility of the feasibility QP: acados/ocp_nlp/ocp_nlp_sqp_with_feasible_qp.c:671-847. *)
From Coq Require Import ZArith List Bool.
From Verif Require Import Arith LinModel.
Open Scope num_scope.

Section L1.
Context {A : arith}.
Notation vec := (nat -> num A).

(** One stage of relaxed_qp_in and relaxed_qp_out as the two functions read them: s_nv = nu+nx, s_nb, s_ng of the QP,
    s_ns = dims->ns (slacks of the user), s_nns = mem->nns (slacks added), idxb, DCt (variable, constraint), d and d_mask
    (lower bounds, then negated upper bounds; masks are 0 or 1 and modelled as booleans "== 1.0", :801-802), idxs_rev, and ux
    with the order inputs and states, lower slacks (user, added), upper slacks (user, added).  Single stage indices are
    dropped; BLASFEO vectors are functions. *)
Record stage := mkStage {
  s_nv : nat; s_nb : nat; s_ng : nat; s_ns : nat; s_nns : nat;
  s_idxb : nat -> nat; s_DC : nat -> nat -> num A; s_d : vec; s_mask : nat -> bool; s_rev : nat -> Z; s_ux : vec }.

(** :757-771: bounded variable or row of D u + C x; the same value is stored for the lower and the upper side *)
Definition value (s : stage) (j : nat) : num A :=
  if (j <? s_nb s)%nat then s_ux s (s_idxb s j)
  else loop (s_nv s) (fun r a => a + s_DC s r (j - s_nb s)%nat * s_ux s r) 0.
(** :776-794, j-th entry of the lower half of tmp_2ni; the test ns > 0 of :776 is part of the model *)
Definition user_slack (s : stage) (j : nat) : bool :=
  ((0 <? s_ns s)%nat && (0 <=? s_rev s j)%Z && (s_rev s j <? Z.of_nat (s_ns s))%Z)%bool.
Definition tmp_lower (s : stage) (j : nat) : num A :=
  if user_slack s j then value s j + s_ux s (Z.to_nat (s_rev s j) + s_nv s)%nat else value s j.
(** :792-793, the upper half *)
Definition tmp_upper (s : stage) (j : nat) : num A :=
  if user_slack s j then value s j - s_ux s (Z.to_nat (s_rev s j) + s_nv s + s_ns s + s_nns s)%nat else value s j.
(** :798-818, the sum over one stage; l1 is carried from stage to stage *)
Definition manual_stage (s : stage) (l1 : num A) : num A :=
  let n := (s_nb s + s_ng s)%nat in
  loop (2 * s_nb s + 2 * s_ng s) (fun j l1 =>
    if s_mask s j then
      if (j <? n)%nat then l1 + nmax 0 (s_d s j - tmp_lower s j)
      else l1 + nmax 0 (s_d s j + tmp_upper s (j - n))
    else l1) l1.
(** :712-726 *)
Definition slacks_stage (s : stage) (l1 : num A) : num A :=
  loop (s_nns s) (fun j l1 =>
    l1 + nmax 0 (s_ux s (s_nv s + s_ns s + j)%nat) + nmax 0 (s_ux s (s_nv s + 2 * s_ns s + s_nns s + j)%nat)) l1.
(** :741-826 and :701-733; N + 1 stages *)
Definition manually (N : nat) (st : nat -> stage) : num A := loop (N + 1) (fun i l => manual_stage (st i) l) 0.
Definition from_slacks (N : nat) (st : nat -> stage) : num A := loop (N + 1) (fun i l => slacks_stage (st i) l) 0.
(** :830-846 *)
Definition qp_l1 (use_slacks : bool) (N : nat) (st : nat -> stage) : num A := if use_slacks then from_slacks N st else manually N st.
(** :678-695; nominal = (search_direction_mode == NOMINAL_QP) *)
Definition pred_l1 (nominal : bool) (l1_infeasibility tol_ineq tol_eq qp_infeasibility : num A) : num A :=
  if nominal then l1_infeasibility
  else if l1_infeasibility <? nmin tol_ineq tol_eq then 0 else l1_infeasibility - qp_infeasibility.
End L1.
Arguments stage : clear implicits.
