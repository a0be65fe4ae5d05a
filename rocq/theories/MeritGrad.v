(** The directional derivative of the merit function that the line search uses,
    ocp_nlp_globalization_merit_backtracking.c:147-287. *)
From Coq Require Import ZArith List Bool.
From Verif Require Import Arith Vec MeritModel.
Import ListNotations.

Section G.
Variable A : arith.
Notation T := (num A).
Local Open Scope num_scope.

(** the data of one stage: sizes, gradient of the cost, shooting gap x_next(x_i,u_i) - x_{i+1} and its
    Jacobian BAbt (rows: u_i, x_i), constraint values, bound indices, DCt, idxs_rev, the merit weights
    and the QP step (u_i, x_i, sl_i, su_i) *)
Record gdata := mkGd {
  gd_nu : nat; gd_nx : nat; gd_nb : nat; gd_ng : nat; gd_ns : nat;
  gd_cost : nat -> T; gd_gap : nat -> T; gd_BAbt : nat -> nat -> T;
  gd_con : nat -> T; gd_idxb : nat -> nat; gd_DCt : nat -> nat -> T; gd_rev : nat -> Z;
  gd_wpi : nat -> T; gd_wlam : nat -> T; gd_step : nat -> T }.

Definition nvar (s : gdata) : nat := (gd_nu s + gd_nx s + 2 * gd_ns s)%nat.
(** :169-174 *)
Definition grad_cost (l : list gdata) : T := fold_left (fun a s => a + vdot (nvar s) (gd_cost s) (gd_step s)) l 0.
(** :179-205; the loop stops at N - 1, so the last stage only supplies its step *)
Definition gap_step (s next : gdata) (j : nat) : T :=
  mvt (gd_nx s + gd_nu s) (gd_BAbt s) (gd_step s) j - gd_step next (gd_nu next + j)%nat.
Definition grad_gap (s next : gdata) (a : T) : T :=
  fold_left (fun a j => if 0 <? gd_gap s j then a + gd_wpi s j * gap_step s next j else a - gd_wpi s j * gap_step s next j)
    (seq 0 (gd_nx next)) a.
Fixpoint grad_dyn (l : list gdata) (a : T) : T :=
  match l with
  | s :: ((next :: _) as r) => grad_dyn r (grad_gap s next a)
  | _ => a
  end.
(** :241-251: the slack of constraint [j], an index into the step *)
Definition slack_of (s : gdata) (j : nat) : option nat :=
  let m := (gd_nb s + gd_ng s)%nat in
  let k := gd_rev s (if (j <? m)%nat then j else j - m)%nat in
  if (0 <=? k)%Z then Some (gd_nx s + gd_nu s + Z.to_nat k + (if (j <? m)%nat then 0 else gd_ns s))%nat else None.
(** :258-279: the term added for constraint [j], without its weight *)
Definition con_dir (s : gdata) (j : nat) : T :=
  let nb := gd_nb s in let ng := gd_ng s in
  let col k := vdot (gd_nx s + gd_nu s) (fun r => gd_DCt s r k) (gd_step s) in
  if (j <? nb)%nat then gd_step s (gd_idxb s j)
  else if (j <? nb + ng)%nat then col (j - nb)%nat
  else if (j <? 2 * nb + ng)%nat then gd_step s (gd_idxb s (j - nb - ng)%nat)
  else col (j - 2 * nb - ng)%nat.
(** :227-280 (an empty stage has an empty loop, so the test of ni is left out) *)
Definition grad_con (s : gdata) (a : T) : T :=
  fold_left (fun a j =>
    if 0 <? gd_con s j then
      let a := match slack_of s j with Some k => a - gd_wlam s j * gd_step s k | None => a end in
      a + gd_wlam s j * con_dir s j
    else a) (seq 0 (2 * (gd_nb s + gd_ng s))) a.
Definition grad_ineq (l : list gdata) : T := fold_left (fun a s => grad_con s a) l 0.
(** :283 *)
Definition merit_gradient (l : list gdata) : T := grad_cost l + grad_dyn l 0 + grad_ineq l.
End G.

Arguments mkGd {A}. Arguments gd_nu {A}. Arguments gd_nx {A}. Arguments gd_nb {A}. Arguments gd_ng {A}. Arguments gd_ns {A}.
Arguments gd_cost {A}. Arguments gd_gap {A}. Arguments gd_BAbt {A}. Arguments gd_con {A}. Arguments gd_idxb {A}. Arguments gd_DCt {A}.
Arguments gd_rev {A}. Arguments gd_wpi {A}. Arguments gd_wlam {A}. Arguments gd_step {A}.
Arguments nvar {A}. Arguments grad_cost {A}. Arguments gap_step {A}. Arguments grad_gap {A}. Arguments grad_dyn {A}. Arguments slack_of {A}.
Arguments con_dir {A}. Arguments grad_con {A}. Arguments grad_ineq {A}. Arguments merit_gradient {A}.
