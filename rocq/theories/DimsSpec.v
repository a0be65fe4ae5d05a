(** The value each dimension has after a history of setter calls: the one given last. *)
From Coq Require Import ZArith List Bool.
From Verif Require Import Arr DimsModel.
Import ListNotations.
Open Scope Z_scope.

Definition given_opt (f : optvar) (i : nat) (old : Z) (c : call) : Z :=
  match c, f with
  | OptVars oNx v, oNx | OptVars oNu v, oNu | OptVars oNz v, oNz | OptVars oNs v, oNs | OptVars oNp v, oNp => v i
  | _, _ => old
  end.
Definition last_opt (h : list call) (f : optvar) (i : nat) : Z := fold_left (given_opt f i) h 0.
(** in the constraint module *)
Definition given_con (f : cfield) (i : nat) (old : Z) (c : call) : Z :=
  match c with
  | OptVars g v => match g, f with oNx, cNx | oNu, cNu | oNz, cNz | oNs, cNs => v i | _, _ => old end
  | Constr j g v => if (j =? i)%nat && cfield_eqb g f then v else old
  | CostNy _ _ => old
  end.
Definition last_con (h : list call) (f : cfield) (i : nat) : Z := fold_left (given_con f i) h 0.
Definition given_ny (i : nat) (old : Z) (c : call) : Z := match c with CostNy j v => if (j =? i)%nat then v else old | _ => old end.
Definition last_ny (h : list call) (i : nat) : Z := fold_left (given_ny i) h 0.
(** no "ns" has been given since the last constraint dimension of stage i *)
Definition fresh_ni (i : nat) (old : bool) (c : call) : bool :=
  match c with Constr j _ _ => if (j =? i)%nat then true else old | OptVars oNs _ => false | _ => old end.
Definition ni_current (h : list call) (i : nat) : bool := fold_left (fresh_ni i) h true.

(** calls that the library accepts *)
Definition accepted (N : nat) (c : call) : Prop :=
  match c with
  | OptVars _ _ => True
  | Constr i f v => (i <= N)%nat /\ f <> cNb /\ f <> cNsDerived /\ (f = cNbxe -> i = 0%nat \/ v = 0)
  | CostNy i _ => (i <= N)%nat
  end.
Definition total (n : nat) (f : nat -> Z) : Z := fold_right Z.add 0 (map f (seq 0 n)).
