(** Regularisation of the reduced Hessian, the "true Schur complement" of one stage:
    acados/ocp_nlp/ocp_nlp_reg_project_reduc_hess.c:405-466. *)
From Coq Require Import ZArith List Bool Arith.
From Verif Require Import Arith LinModel.
Open Scope num_scope.

Section Rh.
Context {A : arith}.
Notation mat := (nat -> nat -> num A).
Definition put (i j : nat) (x : num A) (M : mat) : mat := fun a b => if ((a =? i)%nat && (b =? j)%nat)%bool then x else M a b.

(** :413-425, index of the pivot among the diagonal elements jj, ..., nu-1; state (pivot, idx) *)
Definition find_pivot (nu j : nat) (M : mat) : num A * nat :=
  loop (nu - (j + 1)) (fun q s => let k := (j + 1 + q)%nat in
    if ((M k k <? fst s) && (- fst s <? M k k))%bool then (M k k, k) else s) (M j j, j).
(** :428-445, exchange of row and column jj and idx of the lower triangle, with the indices as written; n = nu+nx *)
Definition permute (n j idx : nat) (M : mat) : mat :=
  if (idx =? j)%nat then M else
  let M := loop (idx - j) (fun q M => let k := (j + q)%nat in
    let t := M k j in put (idx - j) (idx - k) t (put k j (M (idx - j)%nat (idx - k)%nat) M)) M in
  loop (n - (idx + 1)) (fun q M => let k := (idx + 1 + q)%nat in
    let t := M k j in put k idx t (put k j (M k idx) M)) M.
(** :448-455 *)
Definition bounded_pivot (minp p : num A) : num A :=
  if ((p <? minp) && (- minp <? p))%bool then (if p <? 0 then minp else - minp) else p.
(** :456-464 *)
Definition eliminate (n j : nat) (ip : num A) (M : mat) : mat :=
  loop (n - (j + 1)) (fun q M => let k := (j + 1 + q)%nat in
    let t := ip * M k j in
    loop (n - k) (fun r M => let l := (k + r)%nat in put l k (M l k - M l j * t) M) M) M.
(** :409-465 *)
Definition schur_step (pivoting : bool) (minp : num A) (nu n j : nat) (M : mat) : mat :=
  let M := if pivoting then permute n j (snd (find_pivot nu j M)) M else M in
  eliminate n j (1 / bounded_pivot minp (M j j)) M.
Definition true_schur (pivoting : bool) (minp : num A) (nu n : nat) (M : mat) : mat :=
  loop nu (fun j M => schur_step pivoting minp nu n j M) M.
End Rh.
