(** What convexification means: the quadratic program it starts from and the one it produces. *)
From Coq Require Import ZArith List Bool Reals.
From Verif Require Import Arith Vec LinModel RSum InterpProofs RegProofs.
Open Scope R_scope.

(** the symmetric matrix whose lower triangle is stored in H; QP solvers read only that triangle *)
Definition lowsym (H : matR) : matR := fun i j => if (j <=? i)%nat then H i j else H j i.
(** the lower triangular matrix stored in L *)
Definition lowpart (L : matR) : matR := fun i j => if (j <=? i)%nat then L i j else 0.

Section S.
Variable N : nat.
Variable nx nu : nat -> nat.
Let n (k : nat) : nat := (nu k + nx k)%nat.

(** w k = (u_k, x_k); the linear dynamics x_{k+1} = [B A] w_k + b_k, with the matrices stored transposed *)
Definition dynamic (BAt : nat -> matR) (b : nat -> vecR) (w : nat -> vecR) : Prop :=
  forall k j, (k < N)%nat -> (j < nx (k + 1))%nat -> w (k + 1)%nat (nu (k + 1) + j)%nat = sum (n k) (fun i => BAt k i j * w k i) + b k j.
(** the objective of the QP *)
Definition stage_cost (m : nat) (H : matR) (r w : vecR) : R := 1 / 2 * quad m (lowsym H) w + sum m (fun i => r i * w i).
Definition objective (H : nat -> matR) (r w : nat -> vecR) : R := sum (N + 1) (fun k => stage_cost (n k) (H k) (r k) (w k)).

(** gradient of the Lagrangian with respect to component i of w_k; [con] is the contribution of the inequalities *)
Definition lagr (H : nat -> matR) (r : nat -> vecR) (BAt : nat -> matR) (pi con w : nat -> vecR) (k i : nat) : R :=
  sum (n k) (fun j => lowsym (H k) i j * w k j) + r k i
  + (if (k <? N)%nat then sum (nx (k + 1)) (fun l => BAt k i l * pi k l) else 0)
  - (if (0 <? k)%nat && (nu k <=? i)%nat then pi (k - 1)%nat (i - nu k)%nat else 0)
  + con k i.
(** all components except the state of stage 0 *)
Definition not_x0 (k i : nat) : Prop := (k <= N)%nat /\ (i < n k)%nat /\ ((0 < k)%nat \/ (i < nu 0)%nat).
End S.

(** the inequalities: bounds on the components idxb, general constraints with the matrix DCt; lower multipliers
    first, then the upper ones *)
Definition ineq_grad (nb ng : nat -> nat) (idxb : nat -> nat -> nat) (DCt : nat -> matR) (lam : nat -> vecR) (k i : nat) : R :=
  sum (nb k) (fun a => if (idxb k a =? i)%nat then lam k (nb k + ng k + a)%nat - lam k a else 0)
  + sum (ng k) (fun g => DCt k i g * (lam k (nb k + ng k + nb k + g)%nat - lam k (nb k + g)%nat)).

(** exact factorisation and triangular solve, for positive definite arguments *)
Definition posdef (m : nat) (M : matR) : Prop := forall v : vecR, (exists i, (i < m)%nat /\ v i <> 0) -> 0 < quad m M v.
Definition potrf_ok (potrf : nat -> matR -> matR) : Prop := forall m M, posdef m (lowsym M) ->
  (forall i, (i < m)%nat -> 0 < potrf m M i i) /\
  forall i j, (i < m)%nat -> (j < m)%nat -> sum m (fun l => lowpart (potrf m M) i l * lowpart (potrf m M) j l) = lowsym M i j.
Definition trsm_ok (trsm : nat -> nat -> matR -> matR -> matR) : Prop := forall r m L S, (forall j, (j < m)%nat -> L j j <> 0) ->
  forall i j, (i < r)%nat -> (j < m)%nat -> sum m (fun l => trsm r m L S i l * lowpart L j l) = S i j.
(** the decomposition sees a row-major matrix and uses only its lower triangle: C89 *)
Definition eig_ok (eig : nat -> matR -> matR * vecR) : Prop := forall m M, eigensystem m (lowsym M) (fst (eig m M)) (snd (eig m M)).
