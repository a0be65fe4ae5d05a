(** Concrete runs of the SQP model: integer iterates, a scripted clock. *)
From Coq Require Import ZArith List Bool.
From Verif Require Import FP SqpModel SqpSpec.
Import ListNotations.
Open Scope Z_scope.

Section T.
Variables (qp_fails_at : Z) (nan_at : Z) (glob_fails_at : Z).
(** residual = iterate, each step decreases the iterate by one *)
Definition toy : oracles Z (list Z) := mkOracles Z (list Z)
  (fun _ w => w) (fun _ w => w)
  (fun x _ => mkRes (if x =? nan_at then fnan else z2f x) f0 f0 f0)
  (fun w => w) (fun w => w)
  (fun w => match w with t :: r => (r, z2f t) | [] => ([], f0) end)
  (fun _ => f1)
  (fun x w => (w, if x =? qp_fails_at then 3 else 0, 5))
  (fun _ => (f0, f0, f0, f0)) (fun _ => f1) (fun _ _ => f1)
  (fun x w _ => if x =? glob_fails_at then (w, x, 3, f0) else (w, x - 1, 0, f1)).
End T.

Definition toy_opts (mi : Z) (ev : bool) (tmax : Z) (h : heuristic) : sqp_opts :=
  mkSqpOpts mi ev fhalf fhalf fhalf fhalf f0 (z2f (-10000000000)) (z2f tmax) h true true true false false 0.

Definition toy_mem (x : Z) (clock : list Z) (mi : Z) (old : double) : mem Z (list Z) :=
  mkMem Z (list Z) x clock 0 0 (mkRes old old old old) f0 f0 f0 f0 f0 (mi + 1) 7
    (repeat old (Z.to_nat ((mi + 1) * 7))) (repeat 99 (Z.to_nat (mi + 1)))
    (repeat f0 (Z.to_nat mi)) (repeat f0 (Z.to_nat mi)) [].

Definition feqb (a b : double) : bool := fle a b && fle b a.

(** summary of a run: status, iterations, iterate, QPs *)
Definition summary (r : option (mem Z (list Z))) : option (Z * Z * Z * Z) :=
  match r with Some s => Some (status s, iter s, nlp_out s, qp_count (trace s)) | None => None end.

Lemma toy_alloc x c mi ev tmax h old : 0 <= mi -> logs_allocated (toy_opts mi ev tmax h) (toy_mem x c mi old).
Proof.
  intros H. unfold logs_allocated, toy_mem, toy_opts; cbn. rewrite !repeat_length, !Z2Nat.id by (try apply Z.mul_nonneg_nonneg; try apply Z.add_nonneg_nonneg; auto; discriminate).
  repeat split; auto.
Qed.
