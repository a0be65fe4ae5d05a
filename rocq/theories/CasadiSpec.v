(** Compressed column patterns, written down independently of the conversion routines. *)
From Coq Require Import ZArith List Bool.
From Verif Require Import Arr ArrProofs CasadiModel.
Import ListNotations.
Open Scope Z_scope.

(** a pattern with nrow rows: for every column the list of its nonzero rows *)
Definition pattern := list (list Z).
Definition pattern_ok (nrow : Z) (P : pattern) : Prop := Forall (fun c => NoDup c /\ Forall (fun i => 0 <= i < nrow) c) P.
(** the nonzeros in storage order *)
Fixpoint entries_from (j : Z) (P : pattern) : list (Z * Z) :=
  match P with nil => nil | c :: r => map (fun i => (i, j)) c ++ entries_from (j + 1) r end.
Definition entries (P : pattern) : list (Z * Z) := entries_from 0 P.
Fixpoint colind (a : Z) (P : pattern) : list Z := match P with nil => [a] | c :: r => a :: colind (a + len c) r end.
Definition rows (n : Z) : list Z := map Z.of_nat (seq 0 (Z.to_nat n)).
Definition full (nrow : Z) (ncol : nat) : pattern := repeat (rows nrow) ncol.
(** the int array of the generated code: compressed columns, or the short form for a dense matrix *)
Definition describes (s : list Z) (nrow : Z) (P : pattern) : Prop :=
  s = nrow :: len P :: colind 0 P ++ concat P \/ (s = [nrow; len P; 1] /\ P = full nrow (length P)).
(** where entry (i,j) of the block belongs *)
Definition place (t : arg) (nrow i j : Z) : Z :=
  match t with
  | COLMAJ => i + j * nrow | COLMAJ_ARGS lda => i + j * lda
  | DMAT m n ai aj => (ai + i) + (aj + j) * m
  | DVEC xi => xi + i | IGNORE_ARGUMENT => 0
  end.
(** the block lies inside the target, which has [size] elements *)
Definition fits (t : arg) (nrow ncol size : Z) : Prop :=
  match t with
  | COLMAJ => nrow * ncol <= size
  | COLMAJ_ARGS lda => nrow <= lda /\ (ncol - 1) * lda + nrow <= size
  | DMAT m n ai aj => 0 <= ai /\ 0 <= aj /\ ai + nrow <= m /\ aj + ncol <= n /\ size = m * n
  | DVEC xi => ncol = 1 /\ 0 <= xi /\ xi + nrow <= size
  | IGNORE_ARGUMENT => False
  end.
(** the values [inp] of the nonzeros have been placed in the block, the rest of the block is zero, the rest of the target is untouched *)
Definition unpacked {T} (zero : T) (loc : Z -> Z -> Z) (nrow : Z) (P : pattern) (inp o o' : list T) : Prop :=
  len o' = len o /\
  (forall k i j, aget (entries P) k = Some (i, j) -> aget o' (loc i j) = aget inp k) /\
  (forall i j, 0 <= i < nrow -> 0 <= j < len P -> ~ In (i, j) (entries P) -> aget o' (loc i j) = Some zero) /\
  (forall a, (forall i j, 0 <= i < nrow -> 0 <= j < len P -> a <> loc i j) -> aget o' a = aget o a).
(** the nonzeros of the block have been read *)
Definition packed {T} (loc : Z -> Z -> Z) (P : pattern) (inp o o' : list T) : Prop :=
  len o' = len o /\
  (forall k i j, aget (entries P) k = Some (i, j) -> aget o' k = aget inp (loc i j)) /\
  (forall k, len (entries P) <= k -> aget o' k = aget o k).
