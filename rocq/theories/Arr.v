(** Arrays of a C program as lists with checked access, and counted loops that stop at the first undefined access. *)
From Coq Require Import ZArith List Bool Lia.
Import ListNotations.
Open Scope Z_scope.

Definition obind {S T} (o : option S) (f : S -> option T) : option T := match o with Some x => f x | None => None end.
Notation "'do' x <- e ; f" := (obind e (fun x => f)) (at level 200, x pattern, right associativity).
(** a[i] as a value; [None] outside the array *)
Definition aget {T} (l : list T) (i : Z) : option T := if 0 <=? i then nth_error l (Z.to_nat i) else None.
(** a[i] = v *)
Definition aput {T} (l : list T) (i : Z) (v : T) : option (list T) :=
  if (0 <=? i) && (i <? Z.of_nat (length l)) then Some (firstn (Z.to_nat i) l ++ v :: skipn (S (Z.to_nat i)) l) else None.
(** for (i = a; i < b; i++) s = f(i, s) *)
Fixpoint ofor {S} (n : nat) (i : Z) (f : Z -> S -> option S) (s : S) : option S :=
  match n with O => Some s | Datatypes.S n => do s <- f i s; ofor n (i + 1) f s end.
Definition for_ {S} (a b : Z) (f : Z -> S -> option S) (s : S) : option S := ofor (Z.to_nat (b - a)) a f s.
(** what a routine of the library ends with *)
Inductive outcome (T : Type) := Done (x : T) | Exit | UB.
Arguments Done {T}. Arguments Exit {T}. Arguments UB {T}.
Definition checked {T} (o : option T) : outcome T := match o with Some x => Done x | None => UB end.
