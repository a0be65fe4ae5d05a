(** Threads over one shared memory.

    A thread is a finite program that reads and writes single memory cells;
    everything it computes in between is private to it.  A [#pragma omp
    parallel for] distributes the iterations of its loop over any number of
    threads, in any way; each thread runs its iterations one after the other
    and the threads are interleaved cell access by cell access.  The end of
    the loop is a barrier (OpenMP 5.2, 11.5 and 15.3.2). *)
From Coq Require Import List Permutation Relations.
Import ListNotations.

Section Par.
Context {L V : Type} (dec : forall a b : L, {a = b} + {a <> b}).

(** the memory *)
Definition store := L -> V.
Definition set (s : store) (l : L) (v : V) : store := fun x => if dec x l then v else s x.

(** [Ret]: the program is at its end; [Err]: it did something the C program
    must not do, for example followed a pointer that was never set *)
Inductive prog := Ret | Read (l : L) (k : V -> prog) | Write (l : L) (v : V) (k : prog) | Err.

(** the program on its own *)
Fixpoint run (p : prog) (s : store) : option store :=
  match p with
  | Ret => Some s
  | Read l k => run (k (s l)) s
  | Write l v k => run k (set s l v)
  | Err => None
  end.

(** p; q *)
Fixpoint andthen (p q : prog) : prog :=
  match p with
  | Ret => q
  | Read l k => Read l (fun v => andthen (k v) q)
  | Write l v k => Write l v (andthen k q)
  | Err => Err
  end.
Definition chain (ps : list prog) : prog := fold_right andthen Ret ps.

(** replaces the j-th thread *)
Fixpoint put (ps : list prog) (j : nat) (p : prog) : list prog :=
  match ps, j with
  | [], _ => []
  | _ :: r, O => p :: r
  | x :: r, S j => x :: put r j p
  end.

(** one access by one of the threads *)
Inductive step : list prog * store -> list prog * store -> Prop :=
| step_read ps s j l k : nth_error ps j = Some (Read l k) -> step (ps, s) (put ps j (k (s l)), s)
| step_write ps s j l v k : nth_error ps j = Some (Write l v k) -> step (ps, s) (put ps j k, set s l v).
Definition steps := clos_refl_trans_1n _ step.

(** all threads are at their end *)
Definition ended (ps : list prog) : Prop := Forall (fun p => p = Ret) ps.

(** the threads that work off the iterations [body 0], ..., [body (n-1)]: [plan] lists the iterations of each thread *)
Definition threads (body : nat -> prog) (plan : list (list nat)) : list prog := map (fun c => chain (map body c)) plan.
(** every iteration is given to exactly one thread *)
Definition fair_plan (n : nat) (plan : list (list nat)) : Prop := Permutation (concat plan) (seq 0 n).

(** pieces of a C function: a loop under [#pragma omp parallel for] or ordinary code *)
Inductive phase := Par (n : nat) (body : nat -> prog) | Seq (p : prog).

(** what a piece may do to the memory when it runs in parallel *)
Inductive exec1 : phase -> store -> store -> Prop :=
| exec_par n body plan s s' ps : fair_plan n plan -> steps (threads body plan, s) (ps, s') -> ended ps -> exec1 (Par n body) s s'
| exec_seq p s s' : run p s = Some s' -> exec1 (Seq p) s s'.
Inductive exec : list phase -> store -> store -> Prop :=
| exec_nil s : exec [] s s
| exec_cons p r s t u : exec1 p s t -> exec r t u -> exec (p :: r) s u.

(** the same without the pragmas: the iterations one after the other, in order *)
Definition seq1 (f : phase) : prog := match f with Par n body => chain (map body (seq 0 n)) | Seq p => p end.
Definition sequential (fs : list phase) : prog := chain (map seq1 fs).

(** a run of a piece that cannot be finished: some thread is in front of something the C program must not do *)
Definition stuck (ps : list prog) : Prop := In Err ps.
Definition goes_wrong (f : phase) (s : store) : Prop :=
  match f with
  | Par n body => exists plan ps s', fair_plan n plan /\ steps (threads body plan, s) (ps, s') /\ stuck ps
  | Seq p => run p s = None
  end.

(** equality of memories *)
Definition same (s t : store) : Prop := forall l, s l = t l.
End Par.
Arguments prog : clear implicits.
Arguments store : clear implicits.
Arguments phase : clear implicits.
