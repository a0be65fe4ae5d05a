(** Vocabulary for histories of calls of the real-time-iteration solver. *)
From Coq Require Import ZArith List.
From Verif Require Import RtiModel.
Open Scope Z_scope.

(** row of the statistics table reached by a preparation in which every submodule succeeds; [warm]: some
    feedback has been computed since creation or the last reset *)
Definition prep_rows (opts : rti_opts) (warm : bool) : Z :=
  match as_level opts with
  | LEVEL_A => if warm then 1 else 0
  | LEVEL_B | LEVEL_C => if warm then as_rti_iter opts else 0
  | LEVEL_D => as_rti_iter opts
  | STANDARD_RTI => 0
  end.
(** the same along a history: (row, warm) *)
Definition row1 (opts : rti_opts) (x : Z * bool) (a : act) : Z * bool :=
  match a with
  | Call PREPARATION => (prep_rows opts (snd x), snd x)
  | Call FEEDBACK => (fst x + 1, true)
  | Call PREPARATION_AND_FEEDBACK => x
  | ResetQp => (fst x, false)
  end.
Definition rows_used (opts : rti_opts) (p : list act) : Z := fst (fold_left (row1 opts) p (0, false)).
