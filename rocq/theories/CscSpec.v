(** A well-formed sparse matrix in compressed-column form, inside its arrays. *)
From Coq Require Import List Arith.

(** n columns over m rows: pointers start at zero, do not decrease and end within the allocated length and within what has been
    written; row numbers are below m and strictly increase inside a column *)
Record csc_ok (m n nzmax : nat) (p i : list nat) (written : nat) : Prop := mkCsc {
  c_len : n < length p;
  c_zero : nth 0 p 0 = 0;
  c_mono : forall c, c < n -> nth c p 0 <= nth (S c) p 0;
  c_max : nth n p 0 <= nzmax;
  c_written : nth n p 0 <= length i /\ nth n p 0 = written;
  c_row : forall c e, c < n -> nth c p 0 <= e < nth (S c) p 0 -> nth e i 0 < m;
  c_sorted : forall c e, c < n -> nth c p 0 <= e -> S e < nth (S c) p 0 -> nth e i 0 < nth (S e) i 0 }.
Definition upper_triangular (n : nat) (p i : list nat) : Prop :=
  forall c e, c < n -> nth c p 0 <= e < nth (S c) p 0 -> nth e i 0 <= c.
