(** Memory carve-outs: the byte-level model shared by all calculate_size / assign pairs.

    Addresses and sizes are mathematical integers (Z).  Wrap-around of size_t and the
    conversion of [acados_size_t] are not modelled. *)
From Coq Require Import ZArith List String.
Import ListNotations.
Open Scope Z_scope.

(** acados/utils/mem.c:67-74 [align_char_to]: round the pointer up to a multiple of [num]. *)
Definition align_char_to (num p : Z) : Z := (p + num - 1) / num * num.

(** acados/utils/mem.c:57-63 [make_int_multiple_of]. *)
Definition make_int_multiple_of (num size : Z) : Z :=
  if num >? 1 then (size + num - 1) / num * num else size.

(** What a block of bytes is used for.  [KSub] is a sub-object whose own assign function is
    called with the current pointer. *)
Inductive kind :=
| KStruct   (* C struct containing pointers / doubles                         *)
| KPtr      (* array of pointers, assign_and_advance_*_ptrs mem.c:96-117      *)
| KInt      (* array of int, assign_and_advance_int mem.c                     *)
| KBool     (* array of bool, assign_and_advance_bool mem.c                   *)
| KDouble   (* array of double, assign_and_advance_double mem.c (asserts %8)  *)
| KDvecS    (* array of struct blasfeo_dvec (asserts pointer alignment)       *)
| KDmatS    (* array of struct blasfeo_dmat (asserts pointer alignment)       *)
| KDvecMem  (* vector data, assign_and_advance_blasfeo_dvec_mem (asserts %8)  *)
| KDmatMem  (* matrix data, assign_and_advance_blasfeo_dmat_mem (asserts %64) *)
| KSub      (* raw memory passed on to another assign function that starts    *)
            (* with its own align_char_to                                     *)
| KSub8     (* raw memory passed on to an assign function that casts it at    *)
            (* once to a struct containing pointers or doubles                *)
| KIntStruct. (* C struct containing only ints                                *)

(** Alignment in bytes the C code (or its assertions) requires, 64-bit target, blasfeo
    LA_HIGH_PERFORMANCE (mem.c: 64-byte assertion for matrices). *)
Definition kind_align (k : kind) : Z :=
  match k with
  | KStruct | KPtr | KDouble | KDvecS | KDmatS | KDvecMem | KSub8 => 8
  | KDmatMem => 64
  | KInt | KIntStruct => 4
  | KBool | KSub => 1
  end.

Record block := mkBlock { blk_kind : kind; blk_start : Z; blk_len : Z }.

Inductive op :=
| Align (num : Z)                 (* align_char_to(num, &c_ptr)                  *)
| Take (k : kind) (len : Z).      (* field = c_ptr; c_ptr += len                 *)

(** Execute an assign function from pointer [p]: the blocks handed out and the final pointer. *)
Fixpoint carve (ops : list op) (p : Z) : list block * Z :=
  match ops with
  | [] => ([], p)
  | Align n :: r => carve r (align_char_to n p)
  | Take k len :: r =>
      let '(bs, e) := carve r (p + len) in (mkBlock k p len :: bs, e)
  end.

Definition blocks (ops : list op) (p : Z) : list block := fst (carve ops p).
Definition finish (ops : list op) (p : Z) : Z := snd (carve ops p).

(** Sum over a stage range, [for (i = 0; i < n; i++) size += f(i)]. *)
Fixpoint zsum (n : nat) (f : nat -> Z) : Z :=
  match n with O => 0 | S m => zsum m f + f m end.

(** [for (i = 0; i < n; i++) { body }]. *)
Fixpoint for_ops (n : nat) (body : nat -> list op) : list op :=
  match n with O => [] | S m => for_ops m body ++ body m end.

(** The C environment: sizes of structs and the linear-algebra library's memory sizes. *)
Record cenv := mkEnv {
  so      : string -> Z;          (* sizeof(struct) for structs holding pointers/doubles *)
  soi     : string -> Z;          (* sizeof(struct) for structs holding only ints        *)
  ms_dvec : Z -> Z;               (* blasfeo_memsize_dvec(m)                             *)
  ms_dmat : Z -> Z -> Z;          (* blasfeo_memsize_dmat(m, n)                          *)
  sub     : string -> nat -> Z    (* size announced by a submodule not modelled here     *)
}.

Definition so_int : Z := 4.
Definition so_dbl : Z := 8.
Definition so_ptr : Z := 8.
Definition so_bool : Z := 1.

(** ** Specification vocabulary (independent of the DSL) *)

Definition inside (base size : Z) (b : block) : Prop :=
  base <= blk_start b /\ 0 <= blk_len b /\ blk_start b + blk_len b <= base + size.

Definition apart (a b : block) : Prop :=
  blk_start a + blk_len a <= blk_start b \/ blk_start b + blk_len b <= blk_start a.

Definition aligned (b : block) : Prop := blk_start b mod kind_align (blk_kind b) = 0.

(** All blocks inside [base, base+size), pairwise non-overlapping. *)
Definition carved_within (base size : Z) (bs : list block) : Prop :=
  Forall (inside base size) bs /\ ForallOrdPairs apart bs.

(** Assumptions on the C environment: sizes are non-negative; structs with pointers have sizes
    multiple of 8; int-only structs multiples of 4; library vector buffers are multiples of 8 and
    matrix buffers multiples of 64 bytes and large enough; unmodelled submodule sizes are
    multiples of 8. *)
Definition env_ok (E : cenv) : Prop :=
  (forall s, 0 <= so E s /\ so E s mod 8 = 0) /\
  (forall s, 0 <= soi E s /\ soi E s mod 4 = 0) /\
  (forall m, 0 <= m -> 8 * m <= ms_dvec E m /\ ms_dvec E m mod 8 = 0) /\
  (forall m n, 0 <= m -> 0 <= n -> 8 * (m * n) <= ms_dmat E m n /\ ms_dmat E m n mod 64 = 0) /\
  (forall s i, 0 <= sub E s i /\ sub E s i mod 8 = 0).
