(** Conversion between the value arrays of generated functions and acados matrices and vectors,
    acados/utils/external_function_generic.c:206-828.

    The sparsity description is the raw int array of the generated code.  Arrays are lists, every access is checked.
    A blasfeo matrix with m rows and n columns is an array of m*n elements; element (i,j) exists only for i < m, j < n
    (the panel layout of blasfeo is not modelled). *)
From Coq Require Import ZArith List Bool.
From Verif Require Import Arr.
Import ListNotations.
Open Scope Z_scope.

(** casadi_nnz, :208-231 *)
Definition casadi_nnz (s : list Z) : option Z :=
  do nrow <- aget s 0; do ncol <- aget s 1; do dense <- aget s 2;
  if negb (dense =? 0) then Some (nrow * ncol)
  else for_ 0 ncol (fun i nnz => do b <- aget s (2 + i + 1); do a <- aget s (2 + i); Some (nnz + (b - a))) 0.

(** casadi_is_dense, :234-278; the state of the loops is false once the C function has returned 0 *)
Definition casadi_is_dense (s : list Z) : option bool :=
  do nrow <- aget s 0; do ncol <- aget s 1; do dense <- aget s 2;
  if (nrow <=? 0) || (ncol <=? 0) then Some true
  else if negb (dense =? 0) then Some true
  else for_ 0 ncol (fun jj ok =>
    if ok : bool then
      do b <- aget s (2 + jj + 1); do a <- aget s (2 + jj);
      if negb (b - a =? nrow) then Some false
      else for_ a b (fun idx ok =>
        if ok : bool then do r <- aget s (ncol + 3 + idx); Some (r + jj * nrow =? idx) else Some false) true
    else Some false) true.

Section C.
Variable T : Type.
Variable zero : T.

(** where an element is stored; [None] if the access is outside the object *)
Definition access := Z -> Z -> option Z.
Definition acc_colmaj (nrow : Z) : access := fun i j => Some (i + j * nrow).
Definition acc_dmat (m n ai aj : Z) : access := fun i j =>
  if (0 <=? ai + i) && (ai + i <? m) && (0 <=? aj + j) && (aj + j <? n) then Some ((ai + i) + (aj + j) * m) else None.
Definition acc_dvec (xi : Z) : access := fun i _ => Some (xi + i).

(** "Fill with zeros", e.g. :308-309 *)
Definition fill_zero (acc : access) (nrow ncol : Z) (out : list T) : option (list T) :=
  for_ 0 ncol (fun jj out => for_ 0 nrow (fun ii out => do a <- acc ii jj; aput out a zero) out) out.
(** "Copy nonzeros", e.g. :311-318; a column pointer below its predecessor makes the C loop run past the arrays *)
Definition scatter (acc : access) (s : list Z) (ncol : Z) (inp out : list T) : option (list T) :=
  do r <- for_ 0 ncol (fun jj '(out, ptr) =>
    do a <- aget s (2 + jj); do b <- aget s (2 + jj + 1);
    if b <? a then None else
    for_ a b (fun idx '(out, ptr) =>
      do r <- aget s (ncol + 3 + idx); do v <- aget inp ptr; do c <- acc r jj;
      do out <- aput out c v; Some (out, ptr + 1)) (out, ptr)) (out, 0);
  Some (fst r).
(** the other direction, e.g. :346-356 *)
Definition gather (acc : access) (s : list Z) (ncol : Z) (inp out : list T) : option (list T) :=
  do r <- for_ 0 ncol (fun jj '(out, ptr) =>
    do a <- aget s (2 + jj); do b <- aget s (2 + jj + 1);
    if b <? a then None else
    for_ a b (fun idx '(out, ptr) =>
      do r <- aget s (ncol + 3 + idx); do c <- acc r jj; do v <- aget inp c;
      do out <- aput out ptr v; Some (out, ptr + 1)) (out, ptr)) (out, 0);
  Some (fst r).
(** blasfeo_pack_dmat(nrow, ncol, in, nrow, ...) and blasfeo_unpack_dmat *)
Definition pack (acc : access) (nrow ncol : Z) (inp out : list T) : option (list T) :=
  for_ 0 ncol (fun jj out => for_ 0 nrow (fun ii out =>
    do v <- aget inp (ii + jj * nrow); do a <- acc ii jj; aput out a v) out) out.
Definition unpack (acc : access) (nrow ncol : Z) (inp out : list T) : option (list T) :=
  for_ 0 ncol (fun jj out => for_ 0 nrow (fun ii out =>
    do a <- acc ii jj; do v <- aget inp a; aput out (ii + jj * nrow) v) out) out.
Definition copy (n : Z) (inp out : list T) : option (list T) :=
  for_ 0 n (fun ii out => do v <- aget inp ii; aput out ii v) out.
(** the dense branch of colmaj_args, :524-525 and :566-567 *)
Definition pack_args (lda nrow ncol : Z) (inp out : list T) : option (list T) :=
  for_ 0 ncol (fun ii out => for_ 0 nrow (fun jj out =>
    do v <- aget inp (ii + ncol * jj); aput out (ii + jj * lda) v) out) out.
Definition unpack_args (lda nrow ncol : Z) (inp out : list T) : option (list T) :=
  for_ 0 ncol (fun ii out => for_ 0 nrow (fun jj out =>
    do v <- aget inp (ii + jj * lda); aput out (ii + ncol * jj) v) out) out.

(** ext_fun_arg_t with what the argument structs carry; the plain blasfeo types have offset 0 (:368-435, :438-505) *)
Inductive arg := COLMAJ | COLMAJ_ARGS (lda : Z) | DMAT (m n ai aj : Z) | DVEC (xi : Z) | IGNORE_ARGUMENT.

(** d_cvt_casadi_to_ext_fun_arg, :749-785, with the routines it calls *)
Definition casadi_to_arg (t : arg) (inp : list T) (s : list Z) (out : list T) (dense : bool) : outcome (list T) :=
  match aget s 0, aget s 1 with
  | Some nrow, Some ncol =>
      match t with
      | COLMAJ =>                                                          (* :284-320 *)
          if (nrow <=? 0) || (ncol <=? 0) then Done out
          else if dense then checked (copy (ncol * nrow) inp out)
          else checked (do o <- fill_zero (acc_colmaj nrow) nrow ncol out; scatter (acc_colmaj nrow) s ncol inp o)
      | COLMAJ_ARGS lda =>                                                 (* :508-546 *)
          if (nrow <=? 0) || (ncol <=? 0) then Done out
          else if dense then checked (pack_args lda nrow ncol inp out)
          else checked (do o <- fill_zero (acc_colmaj lda) nrow ncol out; scatter (acc_colmaj lda) s ncol inp o)
      | DMAT m n ai aj =>                                                  (* :361-394, :589-626 *)
          if (nrow <=? 0) || (ncol <=? 0) then Done out
          else if dense then checked (pack (acc_dmat m n ai aj) nrow ncol inp out)
          else checked (do o <- fill_zero (acc_dmat m n ai aj) nrow ncol out; scatter (acc_dmat m n ai aj) s ncol inp o)
      | DVEC xi =>                                                         (* :433-467, :669-706 *)
          if negb ((ncol =? 1) || (nrow =? 0) || (ncol =? 0)) then Exit
          else if nrow <=? 0 then Done out
          else if dense then checked (pack (acc_dvec xi) nrow 1 inp out)
          else checked (do o <- fill_zero (acc_dvec xi) nrow 1 out; scatter (acc_dvec xi) s 1 inp o)
      | IGNORE_ARGUMENT => Done out
      end
  | _, _ => UB
  end.
(** d_cvt_ext_fun_arg_to_casadi, :787-828 *)
Definition arg_to_casadi (t : arg) (inp out : list T) (s : list Z) (dense : bool) : outcome (list T) :=
  match aget s 0, aget s 1 with
  | Some nrow, Some ncol =>
      match t with
      | COLMAJ =>                                                          (* :324-358 *)
          if (nrow <=? 0) || (ncol <=? 0) then Done out
          else if dense then checked (copy (ncol * nrow) inp out) else checked (gather (acc_colmaj nrow) s ncol inp out)
      | COLMAJ_ARGS lda =>                                                 (* :550-584 *)
          if (nrow <=? 0) || (ncol <=? 0) then Done out
          else if dense then checked (unpack_args lda nrow ncol inp out) else checked (gather (acc_colmaj lda) s ncol inp out)
      | DMAT m n ai aj =>                                                  (* :398-429, :630-665 *)
          if (nrow <=? 0) || (ncol <=? 0) then Done out
          else if dense then checked (unpack (acc_dmat m n ai aj) nrow ncol inp out) else checked (gather (acc_dmat m n ai aj) s ncol inp out)
      | DVEC xi =>                                                         (* :472-504, :711-747 *)
          if negb ((ncol =? 1) || (nrow =? 0) || (ncol =? 0)) then Exit
          else if nrow <=? 0 then Done out
          else if dense then checked (unpack (acc_dvec xi) nrow 1 inp out) else checked (gather (acc_dvec xi) s 1 inp out)
      | IGNORE_ARGUMENT => Done out
      end
  | _, _ => UB
  end.
End C.
Arguments fill_zero {T}. Arguments scatter {T}. Arguments gather {T}. Arguments pack {T}. Arguments unpack {T}. Arguments copy {T}.
Arguments pack_args {T}. Arguments unpack_args {T}. Arguments casadi_to_arg {T}. Arguments arg_to_casadi {T}.

(** ** parameters *)
Section P.
Variable T : Type.
(** external_function_param_generic_set_param (:172-184) and _set_param_sparse (:80-91); [n] is fun->np or n_update *)
Definition set_param (np : Z) (v p : list T) : option (list T) :=
  for_ 0 np (fun ii p => do x <- aget v ii; aput p ii x) p.
Definition set_param_sparse (n : Z) (idx : list Z) (v p : list T) : option (list T) :=
  for_ 0 n (fun ii p => do k <- aget idx ii; do x <- aget v ii; aput p k x) p.
(** external_function_param_casadi_set_param_sparse (:1041-1059): refuses sparse parameter vectors *)
Definition set_param_sparse_casadi (dense : bool) (n : Z) (idx : list Z) (v p : list T) : outcome (list T) :=
  if dense then checked (set_param_sparse n idx v p) else Exit.

(** nlp_in: the parameters of all stages lie in one block, stage after stage (acados/ocp_nlp/ocp_nlp_common.c:907-919) *)
Fixpoint param_off (np : list Z) (stage : nat) : Z :=
  match stage, np with S k, n :: r => n + param_off r k | _, _ => 0 end.
(** interfaces/acados_c/ocp_nlp_interface.c:444-451, :461-470, :488-495 *)
Definition in_set_params (np : list Z) (stage : nat) (v blk : list T) : option (list T) :=
  let o := param_off np stage in
  for_ 0 (nth stage np 0) (fun ii b => do x <- aget v ii; aput b (o + ii) x) blk.
Definition in_set_params_sparse (np : list Z) (stage : nat) (n : Z) (idx : list Z) (v blk : list T) : option (list T) :=
  let o := param_off np stage in
  for_ 0 n (fun ii b => do k <- aget idx ii; do x <- aget v ii; aput b (o + k) x) blk.
Definition in_get_params (np : list Z) (stage : nat) (blk out : list T) : option (list T) :=
  let o := param_off np stage in
  for_ 0 (nth stage np 0) (fun ii out => do x <- aget blk (o + ii); aput out ii x) out.
End P.
Arguments set_param {T}. Arguments set_param_sparse {T}. Arguments set_param_sparse_casadi {T}.
Arguments in_set_params {T}. Arguments in_set_params_sparse {T}. Arguments in_get_params {T}.
