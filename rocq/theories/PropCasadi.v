(** Generated functions and parameters (C37, C38). *)
From Coq Require Import ZArith List Bool.
From Verif Require Import Arr ArrProofs CasadiModel CasadiSpec CasadiProofs CasadiTop.
Import ListNotations.
Open Scope Z_scope.

(** C37: the values of a generated function arrive at their row and column, the rest of the block is zero, nothing else changes *)
Theorem C37_unpack : forall (T : Type) (zero : T) t nrow P s, describes s nrow P -> pattern_ok nrow P -> 0 < nrow -> 0 < len P ->
  forall inp o, fits t nrow (len P) (len o) -> len inp = len (entries P) ->
  (match t with COLMAJ_ARGS _ => P = full nrow (length P) -> nrow = len P | _ => True end) ->
  exists d o', casadi_is_dense s = Some d /\ casadi_to_arg zero t inp s o d = Done o' /\ unpacked zero (place t nrow) nrow P inp o o'.
Proof. exact to_arg_ok. Qed.
Print Assumptions C37_unpack.
Example C37_unpack_case : describes ex_s 2 ex_P /\ pattern_ok 2 ex_P /\
  casadi_to_arg 0 (DMAT 3 4 1 1) [10; 30; 20] ex_s (repeat 7 12) false = Done [7; 7; 7; 7; 10; 0; 7; 0; 30; 7; 20; 0].
Proof. exact (conj (proj1 ex_describes) (conj (proj2 ex_describes) ex_run)). Qed.
Theorem C37_pack : forall (T : Type) t nrow P s, describes s nrow P -> pattern_ok nrow P -> 0 < nrow -> 0 < len P ->
  forall inp o : list T, fits t nrow (len P) (len inp) -> len o = len (entries P) ->
  (match t with COLMAJ_ARGS _ => P = full nrow (length P) -> nrow = len P | _ => True end) ->
  exists d o', casadi_is_dense s = Some d /\ arg_to_casadi t inp o s d = Done o' /\ packed (place t nrow) P inp o o'.
Proof. exact of_arg_ok. Qed.
Print Assumptions C37_pack.
Theorem C37_round_trip : forall (T : Type) (zero : T) t nrow P s, describes s nrow P -> pattern_ok nrow P -> 0 < nrow -> 0 < len P ->
  forall inp o back, fits t nrow (len P) (len o) -> len inp = len (entries P) -> len back = len (entries P) ->
  (match t with COLMAJ_ARGS _ => P = full nrow (length P) -> nrow = len P | _ => True end) ->
  exists d o', casadi_is_dense s = Some d /\ casadi_to_arg zero t inp s o d = Done o' /\ arg_to_casadi t o' back s d = Done inp.
Proof. exact round_trip. Qed.
Print Assumptions C37_round_trip.
(** the density test and the number of nonzeros *)
Theorem C37_is_dense : forall s nrow P, describes s nrow P -> 0 < nrow -> 0 < len P ->
  exists d, casadi_is_dense s = Some d /\ (d = true <-> P = full nrow (length P)).
Proof. exact is_dense_ok. Qed.
Print Assumptions C37_is_dense.
Theorem C37_nnz : forall s nrow P, describes s nrow P -> 0 <= nrow -> casadi_nnz s = Some (len (entries P)).
Proof. exact nnz_ok. Qed.
Print Assumptions C37_nnz.
(** false for dense rectangular blocks in column-major form with a leading dimension, and for n x 0 results read as vectors *)
Theorem C37_colmaj_args_refuted : exists s nrow P lda inp o o', describes s nrow P /\ pattern_ok nrow P /\
  fits (COLMAJ_ARGS lda) nrow (len P) (len o) /\ len inp = len (entries P) /\ casadi_is_dense s = Some true /\
  casadi_to_arg 0 (COLMAJ_ARGS lda) inp s o true = Done o' /\ ~ unpacked 0 (place (COLMAJ_ARGS lda) nrow) nrow P inp o o'.
Proof. exact args_wrong. Qed.
Print Assumptions C37_colmaj_args_refuted.
Theorem C37_colmaj_args_oob_refuted : exists s nrow P lda inp o, describes s nrow P /\ pattern_ok nrow P /\
  fits (COLMAJ_ARGS lda) nrow (len P) (len o) /\ len inp = len (entries P) /\ casadi_is_dense s = Some true /\
  casadi_to_arg 0 (COLMAJ_ARGS lda) inp s o true = UB.
Proof. exact args_oob. Qed.
Print Assumptions C37_colmaj_args_oob_refuted.
Theorem C37_empty_vector_refuted : exists s nrow P xi o, describes s nrow P /\ pattern_ok nrow P /\ entries P = [] /\ xi + nrow <= len o /\
  casadi_is_dense s = Some true /\ casadi_to_arg 0 (DVEC xi) [] s o true = UB.
Proof. exact dvec_empty. Qed.
Print Assumptions C37_empty_vector_refuted.

(** C38: a sparse update of a stage sets the listed parameters, the last update of a parameter wins, nothing else changes *)
Theorem C38_sparse : forall (T : Type) np stage n idx (v b : list T), 0 <= n -> n <= len idx -> n <= len v ->
  (forall ii k, 0 <= ii < n -> aget idx ii = Some k -> 0 <= k < nth stage np 0) ->
  0 <= param_off np stage -> param_off np stage + nth stage np 0 <= len b ->
  exists b', in_set_params_sparse np stage n idx v b = Some b' /\ updated (param_off np stage) n idx v b b'.
Proof. exact in_set_params_sparse_ok. Qed.
Print Assumptions C38_sparse.
Example C38_sparse_case : in_set_params_sparse [2; 3; 2] 1 3 [2; 0; 2] [10; 20; 30] [0; 1; 2; 3; 4; 5; 6] = Some [0; 1; 20; 3; 30; 5; 6].
Proof. exact ex_params. Qed.
Theorem C38_function_sparse : forall (T : Type) n idx (v p : list T), 0 <= n -> n <= len idx -> n <= len v ->
  (forall ii k, 0 <= ii < n -> aget idx ii = Some k -> 0 <= k < len p) ->
  exists p', set_param_sparse n idx v p = Some p' /\ updated 0 n idx v p p'.
Proof. exact set_param_sparse_ok. Qed.
Print Assumptions C38_function_sparse.
(** generated functions refuse sparse updates of a parameter vector stored sparsely, and only then *)
Theorem C38_generated_sparse : forall (T : Type) dense n idx (v p : list T), 0 <= n -> n <= len idx -> n <= len v ->
  (forall ii k, 0 <= ii < n -> aget idx ii = Some k -> 0 <= k < len p) ->
  match set_param_sparse_casadi dense n idx v p with
  | Done p' => dense = true /\ updated 0 n idx v p p'
  | Exit => dense = false
  | UB => False
  end.
Proof. exact @casadi_sparse_ok. Qed.
Print Assumptions C38_generated_sparse.
Example C38_generated_sparse_case : set_param_sparse_casadi true 1 [1] [7] [0; 0] = Done [0; 7] /\ set_param_sparse_casadi false 1 [1] [7] [0; 0] = Exit.
Proof. vm_compute. auto. Qed.
(** a full update followed by get returns the values, the other stages keep theirs *)
Theorem C38_round_trip : forall (T : Type) np stage (v b out : list T), 0 <= nth stage np 0 -> nth stage np 0 = len v -> len out = len v ->
  0 <= param_off np stage -> param_off np stage + nth stage np 0 <= len b ->
  exists b', in_set_params np stage v b = Some b' /\ in_get_params np stage b' out = Some v /\
    forall a, ~ param_off np stage <= a < param_off np stage + nth stage np 0 -> aget b' a = aget b a.
Proof. exact params_round_trip. Qed.
Print Assumptions C38_round_trip.
(** the blocks of the stages are inside the allocation and disjoint *)
Theorem C38_blocks : forall np, Forall (fun n => 0 <= n) np -> forall i, (i < length np)%nat ->
  0 <= param_off np i /\ param_off np i + nth i np 0 <= fold_right Z.add 0 np /\
  forall j, (i < j < length np)%nat -> param_off np i + nth i np 0 <= param_off np j.
Proof. exact param_off_mono. Qed.
Print Assumptions C38_blocks.
(** indices are not checked: an index equal to the number of parameters changes the next stage *)
Theorem C38_index_refuted : exists np stage idx (v b b' : list Z), (S stage < length np)%nat /\ Forall (fun n => 0 < n) np /\ len b = fold_right Z.add 0 np /\
  idx = [nth stage np 0] /\ in_set_params_sparse np stage 1 idx v b = Some b' /\ aget b' (param_off np (S stage)) <> aget b (param_off np (S stage)).
Proof. exact index_unchecked. Qed.
Print Assumptions C38_index_refuted.
