(** Properties C01, C02, C04: memory layout of the NLP objects and zeroing of an iterate. *)
From Coq Require Import ZArith String List Lia.
From Verif Require Import Layout LayoutNlp LayoutEnv ZeroModel LayoutTop LayoutDimsProofs.
Import ListNotations.
Open Scope Z_scope.

(** C01. For every dimension set, every options set and every base address: all fields carved by the
    assign function of the config, input, iterate, options, residual, memory, workspace and
    dims objects lie inside the announced size, and no two of them overlap. *)
Theorem C01_objects_fit : forall E d o base, env_ok E -> dims_ok d ->
  carved_within base (config_size E d) (blocks (config_assign E d) base) /\
  carved_within base (in_size E d) (blocks (in_assign E d) base) /\
  carved_within base (out_size E d) (blocks (out_assign E d) base) /\
  carved_within base (opts_size E d) (blocks (opts_assign E d) base) /\
  carved_within base (res_size E d) (blocks (res_assign E d) base) /\
  carved_within base (mem_size E d o) (blocks (mem_assign E d o) base) /\
  carved_within base (ws_size E d o) (blocks (ws_assign E d o) base) /\
  carved_within base (dims_self_size E d) (blocks (dims_self_assign E d) base).
Proof. exact all_fit. Qed.
Print Assumptions C01_objects_fit.

Theorem C01_dims_fit : forall E d dyn cost con qp rqp base, env_ok E ->
  (forall i, 0 <= dyn i) -> (forall i, 0 <= cost i) -> (forall i, 0 <= con i) -> 0 <= qp -> 0 <= rqp ->
  carved_within base (dims_size E d dyn cost con qp rqp) (blocks (dims_assign E d dyn cost con qp rqp) base).
Proof. exact dims_fit. Qed.
Print Assumptions C01_dims_fit.

Example C01_case : env_ok env64 /\ dims_ok (dims_ex 20) /\
  List.length (blocks (out_assign env64 (dims_ex 20)) 1003) = 88%nat.
Proof. exact (conj env64_ok (conj (dims_ex_ok 20) eq_refl)). Qed.

(** C02. Full statement: every carved field, including those of the dims object, starts at an address aligned for its type.
    It fails for the dims object: with an even horizon a struct with pointers starts at an address
    congruent 4 modulo 8, whatever the base address. *)
Theorem C02_alignment_refuted : exists E d, env_ok E /\ dims_ok d /\
  forall base, ~ Forall aligned (blocks (dims_self_assign E d) base).
Proof. exact dims_misaligned. Qed.
Print Assumptions C02_alignment_refuted.

(** All other objects are aligned; config and workspace need an 8-aligned base (malloc gives it). *)
Theorem C02_alignment_partial : forall E d o base, env_ok E -> dims_ok d ->
  Forall aligned (blocks (in_assign E d) base) /\
  Forall aligned (blocks (out_assign E d) base) /\
  Forall aligned (blocks (opts_assign E d) base) /\
  Forall aligned (blocks (res_assign E d) base) /\
  Forall aligned (blocks (mem_assign E d o) base) /\
  (base mod 8 = 0 -> Forall aligned (blocks (config_assign E d) base)) /\
  (base mod 8 = 0 -> Forall aligned (blocks (ws_assign E d o) base)).
Proof. exact all_aligned. Qed.
Print Assumptions C02_alignment_partial.

(** For odd horizons the dims object is aligned as well. *)
Theorem C02_dims_odd_partial : forall E d, env_ok E -> forall base, Nat.even (dN d) = false ->
  Forall aligned (blocks (dims_self_assign E d) base).
Proof. exact dims_self_aligned. Qed.
Print Assumptions C02_dims_odd_partial.

(** The misalignment occurs for every even horizon. *)
Theorem C02_dims_even_refuted : forall E d, env_ok E -> forall base, Nat.even (dN d) = true ->
  exists b, In b (blocks (dims_self_assign E d) base) /\ blk_kind b = KSub8 /\
            blk_len b = qpscaling_dims_size E d /\ blk_start b mod 8 = 4.
Proof. exact dims_self_misaligned. Qed.
Print Assumptions C02_dims_even_refuted.

(** C04. Full statement: zeroing an iterate writes only to the vectors of that iterate.  It fails: with enough controls and no
    inequality rows the zeroing loop writes past the end of the iterate object. *)
Theorem C04_zero_refuted : exists E d, env_ok E /\ dims_ok d /\ forall base,
  exists addr len, In (Some (addr, len)) (zero_writes E d base) /\ base + out_size E d < addr + len.
Proof. exact zero_refuted. Qed.
Print Assumptions C04_zero_refuted.

(** Exactly what is written: the vectors of the iterate, each from its first to its last entry, and
    nu[0] doubles through the first multiplier. *)
Theorem C04_exact : forall E d base w, In w (zero_writes E d base) <->
  (exists a n, In (a, n) (iterate_vectors E d base) /\ w = Some (a, 8 * n)) \/
  w = Some (lam_at E d base 0, 8 * nu d 0).
Proof. exact zero_exact. Qed.
Print Assumptions C04_exact.
(** All bytes written belong to vectors of the iterate exactly if nu[0] doubles fit into the multipliers. *)
Theorem C04_inside : forall E d base, env_ok E -> dims_ok d ->
  (forall x, touched E d base x -> owned E d base x) <->
  8 * nu d 0 <= zsum (S (dN d)) (fun i => ms_dvec E (2 * ni d i)).
Proof. exact zero_inside. Qed.
Print Assumptions C04_inside.

(** If stage 0 has at least nu[0]/2 inequality rows, every write stays inside a vector of the
    iterate, and every entry of every vector of the iterate is written. *)
Theorem C04_zero_partial : forall E d base, env_ok E -> dims_ok d -> nu d 0 <= 2 * ni d 0 ->
  (forall a n, In (a, n) (iterate_vectors E d base) -> In (Some (a, 8 * n)) (zero_writes E d base)) /\
  (forall w, In w (zero_writes E d base) -> exists b m,
      w = Some (blk_start b, m) /\ In b (blocks (out_assign E d) base) /\ m <= blk_len b).
Proof. exact zero_partial. Qed.
Print Assumptions C04_zero_partial.
Example C04_case : env_ok env64 /\ dims_ok (dims_ex 3) /\ nu (dims_ex 3) 0 <= 2 * ni (dims_ex 3) 0.
Proof. exact (conj env64_ok (conj (dims_ex_ok 3) (dims_ex_rows 3))). Qed.
