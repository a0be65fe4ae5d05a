(** C82: the blocks of partial condensing. *)
From Coq Require Import ZArith List Bool.
From Verif Require Import Arr PcondModel PcondProofs.
Import ListNotations.
Open Scope Z_scope.

(** C82_blocks: after any sequence of option settings and solver creations with horizons in [0, N] and long enough arrays, creating a
    solver accesses no memory out of bounds, and it ends the process or leaves N2 + 1 blocks that cover the horizon *)
Theorem C82_blocks : forall auto N, 0 <= N -> forall l s, sized N s -> 0 <= p_N2 s <= N -> usable N (p_N2 s) l -> auto_sums auto N ->
  match run auto N (l ++ solver_create) s with
  | UB => False | Exit => True
  | Done s' => (p_was s' = true \/ 0 < p_N2 s' -> zsum (blocks s') = N) /\ p_pN s' = p_N2 s' /\ p_bkp s' = p_N2 s' /\ length (blocks s') = Z.to_nat (p_N2 s' + 1)
  end.
Proof. exact created. Qed.
Print Assumptions C82_blocks.
Example C82_blocks_case : sized 10 (fresh 10) /\ auto_sums even 10 /\
  run even 10 ([SetN 3; SetBlock [4; 3; 2; 1]] ++ solver_create ++ [Solve]) (fresh 10) =
  Done (mkP 3 3 [4; 3; 2; 1; 0; 0; 0; 0; 0; 0; 0] true 3 [4; 3; 2; 1; 0; 0; 0; 0; 0; 0; 0]).
Proof. exact (conj (fresh_sized 10 ltac:(discriminate)) (conj (even_sums 10 ltac:(discriminate)) case_given)). Qed.

(** C82_given: block sizes set after the horizon are used as given, and refused exactly if they do not cover the horizon *)
Theorem C82_given : forall auto N, 0 <= N -> forall s n v, sized N s -> 0 <= n <= N -> Z.of_nat (length v) = n + 1 ->
  match run auto N ([SetN n; SetBlock v] ++ solver_create) s with
  | UB => False | Exit => zsum v <> N | Done s' => blocks s' = v /\ zsum v = N
  end.
Proof. exact (fun auto N _ => given auto N). Qed.
Print Assumptions C82_given.
(** ... and the generated code does that if the horizon is not shorter than the generated qp_solver_cond_N *)
Theorem C82_template : forall auto N, 0 <= N -> forall ori v s, sized N s -> 0 <= ori <= N -> Z.of_nat (length v) = ori + 1 ->
  template auto N ori (Some v) s = run auto N [SetN ori; SetBlock v] s.
Proof. exact (fun auto N _ => template_ok auto N). Qed.
Print Assumptions C82_template.

(** C82_automatic: without block sizes the solver is created and runs, for every positive horizon up to N *)
Theorem C82_automatic : forall auto N, 0 <= N -> forall s n, sized N s -> p_was s = false -> 0 < n <= N -> auto_sums auto N ->
  exists s', run auto N ([SetN n] ++ solver_create ++ [Solve]) s = Done s' /\ zsum (blocks s') = N /\ p_pN s' = n.
Proof. exact (fun auto N _ => automatic auto N). Qed.
Print Assumptions C82_automatic.
Example C82_automatic_case : exists s, run even 10 ([SetN 3] ++ solver_create ++ [Solve]) (fresh 10) = Done s /\ blocks s = [4; 3; 3; 0].
Proof. exact case_auto. Qed.

(** C82_long_refuted: update_qp_solver_cond_N with more than N leaves the arrays, always *)
Theorem C82_long_refuted : forall auto N, 0 <= N -> forall s n, sized N s -> N < n -> run auto N (update_cond_N n) s = UB.
Proof. exact too_long. Qed.
Print Assumptions C82_long_refuted.
(** C82_template_refuted: the generated code writes out of bounds when a solver with block sizes is created for a horizon shorter than the
    generated qp_solver_cond_N *)
Theorem C82_template_refuted : forall auto N, 0 <= N -> forall ori v s, N < ori -> template auto N ori (Some v) s = UB.
Proof. exact template_short. Qed.
Print Assumptions C82_template_refuted.
(** C82_stale_refuted: a new horizon after block sizes were given: a smaller one ends the process, a larger one adds empty blocks *)
Theorem C82_stale_refuted :
  (exists l s, run even 10 l (fresh 10) = Done s /\ usable 10 (p_N2 (fresh 10)) l /\ zsum (blocks s) = 10 /\ run even 10 (update_cond_N 2) s = Exit) /\
  (exists l s s', run even 10 l (fresh 10) = Done s /\ usable 10 (p_N2 (fresh 10)) l /\ run even 10 (update_cond_N 5) s = Done s' /\ blocks s' = [4; 3; 2; 1; 0; 0]).
Proof. exact stale_blocks. Qed.
Print Assumptions C82_stale_refuted.
(** C82_negative_refuted: negative block sizes are accepted *)
Theorem C82_negative_refuted : exists s, run even 10 ([SetN 2; SetBlock [12; -2; 0]] ++ solver_create) (fresh 10) = Done s /\ blocks s = [12; -2; 0].
Proof. exact negative_block. Qed.
Print Assumptions C82_negative_refuted.
