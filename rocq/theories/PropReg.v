(** Property theorems C31, C32: Hessian regularisation. *)
From Coq Require Import ZArith List Bool Reals.
From Verif Require Import Arith Vec LinModel RSum RegModel PadeProofs InterpProofs RegProofs.
Open Scope R_scope.

(** C31.  Spectral regularisations (project, mirror, both adaptive variants): given an exact
    eigensystem of the symmetrised Hessian, the result is symmetric, has the same eigenvectors with
    the eigenvalues max(d, eps) or max(|d|, eps), and its quadratic form is at least eps |v|^2. *)
Theorem C31_symmetric : forall eig r n (M V : matR) (d : vecR), spectral r -> eig n (fun i j => symmetrise (A := real) n M j i) = (V, d) ->
  sym n (reg_stage (A := real) eig r n M).
Proof. exact stage_sym. Qed.
Print Assumptions C31_symmetric.
Theorem C31_eigenvalues : forall eig r n (M V : matR) (d : vecR), spectral r -> eig n (fun i j => symmetrise (A := real) n M j i) = (V, d) ->
  eigensystem n (symmetrise (A := real) n M) V d -> eigensystem n (reg_stage (A := real) eig r n M) V (new_eig r n d).
Proof. exact stage_eigen. Qed.
Print Assumptions C31_eigenvalues.
Theorem C31_positive_definite : forall eig r n (M V : matR) (d : vecR), spectral r -> eig n (fun i j => symmetrise (A := real) n M j i) = (V, d) ->
  eigensystem n (symmetrise (A := real) n M) V d -> forall v : vecR,
  reg_eps r n d * sum n (fun i => v i * v i) <= sum n (fun i => sum n (fun j => v i * reg_stage (A := real) eig r n M i j * v j)).
Proof. exact stage_pd. Qed.
Print Assumptions C31_positive_definite.
Theorem C31_unchanged : forall eig r n (M V : matR) (d : vecR), spectral r -> eig n (fun i j => symmetrise (A := real) n M j i) = (V, d) ->
  eigensystem n (symmetrise (A := real) n M) V d ->
  (forall k, (k < n)%nat -> reg_eps r n d <= d k) -> (mirrors r = true -> forall k, (k < n)%nat -> 0 <= d k) ->
  forall i j, (i < n)%nat -> (j < n)%nat -> reg_stage (A := real) eig r n M i j = symmetrise (A := real) n M i j.
Proof. exact stage_unchanged. Qed.
Print Assumptions C31_unchanged.
(** the adaptive variants bound the condition number by the requested value *)
Theorem C31_condition : forall eig r n (M V : matR) (d : vecR), spectral r -> eig n (fun i j => symmetrise (A := real) n M j i) = (V, d) ->
  eigensystem n (symmetrise (A := real) n M) V d -> forall c m, r = RProjectAdaptive c m \/ r = RMirrorAdaptive c m -> 1 <= c -> 0 < m ->
  forall v w, quad n (reg_stage (A := real) eig r n M) v * nrm2 n w <= c * (quad n (reg_stage (A := real) eig r n M) w * nrm2 n v).
Proof. exact stage_cond. Qed.
Print Assumptions C31_condition.
(** every stage 0..N is treated, nothing else *)
Theorem C31_all_stages : forall eig r N n (M : nat -> matR) i,
  regularize (A := real) eig r N n M i = if (i <=? N)%nat then reg_stage (A := real) eig r (n i) (M i) else M i.
Proof. exact regularize_stage. Qed.
Print Assumptions C31_all_stages.
Example C31_case_decomposition : eigensystem 2 (symmetrise (A := real) 2 ex_H) ex_V ex_d.
Proof. exact ex_eigensystem. Qed.
Example C31_case : let R := reg_stage (A := real) (fun _ _ => (ex_V, ex_d)) (RProject (1%R : R)) 2 ex_H in
  R 0%nat 0%nat = 809 / 25 /\ R 0%nat 1%nat = - (588 / 25) /\ R 1%nat 0%nat = - (588 / 25) /\ R 1%nat 1%nat = 466 / 25.
Proof. exact ex_project. Qed.

(** C32.  Gershgorin Levenberg-Marquardt: for every matrix, whatever the sign of its estimate. *)
Theorem C32_positive_definite : forall eig eps n (M : matR) (v : vecR),
  eps * sum n (fun i => v i * v i) <= sum n (fun i => sum n (fun j => v i * reg_stage (A := real) eig (RGlm eps) n M i j * v j)).
Proof. exact glm_pd. Qed.
Print Assumptions C32_positive_definite.
Theorem C32_symmetric : forall eig eps n (M : matR), sym n (reg_stage (A := real) eig (RGlm eps) n M).
Proof. exact glm_sym. Qed.
Print Assumptions C32_symmetric.
Theorem C32_unchanged : forall eig eps n (M : matR), eps <= gersh_min (A := real) n (symmetrise (A := real) n M) ->
  forall i j, reg_stage (A := real) eig (RGlm eps) n M i j = symmetrise (A := real) n M i j.
Proof. exact glm_unchanged. Qed.
Print Assumptions C32_unchanged.
(** symmetrisation keeps the lower triangle and yields a symmetric block *)
Theorem C32_symmetrise : forall n (M : matR), sym n (symmetrise (A := real) n M) /\ forall i j, (j <= i)%nat -> symmetrise (A := real) n M i j = M i j.
Proof. exact (fun n M => conj (symmetrise_sym n M) (symmetrise_lower n M)). Qed.
Print Assumptions C32_symmetrise.
Example C32_case : let R := reg_stage (A := real) (fun _ _ => (ex_V, ex_d)) (RGlm (1%R : R)) 2 ex_H in
  R 0%nat 0%nat = 58 /\ R 0%nat 1%nat = -36 /\ R 1%nat 1%nat = 37.
Proof. exact ex_glm. Qed.
