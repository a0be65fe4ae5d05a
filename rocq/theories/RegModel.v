(** Hessian regularisation: ocp_nlp_reg_common.c:160-280, ocp_nlp_reg_project.c:277-306,
    ocp_nlp_reg_mirror.c:267-297, ocp_nlp_reg_glm.c:240-268.
    The eigendecomposition acados_eigen_decomposition (math.c:1098-1111) is an oracle [eig] that
    returns V (row-major, V i k = V[i*dim+k]) and d. *)
From Coq Require Import ZArith List Bool.
From Verif Require Import Arith Vec LinModel.

Section R.
Variable A : arith.
Notation T := (num A).
Notation mat := (nat -> nat -> T).
Local Open Scope num_scope.

(** reg_common.c:160-175 acados_reconstruct_A; entry (i, j) with j <= i is computed, (j, i) copied *)
Definition recon_entry (n : nat) (V : mat) (d : nat -> T) (i j : nat) : T := vsum n (fun k => V i k * d k * V j k).
Definition reconstruct (n : nat) (V : mat) (d : nat -> T) : mat := fun i j =>
  if (j <=? i)%nat then recon_entry n V d i j else recon_entry n V d j i.

(** :180-197 and :199-225 the mirrored eigenvalue *)
Definition mirror_eig (eps x : T) : T := if (- eps <=? x) && (x <=? eps) then eps else if x <? 0 then - x else x.
(** :228-243 the projected eigenvalue *)
Definition project_eig (eps x : T) : T := if x <? eps then eps else x.
(** :207-212, :252-257 the adaptive threshold *)
Definition eps_mirror (n : nat) (d : nat -> T) (cond mineps : T) : T := nmax (loop n (fun i m => nmax m (nabs (d i))) 0 / cond) mineps.
Definition eps_project (n : nat) (d : nat -> T) (cond mineps : T) : T := nmax (loop n (fun i m => nmax m (d i)) 0 / cond) mineps.

Variable eig : nat -> mat -> mat * (nat -> T).
Definition acados_project (n : nat) (eps : T) (M : mat) : mat := let (V, d) := eig n M in reconstruct n V (fun k => project_eig eps (d k)).
Definition acados_mirror (n : nat) (eps : T) (M : mat) : mat := let (V, d) := eig n M in reconstruct n V (fun k => mirror_eig eps (d k)).
Definition acados_project_adaptive (n : nat) (cond mineps : T) (M : mat) : mat :=
  let (V, d) := eig n M in let eps := eps_project n d cond mineps in reconstruct n V (fun k => project_eig eps (d k)).
Definition acados_mirror_adaptive (n : nat) (cond mineps : T) (M : mat) : mat :=
  let (V, d) := eig n M in let eps := eps_mirror n d cond mineps in reconstruct n V (fun k => mirror_eig eps (d k)).

(** blasfeo_dtrtr_l in place: the strict upper triangle of the n x n block becomes the mirror of the lower one *)
Definition symmetrise (n : nat) (M : mat) : mat := fun i j => if (i <? j)%nat && (j <? n)%nat then M j i else M i j.
(** blasfeo_ddiare *)
Definition diag_add (n : nat) (a : T) (M : mat) : mat := fun i j => if (i =? j)%nat && (i <? n)%nat then M i j + a else M i j.

Inductive reg := RProject (eps : T) | RMirror (eps : T) | RProjectAdaptive (cond mineps : T) | RMirrorAdaptive (cond mineps : T) | RGlm (eps : T).
(** reg_glm.c:254-265 *)
Definition glm_alpha (eps t : T) : T := if t <? 0 then nabs t + eps else eps.
(** one stage; unpack / pack are column-major while the routines index row-major, hence the transpositions *)
Definition dense (n : nat) (f : mat -> mat) (M : mat) : mat :=
  let H := f (fun i j => M j i) in fun i j => if (i <? n)%nat && (j <? n)%nat then H j i else M i j.
Definition reg_stage (r : reg) (n : nat) (M : mat) : mat :=
  let S := symmetrise n M in
  match r with
  | RProject eps => dense n (acados_project n eps) S
  | RMirror eps => dense n (acados_mirror n eps) S
  | RProjectAdaptive c m => dense n (acados_project_adaptive n c m) S
  | RMirrorAdaptive c m => dense n (acados_mirror_adaptive n c m) S
  | RGlm eps => let t := gersh_min n S in if t <? eps then diag_add n (glm_alpha eps t) S else S
  end.
(** all stages 0..N, stage sizes nu + nx *)
Definition regularize (r : reg) (N : nat) (n : nat -> nat) (M : nat -> mat) : nat -> mat :=
  loop (N + 1) (fun i M k => if (k =? i)%nat then reg_stage r (n i) (M i) else M k) M.
End R.
Arguments recon_entry {A}. Arguments reconstruct {A}. Arguments mirror_eig {A}. Arguments project_eig {A}. Arguments eps_mirror {A}. Arguments eps_project {A}.
Arguments acados_project {A}. Arguments acados_mirror {A}. Arguments acados_project_adaptive {A}. Arguments acados_mirror_adaptive {A}.
Arguments symmetrise {A}. Arguments diag_add {A}. Arguments RProject {A}. Arguments RMirror {A}. Arguments RProjectAdaptive {A}. Arguments RMirrorAdaptive {A}. Arguments RGlm {A}.
Arguments glm_alpha {A}. Arguments dense {A}. Arguments reg_stage {A}. Arguments regularize {A}.
