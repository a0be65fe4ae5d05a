(** What it means that a parallel loop does not depend on the schedule, and what the modules may do. *)
From Coq Require Import ZArith List Bool Lia.
From Verif Require Import FP Par OmpModel.
Import ListNotations.
Open Scope nat_scope.

(** wherever the threads of a parallel loop are, none of them is stuck and they can be run to the end *)
Definition can_end (f : phase) (s : store) : Prop :=
  match f with
  | Par n body => forall plan ps s', fair_plan n plan -> steps loc_dec (threads body plan, s) (ps, s') ->
      ~ stuck ps /\ exists qs t, steps loc_dec (ps, s') (qs, t) /\ ended qs
  | Seq p => run loc_dec p s <> None
  end.
(** any number of threads, any distribution of the iterations, any interleaving: the memory at the end is, cell by
    cell and bit by bit, that of the function without OpenMP *)
Definition schedule_independent (fs : list phase) (s : store) : Prop :=
  exists t, run loc_dec (sequential fs) s = Some t /\
    (forall s', exec loc_dec fs s s' -> same s' t) /\
    (forall done f todo s', fs = done ++ f :: todo -> exec loc_dec done s s' -> can_end f s').

(** where the pointers of the modules are to lead: the data of their own stage, and for the dynamics the next state *)
Section Wiring.
Context (sens_forw : bool) (integrated : nat -> bool) (o : iterate).
Definition leads (m : modl) (i : nat) (f : member) : option (arr * nat) :=
  match m, f with
  | _, p_ux => Some (A_ux o, i)
  | Dyn, p_ux1 => Some (A_ux o, i + 1)
  | Dyn, p_pi => Some (A_pi Out, i)
  | Con, p_lam => Some (A_lam Out, i)
  | Dyn, p_BAbt => Some (A_BAbt, i)
  | _, p_RSQrq => Some (A_RSQrq false, i)
  | Con, p_DCt => Some (A_DCt, i)
  | Cost, p_Z => Some (A_Z false, i)
  | _, p_dzduxt => Some (A_dzduxt, i)
  | Dyn, p_sim_guess => Some (A_sim_guess, i)
  | Dyn, p_set_sim_guess => Some (A_set_sim_guess, i)
  | _, p_z_alg => Some (A_z_alg, i)
  | Con, p_idxb => Some (A_idxb, i)
  | Con, p_idxs_rev => Some (A_idxs_rev, i)
  | Con, p_idxe => Some (A_idxe, i)
  | Dyn, p_cost_grad => if integrated i then Some (A_mem Cost m_grad, i) else None
  | Dyn, p_cost_fun => if integrated i then Some (A_mem Cost m_fun, i) else None
  | Dyn, p_y_ref => if integrated i then Some (A_model Cost mo_y_ref, i) else None
  | Dyn, p_W_chol => if integrated i then Some (A_mem Cost m_W_chol, i) else None
  | Dyn, p_W_chol_diag => if integrated i then Some (A_mem Cost m_W_chol_diag, i) else None
  | Dyn, p_outer_diag => if integrated i then Some (A_mem Cost m_outer_diag, i) else None
  | Dyn, p_cost_scaling => if integrated i then Some (A_model Cost mo_scaling, i) else None
  | Dyn, p_add_hess => if integrated i then Some (A_opts Cost o_add_hess, i) else None
  | Dyn, p_jac_dyn => if sens_forw then Some (A_jac_dyn, i) else None
  | _, p_jac_lag => if sens_forw then Some (A_jac_lag, i) else None
  | Con, p_jac_ineq => if sens_forw then Some (A_jac_ineq, i) else None
  | _, _ => None
  end.

(** data a module may change *)
Definition output (m : modl) (f : member) : bool :=
  match m, f with
  | Dyn, (p_BAbt | p_RSQrq | p_dzduxt | p_set_sim_guess | p_z_alg | p_cost_grad | p_cost_fun | p_jac_dyn | p_jac_lag) => true
  | Cost, (p_RSQrq | p_Z | p_jac_lag) => true
  | Con, (p_RSQrq | p_DCt | p_idxb | p_idxs_rev | p_idxe | p_jac_lag | p_jac_ineq) => true
  | _, _ => false
  end.
Definition may_get (m : modl) (i : nat) (x : mref) : bool := match x with Via f => match leads m i f with Some _ => true | None => false end | _ => true end.
Definition may_put (m : modl) (i : nat) (x : mref) : bool :=
  match x with Via f => output m f && match leads m i f with Some _ => true | None => false end | Opts _ => false | _ => true end.
(** the module follows only pointers that are set, and changes only its memory, model and workspaces and its outputs *)
Fixpoint obeys (m : modl) (i : nat) (p : mprog) : Prop :=
  match p with
  | MRet => True
  | MGet x _ c => may_get m i x = true /\ forall v, obeys m i (c v)
  | MPut x _ _ c => may_put m i x = true /\ obeys m i c
  end.
End Wiring.

(** stages that have the module *)
Definition has (N : nat) (m : modl) (i : nat) : Prop := match m with Dyn => i < N | _ => i <= N end.
(** the pointers are set *)
Definition wired (sens_forw : bool) (integrated : nat -> bool) (N : nat) (o : iterate) (s : store) : Prop :=
  forall m i f a j, has N m i -> leads sens_forw integrated o m i f = Some (a, j) -> s (A_ptr m f, i, 0) = P a j.
(** the option cost_computation of the dynamics *)
Definition cost_option (integrated : nat -> bool) (N : nat) (s : store) : Prop :=
  forall i, i < N -> exists z, s (A_opts Dyn o_cost_computation, i, 0) = I z /\ (integrated i = true <-> z <> 0%Z).

(** sequential code that runs to its end and leaves the pointers of the modules alone *)
Definition leaves_pointers (p : prog) : Prop :=
  forall s, exists t, run loc_dec p s = Some t /\ forall m f i, t (A_ptr m f, i, 0) = s (A_ptr m f, i, 0).

(** the functions with parallel loops a solver call is made of, and the sequential code between them *)
Section Pieces.
Context (reuse : bool) (code : modl -> nat -> fn -> mprog) (N : nat) (nx nu nz ns ni nv nns : nat -> nat).
Inductive piece : list phase -> Prop :=
| piece_seq p : leaves_pointers p -> piece [Seq p]
| piece_initialize : piece (initialize_submodules true reuse code N)
| piece_matrices : piece (approximate_qp_matrices true reuse code N nx nu nv)
| piece_vectors : piece (approximate_qp_vectors true reuse code N nx ni nv)
| piece_zero_order g : piece (zero_order_qp_update true reuse code N nx nu ni g)
| piece_level_c g : piece (level_c_update true reuse code N nx nu ni nv g)
| piece_residual : piece (full_residual true reuse code N nx nu nv)
| piece_update d al fd g : piece (update_variables N nx nu nz ni nv g d al fd)
| piece_to_delta q : piece (to_delta N nx ni q)
| piece_update_delta q al g : piece (update_delta N nx nu nz ni nv g q al)
| piece_trial : piece (eval_trial true reuse code N)
| piece_jac np z : piece (params_jac true reuse code N nx nu ns nv np z)
| piece_relaxed : piece (relaxed_bounds N ns ni nns).
(** functions whose loops share a variable for a dimension of the stage *)
Inductive dim_piece : list phase -> Prop :=
| dim_axpy al x y z : dim_piece (qp_out_axpy N nx nu ns ni al x y z)
| dim_zero x : dim_piece (qp_out_set_to_zero N nx nu ns ni x)
| dim_sc al x : dim_piece (qp_out_sc N nx nu ns ni al x)
| dim_add al x y : dim_piece (qp_out_add N nx nu ns ni al x y)
| dim_hess b : dim_piece (setup_hessians N nx nu ns b)
| dim_initial b h d : dim_piece (initial_setup N nx nu ns nns b h d).
End Pieces.

(** some schedule leaves something else in a cell than the function without OpenMP *)
Definition schedule_dependent (fs : list phase) (s : store) (l : loc) : Prop :=
  exists s' t, exec loc_dec fs s s' /\ run loc_dec (sequential fs) s = Some t /\ s' l <> t l.
