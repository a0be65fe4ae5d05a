(** Dimensions of the NLP: setter calls and totals.
    acados/ocp_nlp/ocp_nlp_common.c:165-330 (initial zeros), :427-627 (set_opt_vars), :631-753 (set_constraints, set_cost),
    :3444-3520 (checks and totals in precompute); acados/ocp_nlp/ocp_nlp_constraints_bgh.c:60-275 (bgh dims).

    Arrays over the stages are functions of the stage.  Not modelled: np_global, the dims of the dynamics modules, the
    condensed dims inside the QP solver, the fields of the cost dims other than ny. *)
From Coq Require Import ZArith List Bool.
From Verif Require Import Arr.
Import ListNotations.
Open Scope Z_scope.

Inductive cfield := cNx | cNu | cNz | cNbx | cNbu | cNb | cNg | cNh | cNs | cNsbu | cNsbx | cNsg | cNsh | cNsDerived | cNbxe | cNbue | cNge | cNhe.
Definition cfield_eqb (f g : cfield) : bool :=
  match f, g with
  | cNx, cNx | cNu, cNu | cNz, cNz | cNbx, cNbx | cNbu, cNbu | cNb, cNb | cNg, cNg | cNh, cNh | cNs, cNs | cNsbu, cNsbu | cNsbx, cNsbx
  | cNsg, cNsg | cNsh, cNsh | cNsDerived, cNsDerived | cNbxe, cNbxe | cNbue, cNbue | cNge, cNge | cNhe, cNhe => true
  | _, _ => false
  end.
Definition cdims := cfield -> Z.
Definition cput (d : cdims) (f : cfield) (v : Z) : cdims := fun g => if cfield_eqb g f then v else d g.
(** ocp_nlp_constraints_bgh_dims_set, ocp_nlp_constraints_bgh.c:90-180 *)
Definition bgh_dims_set (d : cdims) (f : cfield) (v : Z) : option cdims :=
  let up_nb d := cput d cNb (d cNbu + d cNbx) in
  let up_ns d := cput d cNsDerived (d cNsbu + d cNsbx + d cNsg + d cNsh) in
  match f with
  | cNb | cNsDerived => None                                              (* field not available: exit *)
  | cNbx | cNbu => Some (up_nb (cput d f v))
  | cNsbu | cNsbx | cNsg | cNsh => Some (up_ns (cput d f v))
  | _ => Some (cput d f v)
  end.
(** ocp_nlp_constraints_bgh_dims_get, ocp_nlp_constraints_bgh.c:184-275, the derived values *)
Definition bgh_ni (d : cdims) : Z := d cNbx + d cNbu + d cNg + d cNh + d cNs.
Definition bgh_ni_nl (d : cdims) : Z := d cNh.
Definition bgh_ng_qp (d : cdims) : Z := d cNg + d cNh.
Definition bgh_nge_qp (d : cdims) : Z := d cNge + d cNhe.

(** dims handed to a QP solver, and to the regularization *)
Record qdims := mkQ { qNx : Z; qNu : Z; qNbx : Z; qNbu : Z; qNg : Z; qNs : Z; qNbxe : Z; qNbue : Z; qNge : Z }.
Record rdims := mkR { rNx : Z; rNu : Z; rNbx : Z; rNbu : Z; rNg : Z }.
(** one stage of ocp_nlp_dims *)
Record sdims := mkS { nv : Z; nx : Z; nu : Z; nz : Z; ns : Z; np : Z; ni : Z; nb : Z; ng : Z; ni_nl : Z; ny : Z;
                      con : cdims; qp : qdims; rqp : qdims; reg : rdims }.
Definition zero_stage : sdims := mkS 0 0 0 0 0 0 0 0 0 0 0 (fun _ => 0) (mkQ 0 0 0 0 0 0 0 0 0) (mkQ 0 0 0 0 0 0 0 0 0) (mkR 0 0 0 0 0).
Definition ndims := nat -> sdims.
Definition put_stage (d : ndims) (i : nat) (s : sdims) : ndims := fun j => if (j =? i)%nat then s else d j.

Inductive optvar := oNx | oNu | oNz | oNs | oNp.
(** ocp_nlp_dims_set_opt_vars, ocp_nlp_common.c:427-627, for one stage; the loops over the stages are independent of each other *)
Definition set_opt_var (f : optvar) (v : Z) (s : sdims) : option sdims :=
  match f with
  | oNx =>
      let q := qp s in let r := rqp s in let g := reg s in
      do c <- bgh_dims_set (con s) cNx v;
      Some (mkS (nu s + v + 2 * ns s) v (nu s) (nz s) (ns s) (np s) (ni s) (nb s) (ng s) (ni_nl s) (ny s) c
              (mkQ v (qNu q) (qNbx q) (qNbu q) (qNg q) (qNs q) (qNbxe q) (qNbue q) (qNge q))
              (mkQ v (qNu r) (qNbx r) (qNbu r) (qNg r) (qNs r) (qNbxe r) (qNbue r) (qNge r))
              (mkR v (rNu g) (rNbx g) (rNbu g) (rNg g)))
  | oNu =>
      let q := qp s in let r := rqp s in let g := reg s in
      do c <- bgh_dims_set (con s) cNu v;
      Some (mkS (v + nx s + 2 * ns s) (nx s) v (nz s) (ns s) (np s) (ni s) (nb s) (ng s) (ni_nl s) (ny s) c
              (mkQ (qNx q) v (qNbx q) (qNbu q) (qNg q) (qNs q) (qNbxe q) (qNbue q) (qNge q))
              (mkQ (qNx r) v (qNbx r) (qNbu r) (qNg r) (qNs r) (qNbxe r) (qNbue r) (qNge r))
              (mkR (rNx g) v (rNbx g) (rNbu g) (rNg g)))
  | oNz =>
      do c <- bgh_dims_set (con s) cNz v;
      Some (mkS (nv s) (nx s) (nu s) v (ns s) (np s) (ni s) (nb s) (ng s) (ni_nl s) (ny s) c (qp s) (rqp s) (reg s))
  | oNs =>
      let q := qp s in
      do c <- bgh_dims_set (con s) cNs v;
      Some (mkS (nu s + nx s + 2 * v) (nx s) (nu s) (nz s) v (np s) (ni s) (nb s) (ng s) (ni_nl s) (ny s) c
              (mkQ (qNx q) (qNu q) (qNbx q) (qNbu q) (qNg q) v (qNbxe q) (qNbue q) (qNge q)) (rqp s) (reg s))
  | oNp => Some (mkS (nv s) (nx s) (nu s) (nz s) (ns s) v (ni s) (nb s) (ng s) (ni_nl s) (ny s) (con s) (qp s) (rqp s) (reg s))
  end.
(** ocp_nlp_update_relaxed_qp_solver_ns_from_constraints_module, ocp_nlp_common.c:631-656 *)
Definition relaxed_ns (stage : nat) (c : cdims) : Z := bgh_ng_qp c + c cNsbu + (if (stage =? 0)%nat then c cNsbx else c cNbx).
(** ocp_nlp_dims_set_constraints, ocp_nlp_common.c:659-739 *)
Definition set_constraint_dim (stage : nat) (f : cfield) (v : Z) (s : sdims) : option sdims :=
  do c <- bgh_dims_set (con s) f v;
  let q := qp s in let r := rqp s in let g := reg s in
  let up q r g := Some (mkS (nv s) (nx s) (nu s) (nz s) (ns s) (np s) (bgh_ni c) (c cNb) (c cNg) (bgh_ni_nl c) (ny s) c q r g) in
  match f with
  | cNbx => up (mkQ (qNx q) (qNu q) v (qNbu q) (qNg q) (qNs q) (qNbxe q) (qNbue q) (qNge q))
               (mkQ (qNx r) (qNu r) v (qNbu r) (qNg r) (relaxed_ns stage c) (qNbxe r) (qNbue r) (qNge r))
               (mkR (rNx g) (rNu g) v (rNbu g) (rNg g))
  | cNbu => up (mkQ (qNx q) (qNu q) (qNbx q) v (qNg q) (qNs q) (qNbxe q) (qNbue q) (qNge q))
               (mkQ (qNx r) (qNu r) (qNbx r) v (qNg r) (relaxed_ns stage c) (qNbxe r) (qNbue r) (qNge r))
               (mkR (rNx g) (rNu g) (rNbx g) v (rNg g))
  | cNsbx | cNsbu => up q (mkQ (qNx r) (qNu r) (qNbx r) (qNbu r) (qNg r) (relaxed_ns stage c) (qNbxe r) (qNbue r) (qNge r)) g
  | cNg | cNh => up (mkQ (qNx q) (qNu q) (qNbx q) (qNbu q) (bgh_ng_qp c) (qNs q) (qNbxe q) (qNbue q) (qNge q))
                    (mkQ (qNx r) (qNu r) (qNbx r) (qNbu r) (bgh_ng_qp c) (relaxed_ns stage c) (qNbxe r) (qNbue r) (qNge r))
                    (mkR (rNx g) (rNu g) (rNbx g) (rNbu g) (bgh_ng_qp c))
  | cNbxe => if negb (stage =? 0)%nat && negb (v =? 0) then None          (* exit(1), :718-722 *)
             else up (mkQ (qNx q) (qNu q) (qNbx q) (qNbu q) (qNg q) (qNs q) v (qNbue q) (qNge q))
                     (mkQ (qNx r) (qNu r) (qNbx r) (qNbu r) (qNg r) (qNs r) v (qNbue r) (qNge r)) g
  | cNbue => up (mkQ (qNx q) (qNu q) (qNbx q) (qNbu q) (qNg q) (qNs q) (qNbxe q) v (qNge q)) r g
  | cNge | cNhe => up (mkQ (qNx q) (qNu q) (qNbx q) (qNbu q) (qNg q) (qNs q) (qNbxe q) (qNbue q) (bgh_nge_qp c)) r g
  | _ => up q r g
  end.
(** ocp_nlp_dims_set_cost, ocp_nlp_common.c:743-753, field "ny" *)
Definition set_ny (v : Z) (s : sdims) : sdims :=
  mkS (nv s) (nx s) (nu s) (nz s) (ns s) (np s) (ni s) (nb s) (ng s) (ni_nl s) v (con s) (qp s) (rqp s) (reg s).

(** ** histories of calls *)
Inductive call := OptVars (f : optvar) (v : nat -> Z) | Constr (stage : nat) (f : cfield) (v : Z) | CostNy (stage : nat) (v : Z).
Fixpoint all_stages (n : nat) (f : nat -> sdims -> option sdims) (d : ndims) : option ndims :=
  match n with O => Some d | S k => do d <- all_stages k f d; do s <- f k (d k); Some (put_stage d k s) end.
Definition do_call (N : nat) (c : call) (d : ndims) : option ndims :=
  match c with
  | OptVars f v => all_stages (S N) (fun i => set_opt_var f (v i)) d
  | Constr i f v => if (i <=? N)%nat then do s <- set_constraint_dim i f v (d i); Some (put_stage d i s) else None
  | CostNy i v => if (i <=? N)%nat then Some (put_stage d i (set_ny v (d i))) else None
  end.
(** [None]: the program has exited, or a stage outside 0..N was named (outside the arrays) *)
Fixpoint do_calls (N : nat) (h : list call) (d : ndims) : option ndims :=
  match h with nil => Some d | c :: r => do d <- do_call N c d; do_calls N r d end.
Definition fresh : ndims := fun _ => zero_stage.

(** ** ocp_nlp_precompute_common, ocp_nlp_common.c:3451-3519 *)
Record totals := mkT { nx_total : Z; nu_total : Z; nz_total : Z; ni_total : Z; ns_total : Z; np_total : Z; nbx_total : Z; nbu_total : Z; ng_total : Z; nh_total : Z; ny_total : Z }.
Fixpoint acc_stages (n : nat) (f : nat -> Z) : Z := match n with O => 0 | S k => acc_stages k f + f k end.
Definition precompute_dims (N : nat) (d : ndims) : option totals :=
  if forallb (fun i => ns (d i) =? con (d i) cNs) (seq 0 (S N)) then
    Some (mkT (acc_stages (S N) (fun i => nx (d i))) (acc_stages N (fun i => nu (d i))) (acc_stages N (fun i => nz (d i)))
              (acc_stages (S N) (fun i => ni (d i))) (acc_stages (S N) (fun i => ns (d i))) (acc_stages (S N) (fun i => np (d i)))
              (acc_stages (S N) (fun i => con (d i) cNbx)) (acc_stages N (fun i => con (d i) cNbu)) (acc_stages (S N) (fun i => ng (d i)))
              (acc_stages (S N) (fun i => con (d i) cNh)) (acc_stages (S N) (fun i => ny (d i))))
  else None.
