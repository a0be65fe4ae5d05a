(** The explicit Runge-Kutta integrator: acados/sim/sim_erk_integrator.c:639-1039 sim_erk.

    Arrays are functions of the index.  Array sections handed to the external functions
    (rhs_forw_in + off) are shifted functions.  The work arrays K_traj and adj_traj start with
    arbitrary contents ([stale]).  The pointer bookkeeping that keeps one block of K_traj /
    out_forw_traj per step when adjoints are requested (:796-802) is replaced by indexing with the step.
    num_forw_sens is its default nx + nu (sim_common / opts_initialize_default). *)
From Coq Require Import ZArith List Bool.
From Verif Require Import Arith Vec LinModel CollModel.

Section E.
Variable A : arith.
Notation T := (num A).
Notation vec := (nat -> T).
Local Open Scope num_scope.

(** the external functions; the parameter values live inside them and are the argument [p] *)
Record erk_model := mkErkModel {
  expl_ode_fun : vec -> vec -> vec -> vec;                            (* p x u *)
  expl_vde_for : vec -> vec -> vec -> vec -> vec -> vec * vec * vec;  (* p x Sx Su u *)
  expl_vde_for_p : vec -> vec -> vec -> vec -> vec;                   (* p x Sp u *)
  expl_vde_adj : vec -> vec -> vec -> vec -> vec;                     (* p x lam u *)
  expl_ode_hes : vec -> vec -> vec -> vec -> vec -> vec -> vec * vec  (* p x Sx Su lam u *) }.
Record erk_opts := mkErkOpts {
  e_nx : nat; e_nu : nat; e_np : nat; e_ns : nat; e_num_steps : nat;
  e_A : nat -> nat -> T;  (** [e_A j s] is A_mat[j*ns + s] *)
  e_b : vec;
  e_sens_forw : bool; e_sens_forw_p : bool; e_sens_adj : bool; e_sens_hess : bool }.
(** sim_in, and the content of the work arrays *)
Record erk_in := mkErkIn { i_x : vec; i_u : vec; i_p : vec; i_T : T; i_S_forw : vec; i_S_adj : vec; i_stale : nat -> nat -> vec; i_stale_adj : nat -> nat -> vec; i_stale_S : vec }.
Record erk_out := mkErkOut { o_xn : vec; o_S_forw : vec; o_S_p : vec; o_S_adj : vec; o_S_hess : vec }.

Section Run.
Variable M : erk_model.
Variable o : erk_opts.
Variable inp : erk_in.
Let nx := e_nx o. Let nu := e_nu o. Let np := e_np o. Let ns := e_ns o.
Let p := i_p inp. Let u := i_u inp.
(** :675-706 *)
Definition e_fwd : bool := e_sens_forw o || e_sens_forw_p o.
Definition e_nf : nat := if e_fwd then (nx + nu)%nat else 0%nat.
Definition e_nfp : nat := if e_sens_forw_p o then np else 0%nat.
Definition off_Su : nat := (nx + nx * nx)%nat.
Definition off_Sp : nat := (nx + nx * e_nf)%nat.
Definition e_step : T := i_T inp / of_nat (e_num_steps o).
Definition view (off : nat) (v : vec) : vec := fun i => v (off + i)%nat.
Definition inb (off len i : nat) : bool := (off <=? i)%nat && (i <? off + len)%nat.

(** :806-818 rhs_forw_in for stage s *)
Definition stage_arg (s : nat) (z : vec) (K : nat -> vec) : vec :=
  loop s (fun j r => if nonzero (e_A o j s) then let a := e_A o j s * e_step in fun i => r i + a * K j i else r) z.
(** :820-872 row s of K_traj; entries nobody writes keep their old value *)
Definition stage_rhs (r old : vec) : vec :=
  if e_fwd then
    let '(f, fx, fu) := expl_vde_for M p r (view nx r) (view off_Su r) u in
    fun i => if inb off_Sp (nx * e_nfp) i then expl_vde_for_p M p r (view off_Sp r) u (i - off_Sp)%nat
             else if inb off_Su (nx * nu) i then fu (i - off_Su)%nat
             else if inb nx (nx * nx) i then fx (i - nx)%nat
             else if (i <? nx)%nat then f i else old i
  else fun i => if (i <? nx)%nat then expl_ode_fun M p r u i else old i.
Definition erk_K (z : vec) (K : nat -> vec) : nat -> vec :=
  loop ns (fun s K j => if (j =? s)%nat then stage_rhs (stage_arg s z K) (K s) else K j) K.
(** :875-879 *)
Definition erk_step (z : vec) (K : nat -> vec) : vec := let K := erk_K z K in loop ns (fun s z i => z i + (e_step * e_b o s) * K s i) z.
(** state after n steps, :783-880 *)
Definition erk_init : vec := fun i =>
  if inb off_Sp (nx * e_nfp) i then 0
  else if e_fwd && inb nx (nx * e_nf) i then i_S_forw inp (i - nx)%nat
  else if (i <? nx)%nat then i_x inp i else 0.
Fixpoint erk_traj (n : nat) : vec := match n with O => erk_init | S m => erk_step (erk_traj m) (i_stale inp m) end.

(** adjoint sweep :893-1005 *)
Definition adj_lam (s : nat) (adj : vec) (G : nat -> vec) : vec :=
  loop (ns - (s + 1)) (fun t lam => let j := (s + 1 + t)%nat in
      if nonzero (e_A o s j) then let a := e_A o s j * e_step in fun i => lam i + a * G j i else lam)
    (fun i => (e_step * e_b o s) * adj i).
Definition adj_rhs (r lam old : vec) : vec :=
  if e_sens_hess o then
    let (g, h) := expl_ode_hes M p r (view nx r) (view off_Su r) lam u in
    fun i => if inb (nx + nu) ((nx + nu + 1) * (nx + nu) / 2) i then h (i - (nx + nu))%nat else if (i <? nx + nu)%nat then g i else old i
  else fun i => if (i <? nx + nu)%nat then expl_vde_adj M p r lam u i else old i.
Definition adj_G (z : vec) (K : nat -> vec) (adj : vec) (G : nat -> vec) : nat -> vec :=
  loop ns (fun t G => let s := (ns - 1 - t)%nat in fun j => if (j =? s)%nat then adj_rhs (stage_arg s z K) (adj_lam s adj G) (G s) else G j) G.
Definition adj_step (z : vec) (K : nat -> vec) (adj : vec) (G : nat -> vec) : vec :=
  loop ns (fun s a i => a i + adj_G z K adj G s i) adj.
Definition adj_init : vec := fun i => if (i <? nx)%nat then i_S_adj inp i else 0.
(** after the last n steps have been swept, istep = N-1, ..., N-n *)
Fixpoint adj_traj (n : nat) : vec :=
  match n with
  | O => adj_init
  | S m => let k := (e_num_steps o - 1 - m)%nat in adj_step (erk_traj k) (erk_K (erk_traj k) (i_stale inp k)) (adj_traj m) (i_stale_adj inp k)
  end.
(** :1013-1031 *)
Definition hess_out (n : nat) (packed : vec) (H : vec) : vec :=
  fst (loop n (fun j (st : vec * nat) =>
    loop (n - j) (fun t (st : vec * nat) => let i := (j + t)%nat in
      (vset (vset (fst st) (i + n * j)%nat (packed (snd st))) (j + n * i)%nat (packed (snd st)), (snd st + 1)%nat)) st) (H, 0%nat)).

(** nhess = (nf + 1) * nf / 2 with nf = 0 when no forward sensitivities are requested (:681-682, :709, and in
    the workspace :456-485): there is then no room for the Hessian entries that expl_ode_hes writes
    behind adj_traj (:995) and that :1023 reads behind adj_tmp.  [None] is that access. *)
Definition erk_hess_oob : bool := e_sens_hess o && negb e_fwd && (0 <? nx + nu)%nat.
Definition sim_erk : option erk_out :=
  if erk_hess_oob then None else
  let z := erk_traj (e_num_steps o) in
  let adj := adj_traj (e_num_steps o) in
  Some (mkErkOut z
    (if e_sens_forw o then view nx z else i_stale_S inp)
    (view off_Sp z)
    (if e_sens_adj o || e_sens_hess o then adj else i_stale_S inp)
    (if e_sens_hess o then hess_out (nx + nu) (view (nx + nu) adj) (i_stale_S inp) else i_stale_S inp)).
End Run.
End E.
Arguments mkErkModel {A}. Arguments expl_ode_fun {A}. Arguments expl_vde_for {A}. Arguments expl_vde_for_p {A}. Arguments expl_vde_adj {A}. Arguments expl_ode_hes {A}.
Arguments mkErkOpts {A}. Arguments e_nx {A}. Arguments e_nu {A}. Arguments e_np {A}. Arguments e_ns {A}. Arguments e_num_steps {A}. Arguments e_A {A}. Arguments e_b {A}.
Arguments e_sens_forw {A}. Arguments e_sens_forw_p {A}. Arguments e_sens_adj {A}. Arguments e_sens_hess {A}.
Arguments mkErkIn {A}. Arguments i_x {A}. Arguments i_u {A}. Arguments i_p {A}. Arguments i_T {A}. Arguments i_S_forw {A}. Arguments i_S_adj {A}. Arguments i_stale {A}. Arguments i_stale_adj {A}. Arguments i_stale_S {A}.
Arguments mkErkOut {A}. Arguments o_xn {A}. Arguments o_S_forw {A}. Arguments o_S_p {A}. Arguments o_S_adj {A}. Arguments o_S_hess {A}.
Arguments e_fwd {A}. Arguments e_nf {A}. Arguments e_nfp {A}. Arguments off_Su {A}. Arguments off_Sp {A}. Arguments e_step {A}. Arguments view {A}.
Arguments stage_arg {A}. Arguments stage_rhs {A}. Arguments erk_K {A}. Arguments erk_step {A}. Arguments erk_init {A}. Arguments erk_traj {A}.
Arguments adj_lam {A}. Arguments adj_rhs {A}. Arguments adj_G {A}. Arguments adj_step {A}. Arguments adj_init {A}. Arguments adj_traj {A}. Arguments hess_out {A}. Arguments erk_hess_oob {A}. Arguments sim_erk {A}.
