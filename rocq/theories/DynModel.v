(** The dynamics modules: acados/ocp_nlp/ocp_nlp_dynamics_cont.c and ocp_nlp_dynamics_disc.c.

    The arrays of sim_in and sim_out (sim_common.c:89-93, :135-139, :284-292) are flat, column by column, with a length that is
    checked on every write; [None] is an access outside an array.  BLASFEO matrices and vectors are functions of the indices.
    The integrator is a function of its options, of sim_in, of the old content of sim_out and of its own memory.
    Left out: timings, the model pointers, the parameters. *)
From Coq Require Import ZArith List Bool.
From Verif Require Import Arith Vec LinModel Arr IrkModel.
Import ListNotations.

Section D.
Variable A : arith.
Notation T := (num A).
Notation vec := (nat -> T).
Notation mat := (nat -> nat -> T).
Local Open Scope num_scope.

Record dims := mkD { d_nx : nat; d_nu : nat; d_nz : nat; d_nx1 : nat; d_nu1 : nat }.
(** sim_common.h sim_opts, sim_in, sim_out: the fields that the dynamics modules touch *)
Record sopts := mkSO { so_forw : bool; so_adj : bool; so_hess : bool; so_cost : bool }.
Record sim_in := mkSI { i_x : vec; i_u : vec; i_T : T; i_S_forw : vec; i_S_adj : vec; i_id : bool }.
Record sim_out := mkSR { s_xn : vec; s_zn : vec; s_S_forw : vec; s_S_adj : vec; s_S_hess : vec; s_S_alg : vec }.

Variable SM : Type.
Variable sim_eval : sopts -> sim_in -> sim_out -> SM -> sim_out * SM.
Variable set_guess : vec -> SM -> SM.  (** memory_set "guesses_blasfeo" *)
Variable cost_hess : SM -> mat.        (** memory_get "cost_hess" *)

(** what the module reads: iterate, multipliers, model, options *)
Record dyn_in := mkDI { y_ux : vec; y_ux1 : vec; y_pi : vec; y_T : T; y_guess : vec; y_adj : bool; y_hess : bool; y_add_cost : bool; y_scaling : T }.
(** what the module writes *)
Record dyn_st := mkDS { t_in : sim_in; t_out : sim_out; t_opts : sopts; t_sm : SM; t_flag : option bool;
  t_fun : vec; t_adj : vec; t_z : vec; t_BAbt : mat; t_dzduxt : mat; t_hess : mat; t_RSQrq : mat }.

(** a[k] = v in an array of length n *)
Definition wr (n k : nat) (v : T) (a : vec) : option vec := if (k <? n)%nat then Some (fun j => if (j =? k)%nat then v else a j) else None.
Fixpoint oloop {B} (n : nat) (f : nat -> B -> option B) (s : B) : option B :=
  match n with O => Some s | S k => do s <- oloop k f s; f k s end.
(** blasfeo_unpack_dvec(m, v, o, a, 1) into an array of length n *)
Definition unpack (n m : nat) (v : vec) (o : nat) (a : vec) : option vec := oloop m (fun j => wr n j (v (o + j)%nat)) a.
(** blasfeo_pack_dvec(m, a + o, 1, v, vi), the array having length n *)
Definition packv (n m : nat) (a : vec) (o : nat) (v : vec) (vi : nat) : option vec :=
  if (o + m <=? n)%nat || (m =? 0)%nat then Some (fun k => if inblk vi m k then a (o + (k - vi))%nat else v k) else None.
(** blasfeo_pack_tran_dmat(m, n, a + o, lda, M, bi, bj), the array having length len *)
Definition pack_tran (len m n : nat) (a : vec) (o lda : nat) (M : mat) (bi bj : nat) : option mat :=
  if (m =? 0)%nat || (n =? 0)%nat || (o + lda * (n - 1) + m <=? len)%nat then Some (gecp n m (fun r c => a (o + c + lda * r)%nat) M bi bj) else None.
Definition pack (len m n : nat) (a : vec) (o lda : nat) (M : mat) (bi bj : nat) : option mat :=
  if (m =? 0)%nat || (n =? 0)%nat || (o + lda * (n - 1) + m <=? len)%nat then Some (gecp m n (fun r c => a (o + r + lda * c)%nat) M bi bj) else None.
Definition cpv (m : nat) (v : vec) (o : nat) (w : vec) (wi : nat) : vec := fun k => if inblk wi m k then v (o + (k - wi))%nat else w k.

Section Cont.
Variable d : dims.
Variable y : dyn_in.
Notation nx := (d_nx d). Notation nu := (d_nu d). Notation nz := (d_nz d). Notation nx1 := (d_nx1 d). Notation nu1 := (d_nu1 d).
Notation nv := (d_nx d + d_nu d)%nat.

(** :811-817, :949-955, :1022-1028 *)
Definition pass_xu (i : sim_in) : option sim_in :=
  do u <- unpack nu nu (y_ux y) 0 (i_u i);
  do x <- unpack nx nx (y_ux y) nu (i_x i);
  Some (mkSI x u (y_T y) (i_S_forw i) (i_S_adj i) (i_id i)).
(** :819-825, :960-966, :1030-1036 *)
Definition pass_guess (fl : option bool) (m : SM) : option bool * SM := match fl with Some true => (Some false, set_guess (y_guess y) m) | _ => (fl, m) end.
(** :827-834 *)
Definition seed_forw (i : sim_in) : option sim_in :=
  do s <- oloop (nx1 * nv) (fun jj => wr (nx * nv) jj 0) (i_S_forw i);
  do s <- oloop nx1 (fun jj => wr (nx * nv) (jj * (nx + 1)) 1) s;
  Some (mkSI (i_x i) (i_u i) (i_T i) s (i_S_adj i) true).
(** :836-839, :1038-1040 *)
Definition seed_adj (i : sim_in) : option sim_in :=
  do s <- oloop nv (fun jj => wr nv jj 0) (i_S_adj i);
  do s <- unpack nv nx1 (y_pi y) 0 s;
  Some (mkSI (i_x i) (i_u i) (i_T i) (i_S_forw i) s (i_id i)).
(** :855-857, :988-990, :1064-1066 *)
Definition defect (o : sim_out) (f : vec) : option vec :=
  do f <- packv nx nx1 (s_xn o) 0 f 0; Some (fun k => if (k <? nx1)%nat then - (1) * y_ux1 y (nu1 + k)%nat + f k else f k).
(** :869-871, :1069-1071 *)
Definition adj_pack (o : sim_out) (a : vec) : option vec :=
  do a <- packv nv nu (s_S_adj o) nx a 0;
  do a <- packv nv nx (s_S_adj o) 0 a nu;
  Some (fun k => if (k <? nu + nx)%nat then - (1) * a k else a k).
(** -BAbt pi, :876 *)
Definition adj_mult (B : mat) (a : vec) : vec := fun k => if (k <? nu + nx)%nat then - (1) * mvn nx1 B (y_pi y) k else a k.
Definition adj_pi (a : vec) : vec := cpv nx1 (y_pi y) 0 a (nu + nx).
(** :883-895 *)
Definition hess_pack (o : sim_out) (h : mat) : option mat :=
  do h <- pack (nv * nv) nu nu (s_S_hess o) (nv * nx + nx) nv h 0 0;
  do h <- pack (nv * nv) nx nu (s_S_hess o) (nv * nx) nv h nu 0;
  pack (nv * nv) nx nx (s_S_hess o) 0 nv h nu nu.
(** :897-920 *)
Definition cost_part (op : sopts) (m : SM) (Q : mat) : mat :=
  if so_cost op then
    if y_add_cost y then gead nv nv (y_scaling y) (cost_hess m) Q 0 0 else gecp nv nv (fun r c => y_scaling y * cost_hess m r c) Q 0 0
  else Q.
(** :789-925 *)
Definition cont_update (s : dyn_st) : option dyn_st :=
  do i <- pass_xu (t_in s);
  let '(fl, m) := pass_guess (t_flag s) (t_sm s) in
  do i <- seed_forw i;
  do i <- seed_adj i;
  let '(o, m) := sim_eval (t_opts s) i (t_out s) m in
  do B <- pack_tran (nx * nv) nx1 nu (s_S_forw o) (nx1 * nx) nx1 (t_BAbt s) 0 0;
  do B <- pack_tran (nx * nv) nx1 nx (s_S_forw o) 0 nx1 B nu 0;
  do Zt <- pack_tran (nz * nv) nz nu (s_S_alg o) (nx * nz) nz (t_dzduxt s) 0 0;
  do Zt <- pack_tran (nz * nv) nz nx (s_S_alg o) 0 nz Zt nu 0;
  do f <- defect o (t_fun s);
  do z <- packv nz nz (s_zn o) 0 (t_z s) 0;
  do a <- (if y_adj y then do a <- (if so_adj (t_opts s) then adj_pack o (t_adj s) else Some (adj_mult B (t_adj s))); Some (adj_pi a) else Some (t_adj s));
  do h <- (if y_hess y then hess_pack o (t_hess s) else Some (t_hess s));
  let Q := if y_hess y then gecp nv nv h (t_RSQrq s) 0 0 else t_RSQrq s in
  Some (mkDS i o (t_opts s) m fl f a z B Zt h (cost_part (t_opts s) m Q)).
Definition with_sens (op : sopts) (f a h : bool) : sopts := mkSO f a h (so_cost op).
(** :929-1000; the options are written back after the call, :984-986 *)
Definition cont_fun (s : dyn_st) : option dyn_st :=
  do i <- pass_xu (t_in s);
  let '(fl, m) := pass_guess (t_flag s) (t_sm s) in
  let op := with_sens (t_opts s) false false false in
  let '(o, m) := sim_eval op i (t_out s) m in
  let op := with_sens op (so_forw (t_opts s)) (so_adj (t_opts s)) (so_hess (t_opts s)) in
  do f <- defect o (t_fun s);
  Some (mkDS i o op m fl f (t_adj s) (t_z s) (t_BAbt s) (t_dzduxt s) (t_hess s) (t_RSQrq s)).
(** :1005-1080 *)
Definition cont_fun_adj (s : dyn_st) : option dyn_st :=
  do i <- pass_xu (t_in s);
  let '(fl, m) := pass_guess (t_flag s) (t_sm s) in
  do i <- seed_adj i;
  let op := with_sens (t_opts s) false true false in
  let '(o, m) := sim_eval op i (t_out s) m in
  let op := with_sens op (so_forw (t_opts s)) (so_adj (t_opts s)) (so_hess (t_opts s)) in
  do f <- defect o (t_fun s);
  do a <- adj_pack o (t_adj s);
  Some (mkDS i o op m fl f (adj_pi a) (t_z s) (t_BAbt s) (t_dzduxt s) (t_hess s) (t_RSQrq s)).
End Cont.

(** discrete dynamics: the generated functions get x, u (and pi); the Jacobian is delivered transposed, (nu + nx) x nx1 *)
Record disc_model := mkDM { phi : vec -> vec -> vec; phi_jt : vec -> vec -> mat; phi_hess : vec -> vec -> vec -> mat }.
Record disc_st := mkDC { c_fun : vec; c_adj : vec; c_BAbt : mat; c_RSQrq : mat; c_tmp : mat }.
Section Disc.
Variable M : disc_model.
Variable d : dims.
Variable y : dyn_in.
Notation nx := (d_nx d). Notation nu := (d_nu d). Notation nx1 := (d_nx1 d). Notation nu1 := (d_nu1 d).
Definition disc_x : vec := shift nu (y_ux y).
Definition disc_defect (f : vec) : vec :=
  let f := cpv nx1 (phi M disc_x (y_ux y)) 0 f 0 in fun k => if (k <? nx1)%nat then - (1) * y_ux1 y (nu1 + k)%nat + f k else f k.
Definition disc_jac (B : mat) : mat := gecp (nu + nx) nx1 (phi_jt M disc_x (y_ux y)) B 0 0.
(** ocp_nlp_dynamics_disc.c:660-757 *)
Definition disc_update (s : disc_st) : disc_st :=
  let B := disc_jac (c_BAbt s) in
  let Q := if y_hess y then gecp (nu + nx) (nu + nx) (phi_hess M disc_x (y_ux y) (y_pi y)) (c_RSQrq s) 0 0 else c_RSQrq s in
  let f := disc_defect (c_fun s) in
  let a := if y_adj y then adj_pi d y (adj_mult d y B (c_adj s)) else c_adj s in
  mkDC f a B Q (c_tmp s).
(** :761-815 *)
Definition disc_fun (s : disc_st) : disc_st := mkDC (disc_defect (c_fun s)) (c_adj s) (c_BAbt s) (c_RSQrq s) (c_tmp s).
(** :869-933; tmp_nv_nv is (nu + nx) x (nu + nx), :521, :554 *)
Definition disc_fun_adj (s : disc_st) : option disc_st :=
  if (nx1 <=? nu + nx)%nat || (nu + nx =? 0)%nat then
    let B := disc_jac (c_tmp s) in
    let f := disc_defect (c_fun s) in
    let a := if y_adj y then adj_pi d y (adj_mult d y B (c_adj s)) else c_adj s in
    Some (mkDC f a (c_BAbt s) (c_RSQrq s) B)
  else None.
End Disc.
End D.
Arguments mkSI {A}. Arguments i_x {A}. Arguments i_u {A}. Arguments i_T {A}. Arguments i_S_forw {A}. Arguments i_S_adj {A}. Arguments i_id {A}.
Arguments mkSR {A}. Arguments s_xn {A}. Arguments s_zn {A}. Arguments s_S_forw {A}. Arguments s_S_adj {A}. Arguments s_S_hess {A}. Arguments s_S_alg {A}.
Arguments mkDI {A}. Arguments y_ux {A}. Arguments y_ux1 {A}. Arguments y_pi {A}. Arguments y_T {A}. Arguments y_guess {A}. Arguments y_adj {A}. Arguments y_hess {A}. Arguments y_add_cost {A}. Arguments y_scaling {A}.
Arguments mkDS {A SM}. Arguments t_in {A SM}. Arguments t_out {A SM}. Arguments t_opts {A SM}. Arguments t_sm {A SM}. Arguments t_flag {A SM}. Arguments t_fun {A SM}. Arguments t_adj {A SM}. Arguments t_z {A SM}.
Arguments t_BAbt {A SM}. Arguments t_dzduxt {A SM}. Arguments t_hess {A SM}. Arguments t_RSQrq {A SM}.
Arguments wr {A}. Arguments unpack {A}. Arguments packv {A}. Arguments pack_tran {A}. Arguments pack {A}. Arguments cpv {A}. Arguments pass_xu {A}. Arguments pass_guess {A SM}. Arguments seed_forw {A}. Arguments seed_adj {A}.
Arguments defect {A}. Arguments adj_pack {A}. Arguments adj_mult {A}. Arguments adj_pi {A}. Arguments hess_pack {A}. Arguments cost_part {A SM}.
Arguments cont_update {A SM}. Arguments cont_fun {A SM}. Arguments cont_fun_adj {A SM}.
Arguments mkDM {A}. Arguments phi {A}. Arguments phi_jt {A}. Arguments phi_hess {A}. Arguments mkDC {A}. Arguments c_fun {A}. Arguments c_adj {A}. Arguments c_BAbt {A}. Arguments c_RSQrq {A}. Arguments c_tmp {A}.
Arguments disc_x {A}. Arguments disc_defect {A}. Arguments disc_jac {A}. Arguments disc_update {A}. Arguments disc_fun {A}. Arguments disc_fun_adj {A}.
