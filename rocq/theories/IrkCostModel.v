(** Cost propagation in the implicit integrator: acados/sim/sim_irk_integrator.c:1264-1270, 1400-1412, 1695-1918, 1932-2032, 2055-2059.

    The quantities of every step are those kept by IrkModel ([irk_rec]); nothing computed here is used by the integration.
    The generated functions nls_y_fun and nls_y_fun_jac (conl_cost_fun and conl_cost_fun_jac_hess) are one record of functions each, so they are assumed
    to agree with one another.  Algebraic variables do not exist here (:1406-1410 exits).  Entries of a factor above the diagonal are never read
    by the triangular routines: [low]. *)
From Coq Require Import ZArith List Bool.
From Verif Require Import Arith Vec LinModel CollModel IrkModel.
Import ListNotations.

Section C.
Variable A : arith.
Notation T := (num A).
Notation vec := (nat -> T).
Notation mat := (nat -> nat -> T).
Local Open Scope num_scope.

(** arguments x, u, t *)
Record nls_fun := mkNF { y_fun : vec -> vec -> T -> vec; y_jac : vec -> vec -> T -> mat (* transposed, (nu+nx) x ny *) }.
(** arguments x, u, t; y_ref lives inside *)
Record conl_fun := mkCF { l_val : vec -> vec -> T -> T; l_grad : vec -> vec -> T -> vec; l_jac : vec -> vec -> T -> mat (* transposed, (nu+nx) x ny *);
  l_hess : vec -> vec -> T -> mat; l_diag : vec -> vec -> T -> bool }.
Record weight := mkW { w_is_diag : bool; w_chol : mat; w_diag : vec }.
Record cost_out := mkCO { k_fun : T; k_grad : vec; k_hess : mat }.

Definition low (L : mat) : mat := fun i j => if (j <=? i)%nat then L i j else 0.
(** blasfeo_dtrmm_rlnn, blasfeo_dtrmv_lnn, blasfeo_dgemm_nd, blasfeo_dvecmul *)
Definition trmm (ny : nat) (B L : mat) : mat := fun r q => 1 * vsum ny (fun k => B r k * low L k q).
Definition trmv (ny : nat) (L : mat) (v : vec) : vec := fun q => vsum ny (fun k => low L q k * v k).
Definition gemm_nd (B : mat) (w : vec) : mat := fun r q => 1 * (B r q * w q).
Definition vecmul (w v : vec) : vec := fun q => w q * v q.

Section Run.
Variable o : irk_opts A.
Variable inp : irk_in A.
Variable ny : nat.
Variable cs : T. (* cost_scaling *)
Notation half := (ncst 5 (-1)).
Notation nx := (o_nx o). Notation nu := (o_nu o). Notation ns := (o_ns o).
Notation N := (of_nat (o_num_steps o)).

(** :1727-1736 sensitivity of the stage state; [dK] is minus the sensitivity *)
Definition stage_S (S dK : mat) (i : nat) : mat :=
  loop ns (fun j D => gead nx (nx + nu) (- (o_A o i j * step o inp)) (rows (j * nx) dK) D 0 0) S.
(** :1746-1755 J_y_tilde, ny x (nu+nx) *)
Definition J_tilde (Jt D : mat) : mat := fun q c =>
  if (c <? nu)%nat then 1 * vsum nx (fun k => Jt (nu + k)%nat q * D k (nx + c)%nat) + 1 * Jt c q else 1 * vsum nx (fun k => Jt (nu + k)%nat q * D k (c - nu)%nat).
Definition tr (B : mat) : mat := fun r c => B c r.
Definition at_x {B} (g : vec -> vec -> T -> B) (ss : nat) (r : irk_rec A) (i : nat) : B := g (stage_x o inp (r_x r) (r_K r) i) (n_u inp) (stage_t o inp ss i).
(** :1738-1742, 1962-1966 *)
Definition nls_res (F : nls_fun) (yref : vec) (ss : nat) (r : irk_rec A) (i : nat) : vec := fun q => - (1) * yref q + at_x (y_fun F) ss r i q.
(** :1761-1778, 1968-1979 *)
Definition w_res (W : weight) (v : vec) : vec := if w_is_diag W then vecmul (w_diag W) v else trmv ny (w_chol W) v.
Definition w_jac (d : bool) (L : mat) (wd : vec) (B : mat) : mat := if d then gemm_nd B wd else trmm ny B L.
(** :1719-1792 one stage, NONLINEAR_LS with sensitivities *)
Definition nls_stage (F : nls_fun) (yref : vec) (W : weight) (dK : mat) (ss : nat) (r : irk_rec A) (i : nat) (k : cost_out) : cost_out :=
  let v := w_res W (nls_res F yref ss r i) in
  let J := J_tilde (at_x (y_jac F) ss r i) (stage_S (r_S r) dK i) in
  let B := w_jac (w_is_diag W) (w_chol W) (w_diag W) (tr J) in
  mkCO (k_fun k + half * o_b o i / N * vsum ny (fun q => v q * v q))
       (fun c => if (c <? nx + nu)%nat then cs * o_b o i / N * vsum ny (fun q => B c q * v q) + 1 * k_grad k c else k_grad k c)
       (fun a c => if (a <? nx + nu)%nat && (c <? nx + nu)%nat then o_b o i / N * vsum ny (fun q => B a q * B c q) + 1 * k_hess k a c else k_hess k a c).
(** :1949-1984 without *)
Definition nls_stage0 (F : nls_fun) (yref : vec) (W : weight) (ss : nat) (r : irk_rec A) (i : nat) (k : cost_out) : cost_out :=
  let v := w_res W (nls_res F yref ss r i) in
  mkCO (k_fun k + half * o_b o i / N * vsum ny (fun q => v q * v q)) (k_grad k) (k_hess k).
Variable potrf : nat -> mat -> mat.
Variable nsqrt : T -> T.
(** :1828-1918 one stage, CONVEX_OVER_NONLINEAR with sensitivities; dsyrk_ln writes the lower triangle *)
Definition conl_stage (F : conl_fun) (dK : mat) (ss : nat) (r : irk_rec A) (i : nat) (k : cost_out) : cost_out :=
  let W := at_x (l_hess F) ss r i in
  let g := at_x (l_grad F) ss r i in
  let J := J_tilde (at_x (l_jac F) ss r i) (stage_S (r_S r) dK i) in
  let B := w_jac (at_x (l_diag F) ss r i) (potrf ny W) (fun q => nsqrt (W q q)) (tr J) in
  mkCO (k_fun k + o_b o i / N * at_x (l_val F) ss r i)
       (fun c => if (c <? nx + nu)%nat then cs * o_b o i / N * vsum ny (fun q => J q c * g q) + 1 * k_grad k c else k_grad k c)
       (fun a c => if (a <? nx + nu)%nat && (c <? nx + nu)%nat && (c <=? a)%nat then o_b o i / N * vsum ny (fun q => B a q * B c q) + 1 * k_hess k a c else k_hess k a c).
(** :2009-2031 *)
Definition conl_stage0 (F : conl_fun) (ss : nat) (r : irk_rec A) (i : nat) (k : cost_out) : cost_out :=
  mkCO (k_fun k + o_b o i / N * at_x (l_val F) ss r i) (k_grad k) (k_hess k).

Inductive cost := Nls (F : nls_fun) (yref : vec) (W : weight) | Conl (F : conl_fun).
(** the sensitivity matrix of the stages the code reads: with parameter sensitivities alone it is what the memory holds *)
Definition dK_read (stale : nat -> mat) (ss : nat) (r : irk_rec A) : mat := if with_sens o then r_dK r else stale ss.
Definition cost_stage (c : cost) (stale : nat -> mat) (ss : nat) (r : irk_rec A) (i : nat) (k : cost_out) : cost_out :=
  match c, with_sens o || o_sens_forw_p o with
  | Nls F yref W, true => nls_stage F yref W (dK_read stale ss r) ss r i k
  | Nls F yref W, false => nls_stage0 F yref W ss r i k
  | Conl F, true => conl_stage F (dK_read stale ss r) ss r i k
  | Conl F, false => conl_stage0 F ss r i k
  end.
Definition irk_cost (c : cost) (stale : nat -> mat) (recs : nat -> irk_rec A) : option cost_out :=
  if (0 <? o_nz o)%nat then None else
  let k := loop (o_num_steps o) (fun ss k => loop ns (cost_stage c stale ss (recs ss)) k) (mkCO 0 (fun _ => 0) (fun _ _ => 0)) in
  Some (mkCO (k_fun k * cs) (k_grad k) (k_hess k)).
End Run.
End C.
Arguments mkNF {A}. Arguments y_fun {A}. Arguments y_jac {A}. Arguments mkCF {A}. Arguments l_val {A}. Arguments l_grad {A}. Arguments l_jac {A}. Arguments l_hess {A}. Arguments l_diag {A}.
Arguments mkW {A}. Arguments w_is_diag {A}. Arguments w_chol {A}. Arguments w_diag {A}. Arguments mkCO {A}. Arguments k_fun {A}. Arguments k_grad {A}. Arguments k_hess {A}.
Arguments low {A}. Arguments trmm {A}. Arguments trmv {A}. Arguments gemm_nd {A}. Arguments vecmul {A}. Arguments stage_S {A}. Arguments J_tilde {A}. Arguments tr {A}. Arguments at_x {A} o inp {B}.
Arguments nls_res {A}. Arguments w_res {A}. Arguments w_jac {A}. Arguments nls_stage {A}. Arguments nls_stage0 {A}. Arguments conl_stage {A}. Arguments conl_stage0 {A}.
Arguments cost_stage {A}. Arguments irk_cost {A}. Arguments Nls {A}. Arguments Conl {A}. Arguments dK_read {A}.
