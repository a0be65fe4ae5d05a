(** C84: the implicit Runge-Kutta integrator. *)
From Coq Require Import ZArith List Bool Reals.
From Coquelicot Require Import Coquelicot.
From Verif Require Import Arith Vec RSum IrkModel IrkSpec IrkProofs IrkTop IrkCases.
Open Scope R_scope.

Theorem C84_forward : forall MM p o inp lu lut m F0 P U X KK (dp d : vecR) (dk : nat -> vecR),
  irk_consistent MM (o_nx o) (o_nu o) (o_nz o) (o_np o) -> lu_ok ((o_nx o + o_nz o) * o_ns o) lu -> irk_regular o inp lu m F0 (MM p) -> irk_seed_ok o inp ->
  irk_through o inp lu m F0 MM p P U X KK ->
  (forall n k, (n < o_num_steps o)%nat -> (k < (o_nx o + o_nz o) * o_ns o)%nat -> is_derive (fun e => KK n e k) 0 (dk n k)) ->
  (forall r, (r < o_nx o)%nat -> is_derive (fun e => X 0%nat e r) 0 (sum (o_nx o + o_nu o) (fun c => n_S_forw inp r c * d c))) ->
  (forall c, (c < o_nu o)%nat -> is_derive (fun e => U e c) 0 (d (o_nx o + c)%nat)) -> (forall c, (c < o_np o)%nat -> is_derive (fun e => P e c) 0 (dp c)) ->
  o_sens_forw o || o_sens_hess o = true \/ (forall c, (c < o_nx o + o_nu o)%nat -> d c = 0) -> o_sens_forw_p o = true \/ (forall c, (c < o_np o)%nat -> dp c = 0) ->
  forall r, (r < o_nx o)%nat -> is_derive (fun e => X (o_num_steps o) e r) 0
    (sum (o_nx o + o_nu o) (fun c => q_S (irk (MM p) o inp lu lut m F0) r c * d c) + sum (o_np o) (fun c => q_Sp (irk (MM p) o inp lu lut m F0) r c * dp c)).
Proof. exact irk_forward_top. Qed.
Print Assumptions C84_forward.

Theorem C84_adjoint : forall MM p o inp lu lut m F0 U X KK (dx0 du : vecR) (dk : nat -> vecR),
  irk_consistent MM (o_nx o) (o_nu o) (o_nz o) (o_np o) -> lu_t_ok ((o_nx o + o_nz o) * o_ns o) lut -> irk_regular o inp lu m F0 (MM p) ->
  irk_through o inp lu m F0 MM p (fun _ => p) U X KK ->
  (forall n k, (n < o_num_steps o)%nat -> (k < (o_nx o + o_nz o) * o_ns o)%nat -> is_derive (fun e => KK n e k) 0 (dk n k)) ->
  (forall r, (r < o_nx o)%nat -> is_derive (fun e => X 0%nat e r) 0 (dx0 r)) -> (forall c, (c < o_nu o)%nat -> is_derive (fun e => U e c) 0 (du c)) ->
  o_sens_adj o || o_sens_hess o = true ->
  is_derive (fun e => sum (o_nx o) (fun r => n_S_adj inp r * X (o_num_steps o) e r) + sum (o_nu o) (fun c => n_S_adj inp (o_nx o + c)%nat * U e c)) 0
    (sum (o_nx o) (fun r => q_adj (irk (MM p) o inp lu lut m F0) r * dx0 r) + sum (o_nu o) (fun c => q_adj (irk (MM p) o inp lu lut m F0) (o_nx o + c)%nat * du c)).
Proof. exact irk_adjoint_top. Qed.
Print Assumptions C84_adjoint.

Theorem C84_adjoint_forward : forall MM p o inp lu lut m F0 (d : vecR),
  irk_consistent MM (o_nx o) (o_nu o) (o_nz o) (o_np o) -> lu_ok ((o_nx o + o_nz o) * o_ns o) lu -> lu_t_ok ((o_nx o + o_nz o) * o_ns o) lut -> irk_regular o inp lu m F0 (MM p) -> irk_seed_ok o inp ->
  o_sens_forw o || o_sens_hess o = true -> o_sens_adj o || o_sens_hess o = true ->
  sum (o_nx o) (fun r => n_S_adj inp r * sum (o_nx o + o_nu o) (fun c => q_S (irk (MM p) o inp lu lut m F0) r c * d c)) + sum (o_nu o) (fun c => n_S_adj inp (o_nx o + c)%nat * d (o_nx o + c)%nat) =
  sum (o_nx o) (fun r => q_adj (irk (MM p) o inp lu lut m F0) r * sum (o_nx o + o_nu o) (fun c => n_S_forw inp r c * d c)) + sum (o_nu o) (fun c => q_adj (irk (MM p) o inp lu lut m F0) (o_nx o + c)%nat * d (o_nx o + c)%nat).
Proof. exact irk_adjoint_forward_top. Qed.
Print Assumptions C84_adjoint_forward.

Theorem C84_hessian : forall MM p o inp lu lut m F0 U X KK (X1 U1 : R -> vecR) (K1 : nat -> R -> vecR) (X2 U2 : vecR) (K2 : nat -> vecR) (d : vecR),
  irk_consistent MM (o_nx o) (o_nu o) (o_nz o) (o_np o) -> irk_hess_ok (MM p) (o_nx o) (o_nu o) (o_nz o) ->
  lu_ok ((o_nx o + o_nz o) * o_ns o) lu -> lu_t_ok ((o_nx o + o_nz o) * o_ns o) lut -> irk_regular o inp lu m F0 (MM p) -> irk_seed_ok o inp -> o_sens_hess o = true ->
  irk_through o inp lu m F0 MM p (fun _ => p) U X KK ->
  twice (o_nx o) (X 0%nat) X1 X2 -> twice (o_nu o) U U1 U2 -> (forall n, (n < o_num_steps o)%nat -> twice ((o_nx o + o_nz o) * o_ns o) (KK n) (K1 n) (K2 n)) ->
  (forall r, (r < o_nx o)%nat -> X1 0 r = sum (o_nx o + o_nu o) (fun c => n_S_forw inp r c * d c)) -> (forall c, (c < o_nu o)%nat -> U1 0 c = d (o_nx o + c)%nat) ->
  exists phi : R -> R,
    locally 0 (fun e => is_derive (fun e => sum (o_nx o) (fun r => n_S_adj inp r * X (o_num_steps o) e r) + sum (o_nu o) (fun c => n_S_adj inp (o_nx o + c)%nat * U e c)) e (phi e)) /\
    is_derive phi 0
      (sum (o_nx o) (fun r => q_adj (irk (MM p) o inp lu lut m F0) r * X2 r) + sum (o_nu o) (fun c => q_adj (irk (MM p) o inp lu lut m F0) (o_nx o + c)%nat * U2 c) +
       sum (o_nx o + o_nu o) (fun r => sum (o_nx o + o_nu o) (fun c => d r * q_hess (irk (MM p) o inp lu lut m F0) r c * d c))).
Proof. exact irk_hessian_top. Qed.
Print Assumptions C84_hessian.

Theorem C84_hessian_symmetric : forall (M : irk_model real) o inp lu lut m F0 r c, q_hess (irk M o inp lu lut m F0) r c = q_hess (irk M o inp lu lut m F0) c r.
Proof. exact irk_hess_symmetric_top. Qed.
Print Assumptions C84_hessian_symmetric.

Theorem C84_affine : forall M o inp lu m F0, irk_affine M (o_nx o) (o_nz o) -> lu_ok ((o_nx o + o_nz o) * o_ns o) lu -> (0 < o_newton_iter o)%nat ->
  rk_regular o (irk_h o inp) M 0 (fun _ => 0) (n_u inp) (fun _ => 0) ->
  forall n, rk_eqs o (irk_h o inp) M (n_t0 inp + INR n * irk_h o inp) (s_x (forward M o inp lu m F0 n)) (n_u inp) (s_K (forward M o inp lu m F0 (S n))) (s_x (forward M o inp lu m F0 (S n))).
Proof. exact irk_affine_top. Qed.
Print Assumptions C84_affine.

Theorem C84_newton_fixed : forall M o inp lu ss (x K : vecR) F, lu_ok ((o_nx o + o_nz o) * o_ns o) lu -> nonsing ((o_nx o + o_nz o) * o_ns o) F ->
  nonsing ((o_nx o + o_nz o) * o_ns o) (dG_dK M o inp ss x K) ->
  ((forall i q, (i < o_ns o)%nat -> (q < o_nx o + o_nz o)%nat -> at_stage o inp (m_f M) ss x K i q = 0) ->
     forall n it, fst (newton M o inp lu n it ss x K F) = K) /\
  (forall it, agree ((o_nx o + o_nz o) * o_ns o) (fst (newton M o inp lu 1 it ss x K F)) K ->
     forall i q, (i < o_ns o)%nat -> (q < o_nx o + o_nz o)%nat -> at_stage o inp (m_f M) ss x K i q = 0).
Proof. exact irk_newton_fixed_top. Qed.
Print Assumptions C84_newton_fixed.

