(** C87: the dynamics modules. *)
From Coq Require Import ZArith List Bool Reals.
From Coquelicot Require Import Coquelicot.
From Verif Require Import Arith Vec RSum IrkModel IrkSpec DynModel DynSpec DynTop DynCases.
Open Scope R_scope.

Theorem C87_linearization : forall (SM : Type) (ev : sopts -> sim_in real -> sim_out real -> SM -> sim_out real * SM) sg ch (d : dims) (y : dyn_in real) s, d_nx1 d = d_nx d ->
  exists i s', cont_update ev sg ch d y s = Some s' /\ point_ok d y i /\ fseed_ok d i /\ aseed_ok d y i /\
  ev (t_opts s) i (t_out s) (start_mem sg y s) = (t_out s', t_sm s') /\ t_flag s' <> Some true /\ t_opts s' = t_opts s /\
  (forall k, (k < d_nz d)%nat -> t_z s' k = s_zn (t_out s') k) /\
  (forall (Zc : R -> vecR) (dx du : vecR) r, (r < d_nz d)%nat -> is_derive (fun e => Zc e r) 0 (along d (out_Z d (t_out s')) dx du r) -> is_derive (fun e => Zc e r) 0 (dot2 d (t_dzduxt s') du dx r)) /\
  (forall (Phi X1 : R -> vecR) (dx du dx1 : vecR), agree (d_nx d) (Phi 0) (s_xn (t_out s')) -> agree (d_nx d) (X1 0) (fun k => y_ux1 y (d_nu1 d + k)%nat) ->
     (forall r, (r < d_nx d)%nat -> is_derive (fun e => Phi e r) 0 (along d (out_J d (t_out s')) dx du r)) -> (forall r, (r < d_nx d)%nat -> is_derive (fun e => X1 e r) 0 (dx1 r)) ->
     (forall r, (r < d_nx d)%nat -> t_fun s' r = Phi 0 r - X1 0 r /\ is_derive (fun e => Phi e r - X1 e r) 0 (dot2 d (t_BAbt s') du dx r - dx1 r)) /\
     (y_adj y = true -> (so_adj (t_opts s) = true -> adjoint_ok d (out_J d (t_out s')) i (t_out s')) ->
        is_derive (fun e => sum (d_nx d) (fun r => y_pi y r * (X1 e r - Phi e r))) 0 (dot3 d (t_adj s') du dx dx1))).
Proof. exact cont_call_top. Qed.
Print Assumptions C87_linearization.

Theorem C87_hessian : forall (SM : Type) (ev : sopts -> sim_in real -> sim_out real -> SM -> sim_out real * SM) sg ch (d : dims) (y : dyn_in real) s s', d_nx1 d = d_nx d ->
  cont_update ev sg ch d y s = Some s' -> (y_hess y = true -> forall a b, out_H d (t_out s') a b = out_H d (t_out s') b a) -> forall du dx,
  lowquad d (t_RSQrq s') du dx =
    (if so_cost (t_opts s) && negb (y_add_cost y) then 0 else if y_hess y then quad_xu d (out_H d (t_out s')) dx du else lowquad d (t_RSQrq s) du dx) +
    (if so_cost (t_opts s) then y_scaling y * lowquad d (ch (t_sm s')) du dx else 0).
Proof. exact cont_hess_top. Qed.
Print Assumptions C87_hessian.

Theorem C87_fun : forall (SM : Type) (ev : sopts -> sim_in real -> sim_out real -> SM -> sim_out real * SM) sg (d : dims) (y : dyn_in real) s, (d_nx1 d <= d_nx d)%nat ->
  exists i s', cont_fun ev sg d y s = Some s' /\ point_ok d y i /\
  ev (mkSO false false false (so_cost (t_opts s))) i (t_out s) (start_mem sg y s) = (t_out s', t_sm s') /\ t_flag s' <> Some true /\ t_opts s' = t_opts s /\
  (forall k, (k < d_nx1 d)%nat -> t_fun s' k = s_xn (t_out s') k - y_ux1 y (d_nu1 d + k)%nat) /\
  t_adj s' = t_adj s /\ t_z s' = t_z s /\ t_BAbt s' = t_BAbt s /\ t_dzduxt s' = t_dzduxt s /\ t_RSQrq s' = t_RSQrq s.
Proof. exact cont_fun_top. Qed.
Print Assumptions C87_fun.

Theorem C87_fun_adj : forall (SM : Type) (ev : sopts -> sim_in real -> sim_out real -> SM -> sim_out real * SM) sg (d : dims) (y : dyn_in real) s, d_nx1 d = d_nx d ->
  exists i s', cont_fun_adj ev sg d y s = Some s' /\ point_ok d y i /\ aseed_ok d y i /\
  ev (mkSO false true false (so_cost (t_opts s))) i (t_out s) (start_mem sg y s) = (t_out s', t_sm s') /\ t_flag s' <> Some true /\ t_opts s' = t_opts s /\
  (forall k, (k < d_nx d)%nat -> t_fun s' k = s_xn (t_out s') k - y_ux1 y (d_nu1 d + k)%nat) /\
  t_z s' = t_z s /\ t_BAbt s' = t_BAbt s /\ t_dzduxt s' = t_dzduxt s /\ t_RSQrq s' = t_RSQrq s /\
  (forall J, adjoint_ok d J i (t_out s') -> forall (Phi X1 : R -> vecR) (dx du dx1 : vecR),
     (forall r, (r < d_nx d)%nat -> is_derive (fun e => Phi e r) 0 (along d J dx du r)) -> (forall r, (r < d_nx d)%nat -> is_derive (fun e => X1 e r) 0 (dx1 r)) ->
     is_derive (fun e => sum (d_nx d) (fun r => y_pi y r * (X1 e r - Phi e r))) 0 (dot3 d (t_adj s') du dx dx1)).
Proof. exact cont_fun_adj_top. Qed.
Print Assumptions C87_fun_adj.

Theorem C87_irk : forall MM p o t0 lu lut F0 sg ch (d : dims) (y : dyn_in real) (s : dyn_st real (irk_mem real)),
  d_nx1 d = d_nx d -> o_nx o = d_nx d -> o_nu o = d_nu d -> (so_forw (t_opts s) || so_hess (t_opts s) = true) ->
  irk_consistent MM (o_nx o) (o_nu o) (o_nz o) (o_np o) -> lu_ok ((o_nx o + o_nz o) * o_ns o) lu -> lu_t_ok ((o_nx o + o_nz o) * o_ns o) lut ->
  exists i s', cont_update (irk_eval (MM p) o t0 lu lut F0) sg ch d y s = Some s' /\ point_ok d y i /\
  let q := irk_options o (t_opts s) in let c := irk_call o t0 i in let m := start_mem sg y s in
  (irk_regular q c lu m F0 (MM p) -> forall U X KK (dk : nat -> vecR) (dx du : vecR) (X1 : R -> vecR) (dx1 : vecR),
     irk_through q c lu m F0 MM p (fun _ => p) U X KK ->
     (forall n k, (n < o_num_steps o)%nat -> (k < (o_nx o + o_nz o) * o_ns o)%nat -> is_derive (fun e => KK n e k) 0 (dk n k)) ->
     (forall r, (r < d_nx d)%nat -> is_derive (fun e => X 0%nat e r) 0 (dx r)) -> (forall k, (k < d_nu d)%nat -> is_derive (fun e => U e k) 0 (du k)) ->
     (forall r, (r < d_nx d)%nat -> is_derive (fun e => X1 e r) 0 (dx1 r)) ->
     (forall r, (r < d_nx d)%nat -> is_derive (fun e => X (o_num_steps o) e r - X1 e r) 0 (dot2 d (t_BAbt s') du dx r - dx1 r)) /\
     (y_adj y = true -> is_derive (fun e => sum (d_nx d) (fun r => y_pi y r * (X1 e r - X (o_num_steps o) e r))) 0 (dot3 d (t_adj s') du dx dx1))).
Proof. exact cont_irk_top. Qed.
Print Assumptions C87_irk.

Theorem C87_disc : forall (M : disc_model real) (d : dims) (y : dyn_in real) (s : disc_st real) (X U X1 : R -> vecR) (dx du dx1 : vecR), disc_consistent M (d_nx d) (d_nu d) (d_nx1 d) ->
  agree (d_nx d) (X 0) (fun k => y_ux y (d_nu d + k)%nat) -> agree (d_nu d) (U 0) (y_ux y) -> agree (d_nx1 d) (X1 0) (fun k => y_ux1 y (d_nu1 d + k)%nat) ->
  (forall k, (k < d_nx d)%nat -> is_derive (fun e => X e k) 0 (dx k)) -> (forall k, (k < d_nu d)%nat -> is_derive (fun e => U e k) 0 (du k)) -> (forall k, (k < d_nx1 d)%nat -> is_derive (fun e => X1 e k) 0 (dx1 k)) ->
  let s' := disc_update M d y s in
  (forall r, (r < d_nx1 d)%nat -> c_fun s' r = phi M (X 0) (U 0) r - X1 0 r /\ is_derive (fun e => phi M (X e) (U e) r - X1 e r) 0 (dot2 d (c_BAbt s') du dx r - dx1 r)) /\
  (y_adj y = true -> is_derive (fun e => sum (d_nx1 d) (fun r => y_pi y r * (X1 e r - phi M (X e) (U e) r))) 0 (dot3 d (c_adj s') du dx dx1)) /\
  agree (d_nx1 d) (c_fun (disc_fun M d y s)) (c_fun s') /\
  (forall s'', disc_fun_adj M d y s = Some s'' -> agree (d_nx1 d) (c_fun s'') (c_fun s') /\ agree (d_nu d + d_nx d + d_nx1 d) (c_adj s'') (c_adj s') /\ c_BAbt s'' = c_BAbt s) /\
  ((d_nx1 d <= d_nu d + d_nx d)%nat -> exists s'', disc_fun_adj M d y s = Some s'').
Proof. exact disc_top. Qed.
Print Assumptions C87_disc.

Theorem C87_hessian_full_refuted : exists (ev : sopts -> sim_in real -> sim_out real -> R -> sim_out real * R) sg ch d y s s', d_nx1 d = d_nx d /\ y_hess y = true /\ so_cost (t_opts s) = false /\
  cont_update ev sg ch d y s = Some s' /\ (forall a b, t_hess s a b = 0) /\ (forall a b, (a < d_nx d + d_nu d)%nat -> (b < d_nx d + d_nu d)%nat -> out_H d (t_out s') a b = out_H d (t_out s') b a) /\
  exists a b, (a < d_nu d + d_nx d)%nat /\ (b < d_nu d + d_nx d)%nat /\ t_RSQrq s' a b <> t_RSQrq s' b a.
Proof. exact hess_full_refuted. Qed.
Print Assumptions C87_hessian_full_refuted.

Theorem C87_fun_z_refuted : exists (ev : sopts -> sim_in real -> sim_out real -> R -> sim_out real * R) sg d y s s', d_nx1 d = d_nx d /\
  cont_fun ev sg d y s = Some s' /\ exists k, (k < d_nz d)%nat /\ t_z s' k <> s_zn (t_out s') k.
Proof. exact fun_z_refuted. Qed.
Print Assumptions C87_fun_z_refuted.

Theorem C87_fewer_states_refuted : exists (ev : sopts -> sim_in real -> sim_out real -> R -> sim_out real * R) sg ch d y s s', (d_nx1 d < d_nx d)%nat /\
  cont_update ev sg ch d y s = Some s' /\ exists r k, (r < d_nx1 d)%nat /\ (k < d_nx d)%nat /\ t_BAbt s' (d_nu d + k)%nat r <> out_J d (t_out s') r k.
Proof. exact fewer_states_refuted. Qed.
Print Assumptions C87_fewer_states_refuted.

Theorem C87_more_states_refuted : forall (SM : Type) (ev : sopts -> sim_in real -> sim_out real -> SM -> sim_out real * SM) sg ch (d : dims) (y : dyn_in real) s,
  (d_nx d < d_nx1 d)%nat -> (0 < d_nx d + d_nu d)%nat -> cont_update ev sg ch d y s = None.
Proof. exact more_states_refuted. Qed.
Print Assumptions C87_more_states_refuted.

Theorem C87_disc_adjoint_refuted : forall (M : disc_model real) (d : dims) (y : dyn_in real) s, (d_nu d + d_nx d < d_nx1 d)%nat -> (0 < d_nu d + d_nx d)%nat -> disc_fun_adj M d y s = None.
Proof. exact disc_adj_refuted. Qed.
Print Assumptions C87_disc_adjoint_refuted.

Example C87_case adj : exists s', cont_update exev exsg exch exd exy (exst adj) = Some s' /\ t_fun s' 0%nat = 1 /\ t_BAbt s' 0%nat 0%nat = 3 /\ t_BAbt s' 1%nat 0%nat = 2 /\
  t_adj s' 0%nat = -21 /\ t_adj s' 1%nat = -14 /\ t_adj s' 2%nat = 7 /\ t_z s' 0%nat = 5 /\ t_RSQrq s' 1%nat 0%nat = 7 /\ t_sm s' = 41 /\ t_flag s' = Some false.
Proof. exact (ex_update adj). Qed.
Example C87_case_fun_adj : exists s', cont_fun_adj exev exsg exd exy (exst true) = Some s' /\ t_fun s' 0%nat = 1 /\ t_adj s' 0%nat = -21 /\ t_adj s' 1%nat = -14 /\ t_adj s' 2%nat = 7 /\ t_z s' 0%nat = 0.
Proof. exact ex_fun_adj. Qed.
Example C87_case_disc : disc_consistent exM 1 1 2 /\ let s := disc_update exM dd yd sd in c_fun s 0%nat = 1 /\ c_fun s 1%nat = -1 /\ c_BAbt s 0%nat 0%nat = 3 /\ c_BAbt s 1%nat 0%nat = 2 /\ c_adj s 0%nat = -21 /\ c_adj s 1%nat = -15 /\ c_adj s 2%nat = 7 /\ c_adj s 3%nat = 1.
Proof. exact (conj exM_consistent ex_disc). Qed.
