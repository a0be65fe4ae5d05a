(** Property theorems: sensitivities of the explicit Runge-Kutta integrator. *)
From Coq Require Import ZArith List Bool Lia Reals Lra Psatz.
From Coquelicot Require Import Coquelicot.
From Verif Require Import Arith Vec RSum ErkModel ErkSens ErkHess ErkTop ErkCases.
Open Scope R_scope.

(** C35: the forward sensitivities are the derivatives of the simulated state, for every tableau, number of steps and work array content *)
Theorem C35_forward_state : forall M nx nu np Jx Ju Jp, consistent M nx nu np Jx Ju Jp -> forall o, dims o nx nu np -> forall inp out, sim_erk M o inp = Some out ->
  forall G f fp ad hs outt, (forall t, sim_erk M (with_sens o f fp ad hs) (moved inp zero zero zero G t) = Some (outt t)) ->
  forall i, (i < nx)%nat -> o_xn (outt 0) i = o_xn out i.
Proof. exact forward_state. Qed.
Print Assumptions C35_forward_state.
Theorem C35_forward_sensitivity : forall M nx nu np Jx Ju Jp, consistent M nx nu np Jx Ju Jp -> forall o, dims o nx nu np -> forall inp out, sim_erk M o inp = Some out ->
  forall G f fp ad hs q, e_sens_forw o = true -> (q < nx + nu)%nat ->
  forall outt, (forall t, sim_erk M (with_sens o f fp ad hs) (moved inp (fun k => i_S_forw inp (nx * q + k)%nat) (fun k => unit q (nx + k)) zero G t) = Some (outt t)) ->
  forall i, (i < nx)%nat -> is_derive (fun t => o_xn (outt t) i) 0 (o_S_forw out (nx * q + i)%nat).
Proof. exact forward_sens. Qed.
Print Assumptions C35_forward_sensitivity.
Theorem C35_parameter_sensitivity : forall M nx nu np Jx Ju Jp, consistent M nx nu np Jx Ju Jp -> forall o, dims o nx nu np -> forall inp out, sim_erk M o inp = Some out ->
  forall G f fp ad hs q, e_sens_forw_p o = true -> (q < np)%nat ->
  forall outt, (forall t, sim_erk M (with_sens o f fp ad hs) (moved inp zero zero (unit q) G t) = Some (outt t)) ->
  forall i, (i < nx)%nat -> is_derive (fun t => o_xn (outt t) i) 0 (o_S_p out (nx * q + i)%nat).
Proof. exact forward_sens_p. Qed.
Print Assumptions C35_parameter_sensitivity.

(** the simulated state is the Runge-Kutta recursion with step T / num_steps, whatever sensitivities are computed along *)
Theorem C35_runge_kutta : forall M nx nu np Jx Ju Jp, consistent M nx nu np Jx Ju Jp -> forall o, dims o nx nu np -> forall inp out, sim_erk M o inp = Some out ->
  forall (X : nat -> vecR) (k : nat -> nat -> vecR), let h := i_T inp / INR (e_num_steps o) in
  (forall i, (i < nx)%nat -> X 0%nat i = i_x inp i) ->
  (forall n s i, (n < e_num_steps o)%nat -> (s < e_ns o)%nat -> (i < nx)%nat -> k n s i = expl_ode_fun M (i_p inp) (fun l => X n l + h * sum s (fun j => e_A o j s * k n j l)) (i_u inp) i) ->
  (forall n i, (n < e_num_steps o)%nat -> (i < nx)%nat -> X (S n) i = X n i + h * sum (e_ns o) (fun s => e_b o s * k n s i)) ->
  forall i, (i < nx)%nat -> o_xn out i = X (e_num_steps o) i.
Proof. exact runge_kutta. Qed.
Print Assumptions C35_runge_kutta.

(** C36: the adjoint output is the gradient of the weighted end state, and the transpose of the forward sensitivities *)
Theorem C36_adjoint_gradient : forall M nx nu np Jx Ju Jp, consistent M nx nu np Jx Ju Jp -> forall o, dims o nx nu np -> forall inp out, sim_erk M o inp = Some out ->
  forall G f fp ad hs dx du, e_sens_adj o = true \/ e_sens_hess o = true ->
  forall outt, (forall t, sim_erk M (with_sens o f fp ad hs) (moved inp dx du zero G t) = Some (outt t)) ->
  is_derive (fun t => sum nx (fun i => i_S_adj inp i * o_xn (outt t) i)) 0 (sum nx (fun k => o_S_adj out k * dx k) + sum nu (fun k => o_S_adj out (nx + k)%nat * du k)).
Proof. exact adjoint_sens. Qed.
Print Assumptions C36_adjoint_gradient.
Theorem C36_transposed : forall M nx nu np Jx Ju Jp, consistent M nx nu np Jx Ju Jp -> forall o, dims o nx nu np -> forall inp out, sim_erk M o inp = Some out ->
  e_sens_forw o = true -> e_sens_adj o = true \/ e_sens_hess o = true -> forall q, (q < nx + nu)%nat ->
  sum nx (fun i => i_S_adj inp i * o_S_forw out (nx * q + i)%nat) = sum nx (fun k => o_S_adj out k * i_S_forw inp (nx * q + k)%nat) + (if (nx <=? q)%nat then o_S_adj out q else 0).
Proof. exact transposed. Qed.
Print Assumptions C36_transposed.

(** C60: the Hessian output is the derivative of the weighted forward sensitivities, and symmetric *)
Theorem C60_hessian : forall M nx nu np Jx Ju Jp H, consistent M nx nu np Jx Ju Jp -> consistent2 M nx nu np Jx Ju H -> forall o, dims o nx nu np -> forall inp out, sim_erk M o inp = Some out ->
  e_sens_hess o = true -> forall G fp ad hs q c, (q < nx + nu)%nat -> (c < nx + nu)%nat ->
  forall outt, (forall t, sim_erk M (with_sens o true fp ad hs) (moved inp (fun k => i_S_forw inp (nx * c + k)%nat) (fun k => unit c (nx + k)) zero G t) = Some (outt t)) ->
  is_derive (fun t => sum nx (fun r => i_S_adj inp r * o_S_forw (outt t) (nx * q + r)%nat)) 0 (o_S_hess out (q + (nx + nu) * c)%nat).
Proof. exact hessian. Qed.
Print Assumptions C60_hessian.
Theorem C60_symmetric : forall M nx nu o inp out, e_nx o = nx -> e_nu o = nu -> sim_erk M o inp = Some out -> e_sens_hess o = true -> forall i j, (i < nx + nu)%nat -> (j < nx + nu)%nat ->
  o_S_hess out (i + (nx + nu) * j)%nat = o_S_hess (A := real) out (j + (nx + nu) * i)%nat.
Proof. exact hessian_sym. Qed.
Print Assumptions C60_symmetric.
(** finding: Hessians requested without forward sensitivities run past the work arrays; no check rejects the options *)
Theorem C60_no_forward_refuted : exists (M : erk_model real) o inp, e_sens_hess o = true /\ e_sens_adj o = true /\ sim_erk M o inp = None.
Proof. exists ex_M, (ex_opts false false true true), ex_in. repeat split. Qed.
Print Assumptions C60_no_forward_refuted.

(** the premises hold for a nonlinear system, and the values are not trivial *)
Example erk_consistent : consistent ex_M 1 1 1 ex_Jx ex_Ju ex_Jp /\ consistent2 ex_M 1 1 1 ex_Jx ex_Ju ex_H /\ dims exo 1 1 1.
Proof. exact (conj ex_consistent (conj ex_consistent2 (ex_dims true true true true))). Qed.
Example erk_values : exists out, sim_erk ex_M exo ex_in = Some out /\ o_xn out 0%nat = 13/4 /\ o_S_forw out 0%nat = 7 /\ o_S_forw out 1%nat = 5/2 /\ o_S_p out 0%nat = 15/4 /\
  o_S_adj out 0%nat = 7 /\ o_S_adj out 1%nat = 5/2 /\ o_S_hess out 0%nat = 11 /\ o_S_hess out 1%nat = 2 /\ o_S_hess out 3%nat = /2.
Proof. exact ex_run. Qed.
