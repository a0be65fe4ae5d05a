(** The stage cost as a function of the stage variables and of the data that the user has set, over the reals. *)
From Coq Require Import ZArith List Bool Reals.
From Coquelicot Require Import Coquelicot.
From Verif Require Import Arith Vec CostModel RSum.
Import ListNotations.
Open Scope R_scope.

Section S.
Variable d : cdim.
Notation nx := (cnx d). Notation nu := (cnu d). Notation nz := (cnz d). Notation ny := (cny d). Notation ns := (cns d).
Notation nv := (nu + nx)%nat.
(** what the user has set *)
Record data := mkD { dW : matR; dVx : matR; dVu : matR; dVz : matR; dyref : vecR; dZl : vecR; dZu : vecR; dzl : vecR; dzu : vecR; dscaling : R }.
(** a call of the setter: arrays are column major *)
Definition assign (f : cfield) (v : vecR) (D : data) : data :=
  match f with
  | fW => mkD (fun i j => v (i + ny * j)%nat) (dVx D) (dVu D) (dVz D) (dyref D) (dZl D) (dZu D) (dzl D) (dzu D) (dscaling D)
  | fCyt => mkD (dW D) (fun j i => v (nu + i + nv * j)%nat) (fun j i => v (i + nv * j)%nat) (dVz D) (dyref D) (dZl D) (dZu D) (dzl D) (dzu D) (dscaling D)
  | fVx => mkD (dW D) (fun j i => v (j + ny * i)%nat) (dVu D) (dVz D) (dyref D) (dZl D) (dZu D) (dzl D) (dzu D) (dscaling D)
  | fVu => mkD (dW D) (dVx D) (fun j i => v (j + ny * i)%nat) (dVz D) (dyref D) (dZl D) (dZu D) (dzl D) (dzu D) (dscaling D)
  | fVz => mkD (dW D) (dVx D) (dVu D) (fun j k => v (j + ny * k)%nat) (dyref D) (dZl D) (dZu D) (dzl D) (dzu D) (dscaling D)
  | fyref => mkD (dW D) (dVx D) (dVu D) (dVz D) v (dZl D) (dZu D) (dzl D) (dzu D) (dscaling D)
  | fZ => mkD (dW D) (dVx D) (dVu D) (dVz D) (dyref D) v v (dzl D) (dzu D) (dscaling D)
  | fZl => mkD (dW D) (dVx D) (dVu D) (dVz D) (dyref D) v (dZu D) (dzl D) (dzu D) (dscaling D)
  | fZu => mkD (dW D) (dVx D) (dVu D) (dVz D) (dyref D) (dZl D) v (dzl D) (dzu D) (dscaling D)
  | fz => mkD (dW D) (dVx D) (dVu D) (dVz D) (dyref D) (dZl D) (dZu D) v v (dscaling D)
  | fzl => mkD (dW D) (dVx D) (dVu D) (dVz D) (dyref D) (dZl D) (dZu D) v (dzu D) (dscaling D)
  | fzu => mkD (dW D) (dVx D) (dVu D) (dVz D) (dyref D) (dZl D) (dZu D) (dzl D) v (dscaling D)
  | fscaling => mkD (dW D) (dVx D) (dVu D) (dVz D) (dyref D) (dZl D) (dZu D) (dzl D) (dzu D) (v 0%nat)
  end.
(** the data of a model that has just been created *)
Definition data_of (c : cmodel real) : data :=
  mkD (W c) (fun j i => Cyt c (nu + i)%nat j) (fun j i => Cyt c i j) (Vz c) (yref c) (Zs c) (fun k => Zs c (ns + k)%nat) (zs c) (fun k => zs c (ns + k)%nat) (scaling c).

(** residuals, with the algebraic variables as a function of (u, x) *)
Definition ls_rho (D : data) (zf : vecR -> vecR) (v : vecR) (j : nat) : R :=
  sum nu (fun i => dVu D j i * v i) + sum nx (fun i => dVx D j i * v (nu + i)%nat) + sum nz (fun k => dVz D j k * zf v k) - dyref D j.
Definition nls_rho (y : vecR -> vecR -> vecR) (D : data) (zf : vecR -> vecR) (v : vecR) (j : nat) : R := y v (zf v) j - dyref D j.
Definition slack_cost (D : data) (v : vecR) : R :=
  sum ns (fun k => dzl D k * v (nv + k)%nat + 1 / 2 * dZl D k * v (nv + k)%nat ^ 2) + sum ns (fun k => dzu D k * v (nv + ns + k)%nat + 1 / 2 * dZu D k * v (nv + ns + k)%nat ^ 2).
Definition quadratic (D : data) (r : vecR) : R := 1 / 2 * sum ny (fun i => sum ny (fun j => r i * dW D i j * r j)).
Definition cost (D : data) (rho : vecR -> vecR) (v : vecR) : R := dscaling D * (quadratic D (rho v) + slack_cost D v).
(** the weight is symmetric and has the factor that dpotrf and sqrt compute; these are exact *)
Definition is_factor (n : nat) (V L : matR) : Prop := forall i j, (i < n)%nat -> (j <= i)%nat -> sum (S j) (fun k => L i k * L j k) = V i j.
Definition weight_ok (potrf : nat -> matR -> matR) (sq : R -> R) (D : data) : Prop :=
  (forall i j, (i < ny)%nat -> (j < ny)%nat -> dW D i j = dW D j i) /\
  (forall i, (i < ny)%nat -> sq (dW D i i) * sq (dW D i i) = dW D i i) /\
  (forall V, (forall i j, (i < ny)%nat -> (j < ny)%nat -> V i j = dW D i j) -> is_factor ny (dW D) (potrf ny V)).
(** sensitivities of the algebraic variables at ux *)
Definition is_sens (zf : vecR -> vecR) (dz : matR) (ux : vecR) : Prop :=
  forall (e : vecR) k, (k < nz)%nat -> is_derive (fun t => zf (fun r => ux r + t * e r) k) 0 (sum nv (fun r => dz r k * e r)).
(** the same without remainder *)
Definition is_affine (zf : vecR -> vecR) (dz : matR) (ux : vecR) : Prop :=
  forall (e : vecR) k, (k < nz)%nat -> zf (fun r => ux r + e r) k = zf ux k + sum nv (fun r => dz r k * e r).
(** derivatives of the user's function along every differentiable curve *)
Definition is_nls (F : nls_fun real) (ux z : vecR) : Prop :=
  forall (p q : R -> vecR) (dp dq : vecR) j, (j < ny)%nat -> (forall k, p 0 k = ux k) -> (forall k, q 0 k = z k) ->
    (forall k, is_derive (fun t => p t k) 0 (dp k)) -> (forall k, (k < nz)%nat -> is_derive (fun t => q t k) 0 (dq k)) ->
    is_derive (fun t => n_y F (p t) (q t) j) 0 (sum nv (fun r => n_Jt F ux z r j * dp r) + sum nz (fun k => n_Vz F ux z j k * dq k)).
Definition is_conl (O : conl_fun real) (yr ux z : vecR) : Prop :=
  forall (p q : R -> vecR) (dp dq : vecR), (forall k, p 0 k = ux k) -> (forall k, q 0 k = z k) ->
    (forall k, is_derive (fun t => p t k) 0 (dp k)) -> (forall k, (k < nz)%nat -> is_derive (fun t => q t k) 0 (dq k)) ->
    is_derive (fun t => o_fun O (p t) (q t) yr) 0 (sum ny (fun j => o_grad O ux z yr j * (sum nv (fun r => o_Jt O ux z yr r j * dp r) + sum nz (fun k => o_Jtz O ux z yr k j * dq k)))).
Definition is_ext (E : ext_fun real) (ux z : vecR) : Prop :=
  forall (p q : R -> vecR) (dp dq : vecR), (forall k, p 0 k = ux k) -> (forall k, q 0 k = z k) ->
    (forall k, is_derive (fun t => p t k) 0 (dp k)) -> (forall k, (k < nz)%nat -> is_derive (fun t => q t k) 0 (dq k)) ->
    is_derive (fun t => e_fun E (p t) (q t)) 0 (sum nv (fun r => e_grad E ux z r * dp r) + sum nz (fun k => e_grad E ux z (nv + k)%nat * dq k)).

(** ** histories *)
Inductive op := CSet (f : cfield) (v : vecR) | CPre | CInit | CUpd (a b : bool) (ux z : vecR) (dz : matR) | CFun (ux z : vecR) (dz : matR).
Variable potrf : nat -> matR -> matR.
Variable sq : R -> R.
Definition ls_step (o : op) (s : cmodel real * cmem real) : cmodel real * cmem real :=
  match o with
  | CSet f v => (model_set d f v (fst s), snd s)
  | CPre => ls_precompute potrf sq d s
  | CInit => ls_initialize potrf sq d s
  | CUpd a b ux z dz => ls_update d a b ux z dz s
  | CFun ux z dz => ls_compute_fun d ux z dz s
  end.
Definition ls_run (h : list op) (s : cmodel real * cmem real) := fold_left (fun s o => ls_step o s) h s.
Definition data_step (D : data) (o : op) : data := match o with CSet f v => assign f v D | _ => D end.
Definition current (h : list op) (D : data) : data := fold_left data_step h D.
(** a created module: the weight counts as changed, and not as diagonal (the memory is zeroed by calloc); ocp_nlp_cost_ls.c:228-232, ocp_nlp_cost_nls.c:207-210 *)
Definition created (c : cmodel real) : Prop := W_changed c = true /\ is_diag c = false.
(** since the last change of the weight, of the output matrices or of the scaling, there was an initialisation *)
Definition settles (b : bool) (o : op) : bool :=
  match o with CSet (fW | fCyt | fVx | fVu | fscaling) _ => false | CPre | CInit => true | _ => b end.
Definition settled (h : list op) : bool := fold_left settles h false.
(** the same for the weight alone *)
Definition settles_W (b : bool) (o : op) : bool := match o with CSet fW _ => false | CPre | CInit => true | _ => b end.
Definition settled_W (h : list op) : bool := fold_left settles_W h false.
(** the same for the slack weights *)
Definition settles_Z (b : bool) (o : op) : bool := match o with CSet (fZ | fZl | fZu | fscaling) _ => false | CInit => true | _ => b end.
Definition settled_Z (h : list op) : bool := fold_left settles_Z h false.
(** Jacobian of the residual with the algebraic variables eliminated *)
Definition ls_jac (D : data) (dz : matR) (j r : nat) : R := (if (r <? nu)%nat then dVu D j r else dVx D j (r - nu)) + sum nz (fun k => dVz D j k * dz r k).
(** a symmetric matrix from its lower triangle *)
Definition low (Q : matR) (r c : nat) : R := if (c <=? r)%nat then Q r c else Q c r.
(** nonlinear least squares: it has no fields for the linear parts; CUpd's flags are gauss_newton_hess and add_hess_contribution *)
Variable F : nls_fun real.
Variable integ : bool.
Definition nls_field (f : cfield) : bool := match f with fCyt | fVx | fVu | fVz => false | _ => true end.
Definition nls_step (s : option (cmodel real * cmem real)) (o : op) : option (cmodel real * cmem real) :=
  match s with None => None | Some s =>
  match o with
  | CSet f v => if nls_field f then Some (model_set d f v (fst s), snd s) else None
  | CPre => Some (nls_precompute potrf sq d s)
  | CInit => Some (nls_initialize potrf sq d s)
  | CUpd a b ux z dz => nls_update d F integ a b ux z dz s
  | CFun ux z dz => Some (nls_compute_fun d F integ ux z s)
  end end.
Definition nls_run (h : list op) (s : cmodel real * cmem real) := fold_left nls_step h (Some s).
(** Jacobian of the residual of nonlinear least squares, and of the inner function of convex-over-nonlinear costs *)
Definition nls_jac (ux z : vecR) (dz : matR) (j r : nat) : R := n_Jt F ux z r j + sum nz (fun k => n_Vz F ux z j k * dz r k).
Variable O : conl_fun real.
Definition conl_jac (yr ux z : vecR) (dz : matR) (j r : nat) : R := o_Jt O ux z yr r j + sum nz (fun k => o_Jtz O ux z yr k j * dz r k).
(** the user's function reads ny reference values *)
Definition reads_ref : Prop := forall ux z yr yr', (forall j, (j < ny)%nat -> yr j = yr' j) ->
  o_fun O ux z yr = o_fun O ux z yr' /\ o_diag O ux z yr = o_diag O ux z yr' /\ (forall j, (j < ny)%nat -> o_grad O ux z yr j = o_grad O ux z yr' j) /\
  (forall r j, (r < nv)%nat -> (j < ny)%nat -> o_Jt O ux z yr r j = o_Jt O ux z yr' r j) /\ (forall k j, (k < nz)%nat -> (j < ny)%nat -> o_Jtz O ux z yr k j = o_Jtz O ux z yr' k j) /\
  (forall i j, (i < ny)%nat -> (j < ny)%nat -> o_W O ux z yr i j = o_W O ux z yr' i j).
(** modules without cached data: setter calls only *)
Definition set_all (l : list (cfield * vecR)) (c : cmodel real) : cmodel real := fold_left (fun c fv => model_set d (fst fv) (snd fv) c) l c.
Definition assign_all (l : list (cfield * vecR)) (D : data) : data := fold_left (fun D fv => assign (fst fv) (snd fv) D) l D.
(** the cost with the user's function f *)
Definition total (D : data) (f : vecR -> R) (v : vecR) : R := dscaling D * (f v + slack_cost D v).
(** the same data with another weight *)
Definition with_weight (D : data) (V : matR) : data := mkD V (dVx D) (dVu D) (dVz D) (dyref D) (dZl D) (dZu D) (dzl D) (dzu D) (dscaling D).
End S.
