(** Stage costs: linear least squares, nonlinear least squares, convex-over-nonlinear and external.
    acados/ocp_nlp/ocp_nlp_cost_ls.c, ocp_nlp_cost_nls.c, ocp_nlp_cost_conl.c, ocp_nlp_cost_external.c.
    Matrices and vectors are functions of their indices, as in Vec.v.  The user's functions and the BLASFEO Cholesky factorisation
    are parameters.  blasfeo calls with beta = 0 do not read the old value.
    Not modelled: parameter sensitivities, the parts computed by the integrator when integrator_cost = 1 (they are the input of the functions here). *)
From Coq Require Import ZArith List Bool.
From Verif Require Import Arith Vec.
Import ListNotations.

Section S.
Variable A : arith.
Notation T := (num A). Notation vec := (nat -> T). Notation mat := (nat -> nat -> T).
Local Open Scope num_scope.
Notation half := (ncst (a := A) 5 (-1)). Notation two := (ncst (a := A) 2 0).
(** blasfeo_dpotrf_l(n, W, L): the strictly upper part of L is not used *)
Variable potrf : nat -> mat -> mat.
(** sqrt *)
Variable sq : T -> T.

Record cdim := mkCD { cnx : nat; cnu : nat; cnz : nat; cny : nat; cns : nat }.
Variable d : cdim.
Notation nx := (cnx d). Notation nu := (cnu d). Notation nz := (cnz d). Notation ny := (cny d). Notation ns := (cns d).
Notation nv := (nu + nx)%nat.

(** model data and change flags; Cyt and Vz are used by the linear module only *)
Record cmodel := mkC { W : mat; Cyt : mat; Vz : mat; yref : vec; Zs : vec; zs : vec; scaling : T; W_changed : bool; Cyt_changed : bool; is_diag : bool }.
(** memory and the parts of the QP and of the workspace that outlive a call; the Hessian block of the QP is RSQ *)
Record cmem := mkM { hess : mat; W_chol : mat; W_chol_diag : vec; QZ : vec; RSQ : mat; res : vec; grad : vec; fn : T; oob : bool }.
Inductive cfield := fW | fCyt | fVx | fVu | fVz | fyref | fZ | fZl | fZu | fz | fzl | fzu | fscaling.

(** ** setters, ocp_nlp_cost_ls.c:243-352; ocp_nlp_cost_nls.c has the fields W, yref, Z, Zl, Zu, z, zl, zu, scaling with the same text *)
(** blasfeo_pack_dmat(m, n, A, lda, B, bi, bj), blasfeo_pack_tran_dmat, blasfeo_pack_dvec *)
Definition pack (m n : nat) (a : vec) (lda : nat) (B : mat) (bi bj : nat) : mat := fun r c =>
  if (bi <=? r)%nat && (r <? bi + m)%nat && (bj <=? c)%nat && (c <? bj + n)%nat then a ((r - bi) + lda * (c - bj))%nat else B r c.
Definition pack_tran (m n : nat) (a : vec) (lda : nat) (B : mat) (bi bj : nat) : mat := fun r c =>
  if (bi <=? r)%nat && (r <? bi + n)%nat && (bj <=? c)%nat && (c <? bj + m)%nat then a ((c - bj) + lda * (r - bi))%nat else B r c.
Definition packv (n : nat) (a : vec) (B : vec) (bi : nat) : vec := fun k => if (bi <=? k)%nat && (k <? bi + n)%nat then a (k - bi)%nat else B k.
(** x != 0.0 *)
Definition neq0 (x : T) : bool := negb ((x <=? 0) && (0 <=? x)).
(** ocp_nlp_cost_ls.c:268-294 *)
Definition diag_of (V : mat) : bool :=
  if (4 <? ny)%nat then forallb (fun i => forallb (fun j => (j =? i)%nat || negb (neq0 (V i j))) (seq 0 ny)) (seq 0 ny) else false.
Definition put_Zs (v : vec) (m : cmodel) := mkC (W m) (Cyt m) (Vz m) (yref m) v (zs m) (scaling m) (W_changed m) (Cyt_changed m) (is_diag m).
Definition put_zs (v : vec) (m : cmodel) := mkC (W m) (Cyt m) (Vz m) (yref m) (Zs m) v (scaling m) (W_changed m) (Cyt_changed m) (is_diag m).
Definition put_Cyt (V : mat) (m : cmodel) := mkC (W m) V (Vz m) (yref m) (Zs m) (zs m) (scaling m) (W_changed m) true (is_diag m).
Definition model_set (f : cfield) (v : vec) (m : cmodel) : cmodel :=
  match f with
  | fW => let V := pack ny ny v ny (W m) 0 0 in mkC V (Cyt m) (Vz m) (yref m) (Zs m) (zs m) (scaling m) true (Cyt_changed m) (diag_of V)
  | fCyt => put_Cyt (pack nv ny v nv (Cyt m) 0 0) m
  | fVx => put_Cyt (pack_tran ny nx v ny (Cyt m) nu 0) m
  | fVu => put_Cyt (pack_tran ny nu v ny (Cyt m) 0 0) m
  | fVz => mkC (W m) (Cyt m) (pack ny nz v ny (Vz m) 0 0) (yref m) (Zs m) (zs m) (scaling m) (W_changed m) (Cyt_changed m) (is_diag m)
  | fyref => mkC (W m) (Cyt m) (Vz m) (packv ny v (yref m) 0) (Zs m) (zs m) (scaling m) (W_changed m) (Cyt_changed m) (is_diag m)
  | fZ => put_Zs (packv ns v (packv ns v (Zs m) 0) ns) m
  | fZl => put_Zs (packv ns v (Zs m) 0) m
  | fZu => put_Zs (packv ns v (Zs m) ns) m
  | fz => put_zs (packv ns v (packv ns v (zs m) 0) ns) m
  | fzl => put_zs (packv ns v (zs m) 0) m
  | fzu => put_zs (packv ns v (zs m) ns) m
  | fscaling => mkC (W m) (Cyt m) (Vz m) (yref m) (Zs m) (zs m) (v 0%nat) (W_changed m) true (is_diag m)
  end.

(** ** BLASFEO *)
(** blasfeo_dsyrk_ln(m, k, alpha, X, X, beta, C, D): lower triangle of D = beta C + alpha X X' ; [acc] is beta <> 0, the only values are 0 and 1 *)
Definition syrk (m k : nat) (al : T) (X : mat) (acc : bool) (D : mat) : mat := fun r c =>
  if (r <? m)%nat && (c <=? r)%nat then (if acc then D r c + al * vsum k (fun j => X r j * X c j) else al * vsum k (fun j => X r j * X c j)) else D r c.
(** tmp_nv_ny = J * W_chol (blasfeo_dtrmm_rlnn) or J * diag (blasfeo_dgemm_nd) *)
Definition weigh (diag : bool) (L : mat) (D : vec) (J : mat) : mat := fun r c =>
  if diag then 1 * (J r c * D c) else 1 * vsum ny (fun k => if (c <=? k)%nat then J r k * L k c else 0).
(** tmp_ny = W_chol' res (blasfeo_dtrmv_ltn) or diag .* res (blasfeo_dvecmul) *)
Definition weighv (diag : bool) (L : mat) (D : vec) (x : vec) : vec := fun c =>
  if diag then D c * x c else vsum ny (fun k => if (c <=? k)%nat then L k c * x k else 0).
(** blasfeo_dsymv_l: the lower triangle of W *)
Definition symv (V : mat) (x : vec) : vec := fun i => 1 * vsum ny (fun j => (if (j <=? i)%nat then V i j else V j i) * x j).
(** lower triangle: the strictly upper part of W is not read *)
Definition put_mem (m : cmem) (g : vec) (f : T) : cmem := mkM (hess m) (W_chol m) (W_chol_diag m) (QZ m) (RSQ m) (res m) g f (oob m).
Definition put_RSQ (m : cmem) (Q : mat) : cmem := mkM (hess m) (W_chol m) (W_chol_diag m) (QZ m) Q (res m) (grad m) (fn m) (oob m).
Definition put_res (m : cmem) (r : vec) : cmem := mkM (hess m) (W_chol m) (W_chol_diag m) (QZ m) (RSQ m) r (grad m) (fn m) (oob m).
Definition put_oob (m : cmem) (o : bool) : cmem := mkM (hess m) (W_chol m) (W_chol_diag m) (QZ m) (RSQ m) (res m) (grad m) (fn m) (oob m || o).

(** ** factorisation *)
Definition factorise (c : cmodel) (m : cmem) : cmem :=
  if is_diag c then mkM (hess m) (W_chol m) (fun i => if (i <? ny)%nat then sq (W c i i) else W_chol_diag m i) (QZ m) (RSQ m) (res m) (grad m) (fn m) (oob m)
  else mkM (hess m) (potrf ny (W c)) (W_chol_diag m) (QZ m) (RSQ m) (res m) (grad m) (fn m) (oob m).
Definition flags (c : cmodel) (w y : bool) : cmodel := mkC (W c) (Cyt c) (Vz c) (yref c) (Zs c) (zs c) (scaling c) w y (is_diag c).
(** ocp_nlp_cost_ls.c:797-846 *)
Definition ls_update_W (s : cmodel * cmem) : cmodel * cmem :=
  let '(c, m) := s in
  let '(c, m) := if W_changed c then (flags c false true, factorise c m) else (c, m) in
  if Cyt_changed c then
    (flags c (W_changed c) false,
     mkM (syrk nv ny (scaling c) (weigh (is_diag c) (W_chol m) (W_chol_diag m) (Cyt c)) false (hess m)) (W_chol m) (W_chol_diag m) (QZ m) (RSQ m) (res m) (grad m) (fn m) (oob m))
  else (c, m).
(** ocp_nlp_cost_nls.c:777-805 *)
Definition nls_update_W (s : cmodel * cmem) : cmodel * cmem :=
  let '(c, m) := s in if W_changed c then (flags c false (Cyt_changed c), factorise c m) else (c, m).
(** blasfeo_dveccpsc(2*ns, scaling, Z, 0, memory->Z, 0) *)
Definition set_QZ (s : cmodel * cmem) : cmodel * cmem :=
  let '(c, m) := s in
  (c, mkM (hess m) (W_chol m) (W_chol_diag m) (fun k => if (k <? 2 * ns)%nat then scaling c * Zs c k else QZ m k) (RSQ m) (res m) (grad m) (fn m) (oob m)).
(** :850-878; nls :808-833 *)
Definition ls_precompute (s : cmodel * cmem) := ls_update_W (flags (fst s) true (Cyt_changed (fst s)), snd s).
Definition ls_initialize (s : cmodel * cmem) := set_QZ (ls_update_W s).
Definition nls_precompute (s : cmodel * cmem) := nls_update_W (flags (fst s) true (Cyt_changed (fst s)), snd s).
Definition nls_initialize (s : cmodel * cmem) := set_QZ (nls_update_W s).

(** ** slacks and scaling: the common last part of the update functions and of compute_fun *)
(** grad[nu+nx ..] = z + Z .* slack *)
Definition slack_grad (c : cmodel) (ux g : vec) : vec := fun k => if (nv <=? k)%nat && (k <? nv + 2 * ns)%nat then zs c (k - nv)%nat + Zs c (k - nv)%nat * ux k else g k.
(** fun += 0.5 * (2 z + Z .* slack) . slack *)
Definition slack_fun (c : cmodel) (ux : vec) (f : T) : T :=
  f + half * vdot (2 * ns) (fun k => two * zs c k + Zs c k * ux (nv + k)%nat) (fun k => ux (nv + k)%nat).
Definition scale_from (o n : nat) (al : T) (g : vec) : vec := fun k => if (o <=? k)%nat && (k <? o + n)%nat then al * g k else g k.
Definition unscaled (c : cmodel) : bool := (scaling c <=? 1) && (1 <=? scaling c).
(** [integ]: opts->integrator_cost *)
Definition finish (integ : bool) (c : cmodel) (ux : vec) (m : cmem) : cmem :=
  let g := slack_grad c ux (grad m) in
  let f := slack_fun c ux (fn m) in
  if unscaled c then put_mem m g f
  else if integ then put_mem m (scale_from nv (2 * ns) (scaling c) g) f
  else put_mem m (scale_from 0 (nv + 2 * ns) (scaling c) g) (f * scaling c).
Definition finish_fun (integ : bool) (c : cmodel) (ux : vec) (m : cmem) : cmem :=
  let f := slack_fun c ux (fn m) in
  if unscaled c || integ then put_mem m (grad m) f else put_mem m (grad m) (f * scaling c).

(** grad = J * t *)
Definition grad_of (J : mat) (t g : vec) : vec := fun k => if (k <? nv)%nat then 1 * mvn ny J t k else g k.
(** J + dz * Vz' (blasfeo_dgemm_nt) *)
Definition eliminate (dz V J : mat) : mat := fun r c => 1 * J r c + 1 * vsum nz (fun k => dz r k * V c k).

(** ** linear least squares, ocp_nlp_cost_ls.c:882-1006; the arguments are the iterate, the algebraic variables and their sensitivities *)
Definition ls_Cyt (c : cmodel) (dz : mat) : mat := if (0 <? nz)%nat then eliminate dz (Vz c) (Cyt c) else Cyt c.
Definition ls_res (c : cmodel) (ux z : vec) (dz : mat) (r0 : vec) : vec := fun j =>
  if (j <? ny)%nat then
    (if (0 <? nz)%nat then
       let tz := fun k => - (1) * z k + 1 * mvt nv dz ux k in
       let yt := fun i => 1 * yref c i + 1 * mvn nz (Vz c) tz i in
       - (1) * yt j + 1 * mvt nv (ls_Cyt c dz) ux j
     else - (1) * yref c j + 1 * mvt nv (Cyt c) ux j)
  else r0 j.
(** opts->compute_hess, opts->add_hess_contribution *)
Definition ls_hess (compute_hess add_hess : bool) (c : cmodel) (m : cmem) (dz : mat) : mat :=
  if compute_hess then
    if (0 <? nz)%nat then syrk nv ny (scaling c) (weigh (is_diag c) (W_chol m) (W_chol_diag m) (ls_Cyt c dz)) add_hess (RSQ m)
    else fun r k => if (r <? nv)%nat && (k <? nv)%nat then (if add_hess then RSQ m r k + 1 * hess m r k else hess m r k) else RSQ m r k
  else RSQ m.
Definition ls_update (compute_hess add_hess : bool) (ux z : vec) (dz : mat) (s : cmodel * cmem) : cmodel * cmem :=
  let '(c, m) := s in
  let m := put_RSQ m (ls_hess compute_hess add_hess c m dz) in
  let m := put_res m (ls_res c ux z dz (res m)) in
  let t := symv (W c) (res m) in
  let m := put_mem m (grad_of (ls_Cyt c dz) t (grad m)) (half * vdot ny t (res m)) in
  (c, finish false c ux m).
(** :1017-1093 *)
Definition ls_compute_fun (ux z : vec) (dz : mat) (s : cmodel * cmem) : cmodel * cmem :=
  let '(c, m) := s in
  let m := put_res m (ls_res c ux z dz (res m)) in
  let t := weighv (is_diag c) (W_chol m) (W_chol_diag m) (res m) in
  (c, finish_fun false c ux (put_mem m (grad m) (half * vdot ny t t))).

(** ** nonlinear least squares, ocp_nlp_cost_nls.c:836-1038 *)
(** the user's functions of (u,x) and z: y, its transposed Jacobian, its Jacobian with respect to z, the Hessian contracted with a vector *)
Record nls_fun := mkN { n_y : vec -> vec -> vec; n_Jt : vec -> vec -> mat; n_Vz : vec -> vec -> mat; n_hess : vec -> vec -> vec -> mat }.
Variable F : nls_fun.
(** work->Vz has nz rows and ny columns (:749) and receives an ny x nz matrix *)
Definition vz_outside : bool := (0 <? ny)%nat && (0 <? nz)%nat && ((nz <? ny)%nat || (ny <? nz)%nat).
Definition nls_J (ux z : vec) (dz : mat) : mat := if (0 <? nz)%nat then eliminate dz (n_Vz F ux z) (n_Jt F ux z) else n_Jt F ux z.
Definition nls_res (c : cmodel) (ux z r0 : vec) : vec := fun j => if (j <? ny)%nat then n_y F ux z j + - (1) * yref c j else r0 j.
(** gn: opts->gauss_newton_hess; [None]: exit *)
Definition nls_update (integ gn add_hess : bool) (ux z : vec) (dz : mat) (s : cmodel * cmem) : option (cmodel * cmem) :=
  let '(c, m) := s in
  if integ then Some (c, finish true c ux m) else
  let m := put_oob m vz_outside in
  let m := put_res m (nls_res c ux z (res m)) in
  let t := symv (W c) (res m) in
  let Q := syrk nv ny (scaling c) (weigh (is_diag c) (W_chol m) (W_chol_diag m) (nls_J ux z dz)) add_hess (RSQ m) in
  let m' := put_mem m (grad_of (nls_J ux z dz) t (grad m)) (half * vdot ny t (res m)) in
  if gn then Some (c, finish false c ux (put_RSQ m' Q))
  else if (0 <? nz)%nat then None
  else Some (c, finish false c ux (put_RSQ m' (fun r k => if (r <? nv)%nat && (k <? nv)%nat then Q r k + scaling c * n_hess F ux z t r k else Q r k))).
(** :1051-1138 *)
Definition nls_compute_fun (integ : bool) (ux z : vec) (s : cmodel * cmem) : cmodel * cmem :=
  let '(c, m) := s in
  if integ then (c, finish_fun true c ux m) else
  let m := put_res m (nls_res c ux z (res m)) in
  let t := weighv (is_diag c) (W_chol m) (W_chol_diag m) (res m) in
  (c, finish_fun false c ux (put_mem m (grad m) (half * vdot ny t t))).

(** ** convex over nonlinear, ocp_nlp_cost_conl.c:707-855 *)
(** the user's function: value, gradient of the outer function, transposed inner Jacobians, outer Hessian and whether that is diagonal *)
Record conl_fun := mkO { o_fun : vec -> vec -> vec -> T; o_grad : vec -> vec -> vec -> vec; o_Jt : vec -> vec -> vec -> mat; o_Jtz : vec -> vec -> vec -> mat;
  o_W : vec -> vec -> vec -> mat; o_diag : vec -> vec -> vec -> bool }.
Variable O : conl_fun.
(** Jt_ux + dzdux * Jt_z (blasfeo_dgemm_nn) *)
Definition conl_J (c : cmodel) (ux z : vec) (dz : mat) : mat :=
  if (0 <? nz)%nat then fun r j => 1 * o_Jt O ux z (yref c) r j + 1 * vsum nz (fun k => dz r k * o_Jtz O ux z (yref c) k j) else o_Jt O ux z (yref c).
Definition conl_update (integ add_hess : bool) (ux z : vec) (dz : mat) (s : cmodel * cmem) : cmodel * cmem :=
  let '(c, m) := s in
  if integ then (c, finish true c ux m) else
  let V := o_W O ux z (yref c) in
  let m := factorise (mkC V (Cyt c) (Vz c) (yref c) (Zs c) (zs c) (scaling c) (W_changed c) (Cyt_changed c) (o_diag O ux z (yref c))) m in
  let m := put_mem m (grad_of (conl_J c ux z dz) (o_grad O ux z (yref c)) (grad m)) (o_fun O ux z (yref c)) in
  let m := put_RSQ m (syrk nv ny (scaling c) (weigh (o_diag O ux z (yref c)) (W_chol m) (W_chol_diag m) (conl_J c ux z dz)) add_hess (RSQ m)) in
  (c, finish false c ux m).
(** :862-980 *)
Definition conl_compute_gradient (integ : bool) (ux z : vec) (dz : mat) (s : cmodel * cmem) : cmodel * cmem :=
  let '(c, m) := s in
  let m := if integ then m else put_mem m (grad_of (conl_J c ux z dz) (o_grad O ux z (yref c)) (grad m)) (o_fun O ux z (yref c)) in
  let g := slack_grad c ux (grad m) in
  (c, put_mem m (if unscaled c then g else if integ then scale_from nv (2 * ns) (scaling c) g else scale_from 0 (nv + 2 * ns) (scaling c) g) (fn m)).
(** :984-1045 *)
Definition conl_compute_fun (integ : bool) (ux z : vec) (s : cmodel * cmem) : cmodel * cmem :=
  let '(c, m) := s in
  (c, finish_fun integ c ux (if integ then m else put_mem m (grad m) (o_fun O ux z (yref c)))).

(** ** external, ocp_nlp_cost_external.c:728-872 *)
(** the user's function: value, gradient with respect to (u, x, z), Hessians: (u,x), z, and z times (u,x) *)
Record ext_fun := mkE { e_fun : vec -> vec -> T; e_grad : vec -> vec -> vec; e_hess : vec -> vec -> mat; e_hess_z : vec -> vec -> mat; e_hess_zux : vec -> vec -> mat }.
Variable E : ext_fun.
(** work->tmp_nz_nunx has nz rows and nu+nx columns (:678); blasfeo_dsyr2k_ln (:819) reads nu+nx rows and nz columns of it *)
Definition cross_outside : bool := (0 <? nz)%nat && (0 <? nv)%nat && ((nz <? nv)%nat || (nv <? nz)%nat).
(** the entries outside are those of [old] *)
Definition cross (H old : mat) : mat := fun r k => if (r <? nz)%nat && (k <? nv)%nat then H r k else old r k.
(** blasfeo_dsyr2k_ln(m, k, alpha, X, Y, 1.0, D, D): lower triangle of D += alpha (X Y' + Y X') *)
Definition syr2k (m k : nat) (al : T) (X Y D : mat) : mat := fun r c =>
  if (r <? m)%nat && (c <=? r)%nat then D r c + al * vsum k (fun j => X r j * Y c j + Y r j * X c j) else D r c.
(** num_hess: opts->use_numerical_hessian with model->numerical_hessian; [old] is the content of the memory around tmp_nz_nunx *)
Definition ext_hess (num_hess : option mat) (add_hess : bool) (c : cmodel) (ux z : vec) (dz old Q : mat) : mat :=
  let H := match num_hess with Some H => H | None => e_hess E ux z end in
  let Q := fun r k => if (r <? nv)%nat && (k <? nv)%nat then (if add_hess then Q r k + scaling c * H r k else scaling c * H r k) else Q r k in
  match num_hess with
  | Some _ => Q
  | None =>
    if (0 <? nz)%nat then
      let Q := syr2k nv nz (scaling c) dz (cross (e_hess_zux E ux z) old) Q in
      let P : mat := fun k r => 1 * vsum nz (fun l => e_hess_z E ux z k l * dz r l) in
      fun r k => if (r <? nv)%nat && (k <? nv)%nat then Q r k + scaling c * vsum nz (fun l => dz r l * P l k) else Q r k
    else Q
  end.
Definition ext_grad (ux z : vec) (dz : mat) (g : vec) : vec := fun k =>
  if (k <? nv)%nat then (if (0 <? nz)%nat then 1 * e_grad E ux z k + 1 * vsum nz (fun j => dz k j * e_grad E ux z (nv + j)%nat) else e_grad E ux z k) else g k.
Definition ext_update (num_hess : option mat) (add_hess : bool) (ux z : vec) (dz old : mat) (s : cmodel * cmem) : cmodel * cmem :=
  let '(c, m) := s in
  let m := put_oob (put_RSQ m (ext_hess num_hess add_hess c ux z dz old (RSQ m))) (match num_hess with None => cross_outside | Some _ => false end) in
  (c, finish false c ux (put_mem m (ext_grad ux z dz (grad m)) (e_fun E ux z))).
(** :876-952; the value is written as well *)
Definition ext_compute_gradient (ux z : vec) (dz : mat) (s : cmodel * cmem) : cmodel * cmem :=
  let '(c, m) := s in
  let g := slack_grad c ux (ext_grad ux z dz (grad m)) in
  (c, put_mem m (if unscaled c then g else scale_from 0 (nv + 2 * ns) (scaling c) g) (e_fun E ux z)).
(** :956-1018 *)
Definition ext_compute_fun (ux z : vec) (s : cmodel * cmem) : cmodel * cmem :=
  let '(c, m) := s in (c, finish_fun false c ux (put_mem m (grad m) (e_fun E ux z))).
(** conl :688-702, external :711-724 *)
Definition plain_initialize (s : cmodel * cmem) := set_QZ s.
End S.
Arguments mkC {A}. Arguments W {A}. Arguments Cyt {A}. Arguments Vz {A}. Arguments yref {A}. Arguments Zs {A}. Arguments zs {A}. Arguments scaling {A}. Arguments W_changed {A}. Arguments Cyt_changed {A}. Arguments is_diag {A}.
Arguments mkM {A}. Arguments hess {A}. Arguments W_chol {A}. Arguments W_chol_diag {A}. Arguments QZ {A}. Arguments RSQ {A}. Arguments res {A}. Arguments grad {A}. Arguments fn {A}. Arguments oob {A}.
Arguments mkN {A}. Arguments n_y {A}. Arguments n_Jt {A}. Arguments n_Vz {A}. Arguments n_hess {A}. Arguments mkO {A}. Arguments o_fun {A}. Arguments o_grad {A}. Arguments o_Jt {A}. Arguments o_Jtz {A}. Arguments o_W {A}. Arguments o_diag {A}.
Arguments mkE {A}. Arguments e_fun {A}. Arguments e_grad {A}. Arguments e_hess {A}. Arguments e_hess_z {A}. Arguments e_hess_zux {A}.
Arguments pack {A}. Arguments pack_tran {A}. Arguments packv {A}. Arguments neq0 {A}. Arguments diag_of {A}. Arguments put_Zs {A}. Arguments put_zs {A}. Arguments put_Cyt {A}. Arguments model_set {A}. Arguments syrk {A}. Arguments weigh {A}.
Arguments weighv {A}. Arguments symv {A}. Arguments put_mem {A}. Arguments put_RSQ {A}. Arguments put_res {A}. Arguments put_oob {A}. Arguments factorise {A}. Arguments flags {A}. Arguments ls_update_W {A}. Arguments nls_update_W {A}.
Arguments set_QZ {A}. Arguments ls_precompute {A}. Arguments ls_initialize {A}. Arguments nls_precompute {A}. Arguments nls_initialize {A}. Arguments slack_grad {A}. Arguments slack_fun {A}. Arguments scale_from {A}. Arguments unscaled {A}.
Arguments finish {A}. Arguments finish_fun {A}. Arguments grad_of {A}. Arguments eliminate {A}. Arguments ls_Cyt {A}. Arguments ls_res {A}. Arguments ls_hess {A}. Arguments ls_update {A}. Arguments ls_compute_fun {A}.
Arguments nls_J {A}. Arguments nls_res {A}. Arguments nls_update {A}. Arguments nls_compute_fun {A}. Arguments conl_J {A}. Arguments conl_update {A}. Arguments conl_compute_gradient {A}. Arguments conl_compute_fun {A}.
Arguments cross {A}. Arguments syr2k {A}. Arguments ext_hess {A}. Arguments ext_grad {A}. Arguments ext_update {A}. Arguments ext_compute_gradient {A}. Arguments ext_compute_fun {A}. Arguments plain_initialize {A}.
