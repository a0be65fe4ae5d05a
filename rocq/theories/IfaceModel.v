(** Flat access to the iterate and the parameters.
    interfaces/acados_c/ocp_nlp_interface.c:638-810 (ocp_nlp_out_set, ocp_nlp_out_get, ocp_nlp_dims_get_total_from_attr),
    :1914-2117 (ocp_nlp_get_all, ocp_nlp_set_all).  Buffers are lists, so an access outside a buffer has no result.
    Fields that are not in [field] make the program exit and are not modelled, nor is "kkt_norm". *)
From Coq Require Import ZArith List Bool.
From Verif Require Import Arr DimsModel.
Import ListNotations.
Open Scope Z_scope.

Inductive field := Fx | Fu | Fsl | Fsu | Fs | Fz | Fpi | Flam | Fp.
Inductive buf := Bux | Bz | Bpi | Blam | Bp.
Section Iface.
Context {T : Type} (mul : T -> T -> T).
(** out->ux, out->z, out->pi, out->lam, in->parameter_values, in->dmask: one buffer per stage *)
Record store := mkStore { ux : list (list T); zz : list (list T); pi : list (list T); lam : list (list T); pv : list (list T); dmask : list (list T) }.
Definition getb (s : store) (b : buf) : list (list T) := match b with Bux => ux s | Bz => zz s | Bpi => pi s | Blam => lam s | Bp => pv s end.
Definition putb (s : store) (b : buf) (l : list (list T)) : store :=
  match b with
  | Bux => mkStore l (zz s) (pi s) (lam s) (pv s) (dmask s) | Bz => mkStore (ux s) l (pi s) (lam s) (pv s) (dmask s)
  | Bpi => mkStore (ux s) (zz s) l (lam s) (pv s) (dmask s) | Blam => mkStore (ux s) (zz s) (pi s) l (pv s) (dmask s)
  | Bp => mkStore (ux s) (zz s) (pi s) (lam s) l (dmask s)
  end.
(** blasfeo_pack_dvec and blasfeo_unpack_dvec with stride 1; the loops over parameter_values *)
Definition copy (m : Z) (src : list T) (so : Z) (dst : list T) (o : Z) : option (list T) :=
  for_ 0 m (fun i dst => do v <- aget src (so + i); aput dst (o + i) v) dst.
(** blasfeo_dvecmul(m, mask, 0, l, 0, l, 0) *)
Definition mask_mul (m : Z) (mask l : list T) : option (list T) :=
  for_ 0 m (fun i l => do a <- aget mask i; do b <- aget l i; aput l i (mul a b)) l.

Variables (N : nat) (d : ndims).
(** dims->f[stage]: the arrays have N+1 entries *)
Definition dim (f : sdims -> Z) (stage : Z) : option Z :=
  if (0 <=? stage) && (stage <=? Z.of_nat N) then Some (f (d (Z.to_nat stage))) else None.
Definition dsum (f g : Z -> option Z) (stage : Z) : option Z := do a <- f stage; do b <- g stage; Some (a + b).
Definition twice (f : Z -> option Z) (stage : Z) : option Z := do a <- f stage; Some (2 * a).
Definition zero (_ : Z) : option Z := Some 0.

(** the loops of ocp_nlp_get_all *)
Definition get_loop (last : Z) (size off : Z -> option Z) (L : list (list T)) (value : list T) : option (list T) :=
  do r <- for_ 0 last (fun stage '(value, tmp_offset) =>
            do tmp_int <- size stage; do xi <- off stage; do vec <- aget L stage;
            do value <- copy tmp_int vec xi value tmp_offset; Some (value, tmp_offset + tmp_int)) (value, 0);
  Some (fst r).
(** :1914-2015 *)
Definition get_all (s : store) (f : field) (value : list T) : option (list T) :=
  let n := Z.of_nat N in
  match f with
  | Fx => get_loop (n + 1) (dim nx) (dim nu) (ux s) value
  | Fu => get_loop n (dim nu) zero (ux s) value
  | Fsl => get_loop (n + 1) (dim ns) (dsum (dim nu) (dim nx)) (ux s) value
  | Fsu => get_loop (n + 1) (dim ns) (dsum (dsum (dim nu) (dim nx)) (dim ns)) (ux s) value
  | Fs => get_loop (n + 1) (twice (dim ns)) (dsum (dim nu) (dim nx)) (ux s) value
  | Fz => get_loop n (dim nz) zero (zz s) value
  | Fpi => get_loop n (fun stage => dim nx (stage + 1)) zero (pi s) value
  | Flam => get_loop (n + 1) (twice (dim ni)) zero (lam s) value
  | Fp => get_loop (n + 1) (dim np) zero (pv s) value
  end.
(** the loops of ocp_nlp_set_all; [post] is what follows the copy *)
Definition set_loop (last : Z) (size off : Z -> option Z) (post : Z -> Z -> list T -> option (list T)) (L : list (list T)) (value : list T) : option (list (list T)) :=
  do r <- for_ 0 last (fun stage '(L, tmp_offset) =>
            do tmp_int <- size stage; do xi <- off stage; do vec <- aget L stage;
            do vec <- copy tmp_int value tmp_offset vec xi; do vec <- post stage tmp_int vec;
            do L <- aput L stage vec; Some (L, tmp_offset + tmp_int)) (L, 0);
  Some (fst r).
Definition nopost (_ _ : Z) (l : list T) : option (list T) := Some l.
Definition lampost (s : store) (stage m : Z) (l : list T) : option (list T) := do mask <- aget (dmask s) stage; mask_mul m mask l.
(** :2018-2117 *)
Definition set_all (s : store) (f : field) (value : list T) : option store :=
  let n := Z.of_nat N in
  let st b last size off post := do L <- set_loop last size off post (getb s b) value; Some (putb s b L) in
  match f with
  | Fx => st Bux (n + 1) (dim nx) (dim nu) nopost
  | Fu => st Bux n (dim nu) zero nopost
  | Fsl => st Bux (n + 1) (dim ns) (dsum (dim nx) (dim nu)) nopost
  | Fsu => st Bux (n + 1) (dim ns) (dsum (dsum (dim nx) (dim nu)) (dim ns)) nopost
  | Fs => st Bux (n + 1) (twice (dim ns)) (dsum (dim nx) (dim nu)) nopost
  | Fz => st Bz n (dim nz) zero nopost
  | Fpi => st Bpi n (fun stage => dim nx (stage + 1)) zero nopost
  | Flam => st Blam (n + 1) (twice (dim ni)) zero (lampost s)
  | Fp => st Bp (n + 1) (dim np) zero nopost
  end.

(** one stage *)
Definition get_stage (size off : Z -> option Z) (L : list (list T)) (stage : Z) (value : list T) : option (list T) :=
  do m <- size stage; do xi <- off stage; do vec <- aget L stage; copy m vec xi value 0.
(** ocp_nlp_out_get, :695-745; [None] for the fields it does not know *)
Definition out_get (s : store) (stage : Z) (f : field) (value : list T) : option (list T) :=
  match f with
  | Fx => get_stage (dim nx) (dim nu) (ux s) stage value
  | Fu => get_stage (dim nu) zero (ux s) stage value
  | Fsl => get_stage (dim ns) (dsum (dim nu) (dim nx)) (ux s) stage value
  | Fsu => get_stage (dim ns) (dsum (dsum (dim nu) (dim nx)) (dim ns)) (ux s) stage value
  | Fz => get_stage (dim nz) zero (zz s) stage value
  | Fpi => get_stage (fun stage => dim nx (stage + 1)) zero (pi s) stage value
  | Flam => get_stage (twice (dim ni)) zero (lam s) stage value
  | Fs | Fp => None
  end.
Definition set_stage (size off : Z -> option Z) (post : Z -> Z -> list T -> option (list T)) (L : list (list T)) (stage : Z) (value : list T) : option (list (list T)) :=
  do m <- size stage; do xi <- off stage; do vec <- aget L stage; do vec <- copy m value 0 vec xi; do vec <- post stage m vec; aput L stage vec.
(** ocp_nlp_out_set, :638-690 *)
Definition out_set (s : store) (stage : Z) (f : field) (value : list T) : option store :=
  let st b size off post := do L <- set_stage size off post (getb s b) stage value; Some (putb s b L) in
  match f with
  | Fx => st Bux (dim nx) (dim nu) nopost
  | Fu => st Bux (dim nu) zero nopost
  | Fsl => st Bux (dim ns) (dsum (dim nu) (dim nx)) nopost
  | Fsu => st Bux (dim ns) (dsum (dsum (dim nu) (dim nx)) (dim ns)) nopost
  | Fz => st Bz (dim nz) zero nopost
  | Fpi => st Bpi (fun stage => dim nx (stage + 1)) zero nopost
  | Flam => st Blam (twice (dim ni)) zero (lampost s)
  | Fs | Fp => None
  end.
(** ocp_nlp_dims_get_total_from_attr, :748-810 *)
Definition total_from_attr (t : totals) (f : field) : Z :=
  match f with
  | Fx => nx_total t | Fu => nu_total t | Fsl | Fsu => ns_total t | Fs => 2 * ns_total t | Fz => nz_total t
  | Fpi => nx_total t - nx (d 0%nat) | Flam => 2 * ni_total t | Fp => np_total t
  end.
End Iface.
Arguments store : clear implicits.
