(** Constraint data: setters, getters and activity masks.
    acados/ocp_nlp/ocp_nlp_constraints_bgh.c:319-385 (initial values), :388-672 (setters), :676-773 (getters), :1216-1272 (initialize);
    interfaces/acados_c/ocp_nlp_interface.c:531-543.
    Function pointers (the nl_constr fields) are not modelled. *)
From Coq Require Import ZArith List Bool.
From Verif Require Import FP Arr DimsModel IfaceModel CasadiModel.
Import ListNotations.
Open Scope Z_scope.

(** acados/utils/types.h: ACADOS_INFTY *)
Definition ACADOS_INFTY : double := fz2 10000000000 0.

Record bgh := mkB { bd : list double; bmask : list double; idxb : list Z; idxs : list Z; idxs_rev : list Z; idxe : list Z; DCt : list double; use_idxs_rev : bool }.
Inductive bfield := lbu | lbx | lg | lh | ubu | ubx | ug | uh | ls | us | lsbu | lsbx | lsg | lsh | usbu | usbx | usg | ush.
Inductive ifield := idxbu | idxbx | idxsbu | idxsbx | idxsg | idxsh | idxbue | idxbxe | idxge | idxhe | idxsrev.
Inductive setcall := SetB (f : bfield) (v : list double) | SetI (f : ifield) (v : list Z) | SetC (v : list double) | SetD (v : list double).

Section B.
Variable dm : cdims.
Let nx := dm cNx. Let nu := dm cNu. Let nb := dm cNb. Let nbx := dm cNbx. Let nbu := dm cNbu. Let ng := dm cNg. Let nh := dm cNh. Let ns := dm cNs.
Let nsbu := dm cNsbu. Let nsbx := dm cNsbx. Let nsg := dm cNsg. Let nsh := dm cNsh. Let nbue := dm cNbue. Let nbxe := dm cNbxe. Let nge := dm cNge. Let nhe := dm cNhe.

(** :388-397 update_mask_lower, :400-409 update_mask_upper *)
Definition update_mask (upper : bool) (size offset : Z) (d mask : list double) : option (list double) :=
  for_ 0 size (fun ii mask =>
    do x <- aget d (offset + ii);
    aput mask (offset + ii) (if (if upper then fge x ACADOS_INFTY else fle x (fopp ACADOS_INFTY)) then f0 else f1)) mask.
(** number of values, offset in d, and which mask update follows *)
Definition bound_args (f : bfield) : Z * Z * bool :=
  match f with
  | lbx => (nbx, nbu, false)
  | ubx => (nbx, nb + ng + nh + nbu, true)
  | lbu => (nbu, 0, false)
  | ubu => (nbu, nb + ng + nh, true)
  | lg => (ng, nb, false)
  | ug => (ng, 2 * nb + ng + nh, true)
  | lh => (nh, nb + ng, false)
  | uh => (nh, 2 * nb + 2 * ng + nh, true)
  | ls => (ns, 2 * nb + 2 * ng + 2 * nh, false)
  | us => (ns, 2 * nb + 2 * ng + 2 * nh + ns, false)
  | lsbu => (nsbu, 2 * nb + 2 * ng + 2 * nh, false)
  | usbu => (nsbu, 2 * nb + 2 * ng + 2 * nh + ns, false)
  | lsbx => (nsbx, 2 * nb + 2 * ng + 2 * nh + nsbu, false)
  | usbx => (nsbx, 2 * nb + 2 * ng + 2 * nh + ns + nsbu, false)
  | lsg => (nsg, 2 * nb + 2 * ng + 2 * nh + nsbu + nsbx, false)
  | usg => (nsg, 2 * nb + 2 * ng + 2 * nh + ns + nsbu + nsbx, false)
  | lsh => (nsh, 2 * nb + 2 * ng + 2 * nh + nsbu + nsbx + nsg, false)
  | ush => (nsh, 2 * nb + 2 * ng + 2 * nh + ns + nsbu + nsbx + nsg, false)
  end.
Definition set_bound (f : bfield) (v : list double) (m : bgh) : option bgh :=
  let '(size, offset, upper) := bound_args f in
  do d <- IfaceModel.copy size v 0 (bd m) offset;
  do mask <- update_mask upper size offset d (bmask m);
  Some (mkB d mask (idxb m) (idxs m) (idxs_rev m) (idxe m) (DCt m) (use_idxs_rev m)).
(** for (ii=0; ii < n; ii++) dst[o + ii] = add + value[ii]; *)
Definition set_idx (n o add : Z) (v dst : list Z) : option (list Z) :=
  for_ 0 n (fun ii dst => do k <- aget v ii; aput dst (o + ii) (add + k)) dst.
Definition set_index (f : ifield) (v : list Z) (m : bgh) : option bgh :=
  let b n o add := do l <- set_idx n o add v (idxb m); Some (mkB (bd m) (bmask m) l (idxs m) (idxs_rev m) (idxe m) (DCt m) (use_idxs_rev m)) in
  let s n o add := do l <- set_idx n o add v (idxs m); Some (mkB (bd m) (bmask m) (idxb m) l (idxs_rev m) (idxe m) (DCt m) (use_idxs_rev m)) in
  let e n o add := do l <- set_idx n o add v (idxe m); Some (mkB (bd m) (bmask m) (idxb m) (idxs m) (idxs_rev m) l (DCt m) (use_idxs_rev m)) in
  match f with
  | idxbx => b nbx nbu nu
  | idxbu => b nbu 0 0
  | idxsrev => do l <- set_idx (nb + ng + nh) 0 0 v (idxs_rev m); Some (mkB (bd m) (bmask m) (idxb m) (idxs m) l (idxe m) (DCt m) true)
  | idxsbu => s nsbu 0 0
  | idxsbx => s nsbx nsbu nbu
  | idxsg => s nsg (nsbu + nsbx) (nbu + nbx)
  | idxsh => s nsh (nsbu + nsbx + nsg) (nbu + nbx + ng)
  | idxbue => e nbue 0 0
  | idxbxe => e nbxe nbue nbu
  | idxge => e nge (nbue + nbxe) (nbu + nbx)
  | idxhe => e nhe (nbue + nbxe + nge) (nbu + nbx + ng)
  end.
(** blasfeo_pack_tran_dmat(m, n, A, lda, B, bi, bj): B[bi+j][bj+i] = A[i + lda*j] *)
Definition pack_tran (m n : Z) (A : list double) (lda : Z) (B : list double) (bi bj : Z) : option (list double) :=
  for_ 0 n (fun j B => for_ 0 m (fun i B => do v <- aget A (i + lda * j); do a <- acc_dmat (nu + nx) ng bi bj j i; aput B a v) B) B.
Definition put_DCt (m : bgh) (D : list double) : bgh := mkB (bd m) (bmask m) (idxb m) (idxs m) (idxs_rev m) (idxe m) D (use_idxs_rev m).
(** ocp_nlp_constraints_bgh_model_set *)
Definition model_set (c : setcall) (m : bgh) : option bgh :=
  match c with
  | SetB f v => set_bound f v m
  | SetI f v => set_index f v m
  | SetC v => do D <- pack_tran ng nx v ng (DCt m) nu 0; Some (put_DCt m D)
  | SetD v => do D <- pack_tran ng nu v ng (DCt m) 0 0; Some (put_DCt m D)
  end.

(** ocp_nlp_constraints_bgh_model_get; [None] also for fields that it does not know *)
Definition get_bound (f : bfield) (m : bgh) (value : list double) : option (list double) :=
  match f with
  | lbx => IfaceModel.copy nbx (bd m) nbu value 0
  | ubx => IfaceModel.copy nbx (bd m) (nb + ng + nh + nbu) value 0
  | lbu => IfaceModel.copy nbu (bd m) 0 value 0
  | ubu => IfaceModel.copy nbu (bd m) (nb + ng + nh) value 0
  | lg => IfaceModel.copy ng (bd m) nb value 0
  | ug => IfaceModel.copy ng (bd m) (nb + ng + nh + nb) value 0
  | lh => IfaceModel.copy nh (bd m) (nb + ng) value 0
  | uh => IfaceModel.copy nh (bd m) (nb + ng + nh + nb + ng) value 0
  | _ => None
  end.
Definition get_idxbx (m : bgh) (value : list Z) : option (list Z) := for_ 0 nbx (fun ii value => do k <- aget (idxb m) (ii + nbu); aput value ii (k - nu)) value.
Definition get_idxbu (m : bgh) (value : list Z) : option (list Z) := for_ 0 nbu (fun ii value => do k <- aget (idxb m) ii; aput value ii k) value.
Definition get_idxs (m : bgh) (value : list Z) : option (list Z) := for_ 0 ns (fun ii value => do k <- aget (idxs m) ii; aput value ii k) value.
(** blasfeo_unpack_tran_dmat(m, n, A, ai, aj, B, ldb): B[j + ldb*i] = A[ai+i][aj+j] *)
Definition unpack_tran (m n : Z) (A : list double) (ai aj : Z) (B : list double) (ldb : Z) : option (list double) :=
  for_ 0 m (fun i B => for_ 0 n (fun j B => do a <- acc_dmat (nu + nx) ng ai aj i j; do v <- aget A a; aput B (j + ldb * i) v) B) B.
Definition get_C (m : bgh) (value : list double) : option (list double) := unpack_tran nx ng (DCt m) nu 0 value ng.
Definition get_D (m : bgh) (value : list double) : option (list double) := unpack_tran nu ng (DCt m) 0 0 value ng.

(** ocp_nlp_constraints_model_set: the module, then the multipliers; the state is the module data and out->lam of the stage *)
Definition constraints_model_set (ni : Z) (c : setcall) (s : bgh * list double) : option (bgh * list double) :=
  let '(m, lam) := s in
  do m <- model_set c m; do lam <- mask_mul fmul (2 * ni) (bmask m) lam; Some (m, lam).
Fixpoint set_history (ni : Z) (h : list setcall) (s : bgh * list double) : option (bgh * list double) :=
  match h with nil => Some s | c :: r => do s <- constraints_model_set ni c s; set_history ni r s end.

(** ** ocp_nlp_constraints_bgh_initialize: the index data of the QP; DCt is copied as well (:1266) *)
Record qpidx := mkQI { q_idxb : list Z; q_idxs_rev : list Z; q_idxe : list Z }.
Definition initialize (m : bgh) (q : qpidx) : option qpidx :=
  do b <- for_ 0 nb (fun j l => do k <- aget (idxb m) j; aput l j k) (q_idxb q);
  do r <- (if use_idxs_rev m then for_ 0 (nb + ng + nh) (fun j l => do k <- aget (idxs_rev m) j; aput l j k) (q_idxs_rev q)
           else for_ 0 ns (fun j l => do k <- aget (idxs m) j; aput l k j) (q_idxs_rev q));
  do e <- for_ 0 (nbue + nbxe + nge + nhe) (fun j l => do k <- aget (idxe m) j; aput l j k) (q_idxe q);
  Some (mkQI b r e).
(** ocp_nlp_constraints_bgh_precompute, :1676-1717: whether it returns *)
Definition precompute_accepts (m : bgh) : bool :=
  if use_idxs_rev m then negb (0 <? dm cNsDerived) else dm cNsDerived =? ns.
End B.
