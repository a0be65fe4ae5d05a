(** The DAQP interface, acados/dense_qp/dense_qp_daqp.c:478-900: the least-distance problem (LDP) assembled from a dense QP, and the
    solution of the QP recovered from its solution.

    BLASFEO's factorisation and triangular solves, sqrt, and DAQP itself (check_bounds, activate_constraints, ldp) are inputs; neither
    library is part of /repo.  DAQP_INF and the setting zero_tol are parameters.  daqp_check_bounds can also mark a row with
    equal bounds as an equality; only its return code is kept.  After an early return the partly updated memory is not modelled. *)
From Coq Require Import ZArith List Bool.
From Verif Require Import Arith Vec LinModel DenseModel QpoModel.
Open Scope nat_scope.

(** work->sense: the bits ACTIVE, LOWER, IMMUTABLE, SOFT, SLACK_FIXED *)
Record sense := mkSn { sn_act : bool; sn_low : bool; sn_imm : bool; sn_soft : bool; sn_fix : bool }.
Definition sn0 : sense := mkSn false false false false false.

Section Q.
Variable A : arith.
Notation T := (num A).
Notation vec := (nat -> T).
Notation mat := (nat -> nat -> T).
Variables (infty tol : T) (nsqrt : T -> T).   (* DAQP_INF, settings->zero_tol, sqrt *)
Variable potrf : mat -> mat.                  (* blasfeo_dpotrf_l *)
Variable trsm : mat -> mat -> mat.            (* blasfeo_dtrsm_llnn: solves L X = B *)
Variable trsv_n : mat -> vec -> vec.          (* blasfeo_dtrsv_lnn: solves L x = b *)
Variable trsv_t : mat -> vec -> vec.          (* blasfeo_dtrsv_ltn: solves L' x = b *)

(** dense_qp_daqp_memory and the fields of DAQPWorkspace that the interface reads or writes *)
Record dmem := mkDm { m_lo : vec; m_up : vec; m_idxs : nat -> nat; m_Zl : vec; m_Zu : vec; m_zl : vec; m_zu : vec; m_dls : vec; m_dus : vec;
  m_L : mat; m_F : mat; m_init : bool;
  w_M : mat; w_dup : vec; w_dlo : vec; w_v : vec; w_scal : vec; w_sense : nat -> sense; w_dls : vec; w_dus : vec; w_rls : vec; w_rus : vec }.

Definition is0 (a : T) : bool := nleb a n0 && nleb n0 a.
Definition mrows (d : ddims) : nat := dnb d + dng d + dne d.

(** the bounds of the rows before softening, :489-497, :569-617 *)
Definition d_lo (d : ddims) (q : dqp A) (m : dmem) : vec :=
  let nb := dnb d in let ng := dng d in
  let lo := wr nb ng (fun j => dq_d q (nb + j)) (m_lo m) in
  let lo := wr 0 nb (fun i => dq_d q i) lo in
  let lo := wr 0 nb (fun i => if is0 (dq_mask q i) then nopp infty else lo i) lo in
  let lo := wr nb ng (fun j => if is0 (dq_mask q (nb + j)) then nopp infty else lo (nb + j)) lo in
  wr (nb + ng) (dne d) (fun _ => nopp infty) lo.
Definition d_up (d : ddims) (q : dqp A) (m : dmem) : vec :=
  let nb := dnb d in let ng := dng d in
  let up := wr (nb + ng) (dne d) (dq_b q) (m_up m) in
  let up := wr nb ng (fun j => dq_d q (2 * nb + ng + j)) up in
  let up := wr nb ng (fun j => nopp (up (nb + j))) up in
  let up := wr 0 nb (fun i => nopp (dq_d q (nb + ng + i))) up in
  let up := wr 0 nb (fun i => if is0 (dq_mask q (i + ng + nb)) then infty else up i) up in
  wr nb ng (fun j => if is0 (dq_mask q (2 * nb + ng + j)) then infty else up (nb + j)) up.

(** the constraint matrix, one column per row, :554-566 *)
Definition d_cols (d : ddims) (q : dqp A) (F : mat) : mat :=
  let nv := dnv d in let nb := dnb d in let ng := dng d in
  let F := mwr nv nb (fun _ _ => n0) F in
  let F := loop nb (fun ii F => mset F (dq_idxb q ii) ii n1) F in
  let F := fun r c => if (r <? nv) && (nb <=? c) && (c <? nb + ng) then dq_C q r (c - nb) else F r c in
  fun r c => if (r <? nv) && (nb + ng <=? c) && (c <? nb + ng + dne d) then dq_A q (c - (nb + ng)) r else F r c.

(** the loop over the soft constraints, :619-659 *)
Record soft_st := mkSs { ss_lo : vec; ss_up : vec; ss_Zl : vec; ss_Zu : vec; ss_dls : vec; ss_dus : vec; ss_rls : vec; ss_rus : vec; ss_sense : nat -> sense }.
Definition sset (v : nat -> sense) (i : nat) (a : sense) : nat -> sense := fun j => if j =? i then a else v j.
Definition soft_step (act : bool) (idxs : nat -> nat) (zl zu dls dus : vec) (ii : nat) (s : soft_st) : soft_st :=
  let ix := idxs ii in
  let sn := if act then sset (ss_sense s) ix (mkSn false false (sn_imm (ss_sense s ix)) true false) else ss_sense s in
  let Zl := vset (ss_Zl s) ii (nmax (ncst 1 (-8)) (ss_Zl s ii)) in
  let Zu := vset (ss_Zu s) ii (nmax (ncst 1 (-8)) (ss_Zu s ii)) in
  let rl := vset (ss_rls s) ix (ndiv n1 (Zl ii)) in
  let ru := vset (ss_rus s) ix (ndiv n1 (Zu ii)) in
  let lo := vset (ss_lo s) ix (nadd (ss_lo s ix) (ndiv (zl ii) (Zl ii))) in
  let up := vset (ss_up s) ix (nsub (ss_up s ix) (ndiv (zu ii) (Zu ii))) in
  let dl := vset (ss_dls s) ix (nmax n0 (nadd (zl ii) (nmul (Zl ii) (dls ii)))) in
  let du := vset (ss_dus s) ix (nmax n0 (nadd (zu ii) (nmul (Zu ii) (dus ii)))) in
  let lo := vset lo ix (nsub (lo ix) (ndiv (dl ix) (Zl ii))) in
  let up := vset up ix (nadd (up ix) (ndiv (du ix) (Zu ii))) in
  mkSs lo up Zl Zu dl du rl ru sn.

(** normalisation of the rows, :666-695; None is the return of DAQP_EXIT_INFEASIBLE *)
Definition row_step (nv : nat) (lo up : vec) (ii : nat) (s : option ((nat -> sense) * vec * mat)) : option ((nat -> sense) * vec * mat) :=
  match s with
  | None => None
  | Some (sn, sc, F) =>
    let nrm := vsum nv (fun jj => nmul (F jj ii) (F jj ii)) in
    if nltb nrm tol then
      if (nltb (up ii) (nopp tol) || nltb tol (lo ii)) && negb (sn_imm (sn ii)) && negb (sn_soft (sn ii)) then None
      else Some (sset sn ii (mkSn false false true false false), vset sc ii n1, F)
    else
      let a := ndiv n1 (nsqrt nrm) in
      Some (sn, vset sc ii a, fun r c => if (r <? nv) && (c =? ii) then nmul a (F r c) else F r c)
  end.

(** the weights in normalised coordinates, :718-727 *)
Definition norm_step (idxs : nat -> nat) (sc : vec) (ii : nat) (s : vec * vec * vec * vec) : vec * vec * vec * vec :=
  let '(dl, du, rl, ru) := s in let ix := idxs ii in
  (vset dl ix (ndiv (dl ix) (sc ix)), vset du ix (ndiv (du ix) (sc ix)), vset rl ix (nmul (rl ix) (nmul (sc ix) (sc ix))), vset ru ix (nmul (ru ix) (nmul (sc ix) (sc ix)))).

(** dense_qp_daqp_update_memory, :517-745; the oracles are the return codes of daqp_check_bounds and daqp_activate_constraints *)
Definition daqp_update (check activate : Z) (warm : Z) (d : ddims) (q : dqp A) (m : dmem) : Z + dmem :=
  let nv := dnv d in let nb := dnb d in let ng := dng d in let ns := dns d in let mm := mrows d in
  let upd := negb (warm =? 2)%Z || negb (m_init m) in
  let sn := if upd then (fun j => if j <? mm then (if (warm =? 0)%Z then sn0 else mkSn (sn_act (w_sense m j)) (sn_low (w_sense m j)) false false false) else w_sense m j) else w_sense m in
  let idxs := if 0 <? ns then get_idxs d q (m_idxs m) else m_idxs m in
  let Zl := wr 0 ns (dq_Z q) (m_Zl m) in
  let Zu := wr 0 ns (fun i => dq_Z q (ns + i)) (m_Zu m) in
  let zl := wr 0 ns (fun i => dq_g q (nv + i)) (m_zl m) in
  let zu := wr 0 ns (fun i => dq_g q (nv + ns + i)) (m_zu m) in
  let dls := wr 0 ns (fun i => dq_d q (2 * nb + 2 * ng + i)) (m_dls m) in
  let dus := wr 0 ns (fun i => dq_d q (2 * nb + 2 * ng + ns + i)) (m_dus m) in
  let L := if upd then potrf (dq_H q) else m_L m in
  let F := if upd then trsm L (d_cols d q (m_F m)) else m_F m in
  let sn := if upd then (fun j => if (nb + ng <=? j) && (j <? mm) then mkSn true false true false false else sn j) else sn in
  let s := loop ns (soft_step upd idxs zl zu dls dus) (mkSs (d_lo d q m) (d_up d q m) Zl Zu (w_dls m) (w_dus m) (w_rls m) (w_rus m) sn) in
  if (check <? 0)%Z then inl check else
  match (if upd then loop mm (row_step nv (ss_lo s) (ss_up s)) (Some (ss_sense s, w_scal m, F)) else Some (ss_sense s, w_scal m, F)) with
  | None => inl (-1)%Z
  | Some (sn, sc, F) =>
    let M := if upd then F else w_M m in
    let v := trsv_n L (dq_g q) in
    let dup := wr 0 mm (fun j => nadd (nmul (ss_up s j) (sc j)) (mvt nv F v j)) (w_dup m) in
    let dlo := wr 0 mm (fun j => nadd (nmul (ss_lo s j) (sc j)) (mvt nv F v j)) (w_dlo m) in
    let '(dl, du, rl, ru) := loop ns (norm_step idxs sc) (ss_dls s, ss_dus s, ss_rls s, ss_rus s) in
    if ((upd || (0 <? check)%Z) && (activate <? 0)%Z)%bool then inl activate else
    inr (mkDm (ss_lo s) (ss_up s) idxs (ss_Zl s) (ss_Zu s) zl zu dls dus L F true M dup dlo v sc sn dl du rl ru)
  end.

(** dense_qp_daqp_ldp_to_qp_solution, :752-760 *)
Definition ldp_to_qp (m : dmem) (u : vec) : vec := trsv_t (m_L m) (fun i => nsub (u i) (w_v m i)).
(** dense_qp_daqp_fill_output, :764-836: the multipliers of the working set, :781-803 *)
Definition ws_step (d : ddims) (sc : vec) (s : vec * vec) (e : nat * T) : vec * vec :=
  let '(lam, pi) := s in let j := fst e in let l := nmul (snd e) (sc j) in
  if j <? dnb d + dng d then (if nleb n0 l then vset lam (dnb d + dng d + j) l else vset lam j (nopp l), pi)
  else (lam, vset pi (j - dnb d - dng d) l).
(** the slacks, :805-835 *)
Record fill_st := mkFs { fs_lo : vec; fs_up : vec; fs_v : vec; fs_lam : vec }.
Definition slack_step (d : ddims) (q : dqp A) (m : dmem) (i : nat) (s : fill_st) : fill_st :=
  let nv := dnv d in let nb := dnb d in let ng := dng d in let ns := dns d in
  let ix := m_idxs m i in
  let lo := vset (fs_lo s) ix (nsub (fs_lo s ix) (ndiv (nsub (m_zl m i) (nmul (w_dls m ix) (w_scal m ix))) (m_Zl m i))) in
  let up := vset (fs_up s) ix (nadd (fs_up s ix) (ndiv (nsub (m_zu m i) (nmul (w_dus m ix) (w_scal m ix))) (m_Zu m i))) in
  let c := if ix <? nb then fs_v s (dq_idxb q ix) else mvt nv (dq_C q) (fs_v s) (ix - nb) in
  let v := vset (fs_v s) (nv + i) (nmax (m_dls m i) (nsub (lo ix) c)) in
  let lam := vset (fs_lam s) (2 * (nb + ng) + i) (nsub (nadd (nmul (m_Zl m i) (v (nv + i))) (m_zl m i)) (fs_lam s ix)) in
  let v := vset v (nv + ns + i) (nmax (m_dus m i) (nsub c (up ix))) in
  let lam := vset lam (2 * (nb + ng) + ns + i) (nsub (nadd (nmul (m_Zu m i) (v (nv + ns + i))) (m_zu m i)) (lam (ix + nb + ng))) in
  mkFs lo up v lam.
Definition daqp_out (d : ddims) (q : dqp A) (m : dmem) (u : vec) (ws : list (nat * T)) (out : dsol A) : dsol A :=
  let v := wr 0 (dnv d) (ldp_to_qp m u) (ds_v out) in
  let lam := wr 0 (2 * dnb d + 2 * dng d + 2 * dns d) (fun _ => n0) (ds_lam out) in
  let '(lam, pi) := fold_left (ws_step d (w_scal m)) ws (lam, ds_pi out) in
  let s := loop (dns d) (slack_step d q m) (mkFs (m_lo m) (m_up m) v lam) in
  mkDs (fs_v s) pi (fs_lam s) (ds_t out).

(** exit flags of DAQP that the interface distinguishes; negative ones stop update_memory early *)
Inductive dexit := D_OPTIMAL | D_SOFT_OPTIMAL | D_ITERLIMIT | D_INFEASIBLE | D_UNBOUNDED | D_OTHER (code : Z).
(** :885-895 *)
Definition daqp_status (e : dexit) : Z :=
  match e with D_OPTIMAL | D_SOFT_OPTIMAL => 0 | D_ITERLIMIT => 2 | D_INFEASIBLE => 9 | D_UNBOUNDED => 6 | D_OTHER _ => -1 end%Z.
(** dense_qp_daqp, :840-900; [ldp] is the answer of daqp_ldp: exit flag, u, working set with multipliers *)
Definition daqp_run (check activate warm : Z) (ldp : dmem -> dexit * vec * list (nat * T)) (d : ddims) (q : dqp A) (m : dmem) (out : dsol A) : Z * dsol A * option dmem :=
  match daqp_update check activate warm d q m with
  | inl c => (c, out, None)
  | inr m' => let '(e, u, ws) := ldp m' in (daqp_status e, daqp_out d q m' u ws out, Some m')
  end.
End Q.
Arguments mkDm {A}. Arguments m_lo {A}. Arguments m_up {A}. Arguments m_idxs {A}. Arguments m_Zl {A}. Arguments m_Zu {A}. Arguments m_zl {A}. Arguments m_zu {A}. Arguments m_dls {A}. Arguments m_dus {A}.
Arguments m_L {A}. Arguments m_F {A}. Arguments m_init {A}. Arguments w_M {A}. Arguments w_dup {A}. Arguments w_dlo {A}. Arguments w_v {A}. Arguments w_scal {A}. Arguments w_sense {A}.
Arguments w_dls {A}. Arguments w_dus {A}. Arguments w_rls {A}. Arguments w_rus {A}. Arguments is0 {A}. Arguments d_lo {A}. Arguments d_up {A}. Arguments d_cols {A}.
Arguments mkSs {A}. Arguments ss_lo {A}. Arguments ss_up {A}. Arguments ss_Zl {A}. Arguments ss_Zu {A}. Arguments ss_dls {A}. Arguments ss_dus {A}. Arguments ss_rls {A}. Arguments ss_rus {A}. Arguments ss_sense {A}.
Arguments soft_step {A}. Arguments row_step {A}. Arguments norm_step {A}. Arguments daqp_update {A}. Arguments ldp_to_qp {A}. Arguments ws_step {A}. Arguments mkFs {A}. Arguments fs_lo {A}. Arguments fs_up {A}. Arguments fs_v {A}. Arguments fs_lam {A}.
Arguments slack_step {A}. Arguments daqp_out {A}. Arguments daqp_run {A}.
