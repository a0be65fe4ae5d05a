(** The Clarabel interface: acados/ocp_qp/ocp_qp_clarabel.c:112-745, :906-955, :1018-1200.

    The doubles of the memory are one array: ocp_qp_clarabel_memory_assign (:906-955) places b, P_nzval and A_nzval behind each
    other, and one loop of update_bounds leaves b.  [arena] starts at b.  Row numbers and column pointers are separate lists, as in
    CscModel.  The solver object, the cones (first con_start rows zero cone, the others nonnegative) and the settings are reduced
    to whether a solver has been built. *)
From Coq Require Import ZArith List Bool Arith.
From Verif Require Import Arr Arith QpsModel CscModel OsqpModel.
Import ListNotations.
Open Scope nat_scope.

Section S.
Variable A : arith.
Notation T := (num A).

Section Q.
Variable d : qdims.
Variable q : qp A.
Notation N := (qN d). Notation nx := (qnx d). Notation nu := (qnu d). Notation nb := (qnb d). Notation ng := (qng d). Notation ns := (qns d).
Notation rev := (q_rev q).

(** acados_clarabel_num_constr, ocp_qp_clarabel.c:125-147 *)
Definition c_constr : nat := nsum (S N) (fun k => 2 * nb k + 2 * ng k + 2 * ns k) + nsum N (fun k => nx (S k)).
(** acados_clarabel_nnzmax_P, ocp_qp_clarabel.c:151-167 *)
Definition c_nnzmax_P : nat := nsum (S N) (fun k => (nu k + nx k) * (nu k + nx k + 1) / 2 + 2 * ns k).
(** acados_clarabel_nnzmax_A, ocp_qp_clarabel.c:171-200 *)
Definition c_nnzmax_A : nat :=
  nsum (S N) (fun k => 2 * nb k + 2 * ng k * nx k + 2 * ng k * nu k + 2 * (nb k + ng k) * 2 * ns k + 2 * ns k)
  + nsum N (fun k => nx (S k) * nx k + nx (S k) * nu k + nx (S k)).

(** row offsets, ocp_qp_clarabel.c:325-338, :476-478 *)
Definition c_off_con (k : nat) : nat := nsum k (fun k => 2 * nb k + 2 * ng k).
Definition c_slk : nat := c_off_con (S N) + con_start d.
Definition c_base (k : nat) : nat := con_start d + c_off_con k.
(** bound pair, then D or C: all lower rows, all upper rows; ocp_qp_clarabel.c:366-385, :411-430 and :519-543, :561-582 *)
Definition c_con_rows (k v : nat) : list nat :=
  let ib := bound_of d q k v in
  (if ib <? nb k then [c_base k + ib; c_base k + nb k + ng k + ib] else []) ++
  map (fun ii => c_base k + nb k + ii) (seq 0 (ng k)) ++ map (fun ii => c_base k + 2 * nb k + ng k + ii) (seq 0 (ng k)).
Definition c_con_vals (k v : nat) : list T :=
  let ib := bound_of d q k v in
  (if ib <? nb k then [nopp n1; n1] else []) ++
  map (fun ii => nopp (q_DC q k v ii)) (seq 0 (ng k)) ++ map (fun ii => q_DC q k v ii) (seq 0 (ng k)).
(** columns of controls, states, lower and upper slacks, ocp_qp_clarabel.c:347-474 and :511-622 *)
Definition c_u_rows (k jj : nat) : list nat := dyn_rows d k ++ c_con_rows k jj.
Definition c_u_vals (k jj : nat) : list T := dyn_vals d q k jj ++ c_con_vals k jj.
Definition c_x_rows (k jj : nat) : list nat := eye_rows d k jj ++ dyn_rows d k ++ c_con_rows k (nu k + jj).
Definition c_x_vals (k jj : nat) : list T := eye_vals k ++ dyn_vals d q k (nu k + jj) ++ c_con_vals k (nu k + jj).
Definition c_sl_rows (k jj : nat) : list nat :=
  flat_map (fun ii => if (rev k ii =? Z.of_nat jj)%Z then [c_base k + ii] else []) (seq 0 (nb k + ng k)) ++ [c_slk + off_slk d k + jj].
Definition c_su_rows (k jj : nat) : list nat :=
  flat_map (fun ii => if (rev k ii =? Z.of_nat jj)%Z then [c_base k + nb k + ng k + ii] else []) (seq 0 (nb k + ng k)) ++ [c_slk + off_slk d k + ns k + jj].
Definition c_s_vals (k jj : nat) : list T :=
  flat_map (fun ii => if (rev k ii =? Z.of_nat jj)%Z then [nopp n1] else []) (seq 0 (nb k + ng k)) ++ [nopp n1].
Definition c_rows : list (list nat) := stages d (fun k =>
  map (c_u_rows k) (seq 0 (nu k)) ++ map (c_x_rows k) (seq 0 (nx k)) ++ map (c_sl_rows k) (seq 0 (ns k)) ++ map (c_su_rows k) (seq 0 (ns k))).
Definition c_vals : list (list T) := stages d (fun k =>
  map (c_u_vals k) (seq 0 (nu k)) ++ map (c_x_vals k) (seq 0 (nx k)) ++ map (c_s_vals k) (seq 0 (ns k)) ++ map (c_s_vals k) (seq 0 (ns k))).

(** writing a list, unpacking a vector and flipping signs behind an offset *)
Definition put (a : nat -> T) (off : nat) (l : list T) : nat -> T :=
  fun i => if (off <=? i) && (i <? off + length l) then nth (i - off) l n0 else a i.
Definition unpack (a : nat -> T) (off n : nat) (v : nat -> T) : nat -> T :=
  fun i => if (off <=? i) && (i <? off + n) then v (i - off) else a i.
Definition flip (a : nat -> T) (off n : nat) : nat -> T :=
  fun i => if (off <=? i) && (i <? off + n) then nopp (a i) else a i.
(** update_bounds, ocp_qp_clarabel.c:630-683; the counter nn is off_dyn, c_base and c_slk + off_slk *)
Definition bounds_dyn (n : nat) (a : nat -> T) : nat -> T :=
  fold_left (fun a k => flip (unpack a (off_dyn d k) (nx (S k)) (q_b q k)) (off_dyn d k) (2 * nx (S k))) (seq 0 n) a.
Definition bounds_con (n : nat) (a : nat -> T) : nat -> T :=
  fold_left (fun a k =>
    let a1 := unpack a (c_base k) (nb k + ng k) (q_d q k) in
    let a2 := unpack a1 (c_base k + (nb k + ng k)) (nb k + ng k) (fun i => q_d q k (nb k + ng k + i)) in
    flip a2 (c_base k) (2 * nb k + 2 * ng k)) (seq 0 n) a.
Definition bounds_slk (n : nat) (a : nat -> T) : nat -> T :=
  fold_left (fun a k => flip (unpack a (c_slk + off_slk d k) (2 * ns k) (fun i => q_d q k (2 * nb k + 2 * ng k + i))) (c_slk + off_slk d k) (2 * ns k)) (seq 0 n) a.
Definition update_bounds (a : nat -> T) : nat -> T := bounds_slk (S N) (bounds_con (S N) (bounds_dyn N a)).
End Q.

(** ocp_qp_clarabel_memory, acados/ocp_qp/ocp_qp_clarabel.h *)
Record cmem := mkCM { c_built : bool; c_Pp : list nat; c_Pi : list nat; c_Ap : list nat; c_Ai : list nat; c_q : list T; arena : nat -> T }.

(** ocp_qp_clarabel_update_memory, ocp_qp_clarabel.c:727-742; first_run is an option *)
Definition c_update (d : qdims) (q : qp A) (first : bool) (m : cmem) : cmem :=
  let hr := hess_rows d in let cr := c_rows d q in
  let a1 := put (arena m) (c_constr d) (concat (hess_vals d q)) in
  let a2 := put a1 (c_constr d + c_nnzmax_P d) (concat (c_vals d q)) in
  mkCM (c_built m)
    (if first then over (ptrs 0 hr) (c_Pp m) else c_Pp m) (if first then over (concat hr) (c_Pi m) else c_Pi m)
    (if first then over (ptrs 0 cr) (c_Ap m) else c_Ap m) (if first then over (concat cr) (c_Ai m) else c_Ai m)
    (over (gradient d q) (c_q m)) (update_bounds d q a2).
(** the solver is updated or built, ocp_qp_clarabel.c:1136-1160; updating through a null pointer is undefined *)
Definition clarabel (d : qdims) (q : qp A) (first : bool) (m : cmem) : outcome (bool * cmem) :=
  let m1 := c_update d q first m in
  if first then Done (false, mkCM true (c_Pp m1) (c_Pi m1) (c_Ap m1) (c_Ai m1) (c_q m1) (arena m1))
  else if c_built m1 then Done (false, m1) else UB.

(** fill_in_qp_out, ocp_qp_clarabel.c:1018-1070 *)
Definition c_fill (d : qdims) (x z : nat -> T) (out : qsol A) : qsol A :=
  mkSol
    (fun k => if k <=? qN d then vset (qnx d k + qnu d k + 2 * qns d k) (hess_off d k) x (s_ux out k) else s_ux out k)
    (fun k => if k <? qN d then vset (qnx d (S k)) (off_dyn d k) z (s_pi out k) else s_pi out k)
    (fun k => if k <=? qN d then
        unpack (vset (2 * qnb d k + 2 * qng d k) (c_base d k) z (s_lam out k)) (2 * qnb d k + 2 * qng d k) (2 * qns d k) (fun i => z (c_slk d + off_slk d k + i))
      else s_lam out k).
End S.
Arguments c_con_rows {A}. Arguments c_con_vals {A}. Arguments c_u_rows {A}. Arguments c_u_vals {A}. Arguments c_x_rows {A}. Arguments c_x_vals {A}. Arguments c_sl_rows {A}. Arguments c_su_rows {A}. Arguments c_s_vals {A}.
Arguments c_rows {A}. Arguments c_vals {A}. Arguments put {A}. Arguments unpack {A}. Arguments flip {A}. Arguments bounds_dyn {A}. Arguments bounds_con {A}. Arguments bounds_slk {A}. Arguments update_bounds {A}.
Arguments c_built {A}. Arguments c_Pp {A}. Arguments c_Pi {A}. Arguments c_Ap {A}. Arguments c_Ai {A}. Arguments c_q {A}. Arguments arena {A}. Arguments mkCM {A}.
Arguments c_update {A}. Arguments clarabel {A}. Arguments c_fill {A}.
