(** The OSQP interface: acados/ocp_qp/ocp_qp_osqp.c:227-950, :1628-1712.

    OSQP_INFTY is a bound of its own kind ([PInf], [MInf]); osqp_solve, timers and settings are left out, and so is the copy of
    the data that osqp_init_data and osqp_update_P_A make.  The arrays l and u are functions of the index: the interface stores
    into them behind a counter, [stores] lists the stores in the order in which they are made. *)
From Coq Require Import ZArith List Bool Arith.
From Verif Require Import Arith QpsModel CscModel.
Import ListNotations.

Section S.
Variable A : arith.
Notation T := (num A).

Inductive ebound := MInf | Fin (x : T) | PInf.

Section Q.
Variable d : qdims.
Variable q : qp A.
Notation N := (qN d). Notation nx := (qnx d). Notation nu := (qnu d). Notation nb := (qnb d). Notation ng := (qng d). Notation ns := (qns d).
Notation rev := (q_rev q).

(** acados_osqp_num_constr, ocp_qp_osqp.c:248-274 *)
Definition num_constr : nat :=
  nsum (S N) (fun k => nb k + ng k + ns k + 2 * ns k) + nsum N (fun k => nx (S k)).
(** acados_osqp_nnzmax_P, ocp_qp_osqp.c:278-296 *)
Definition nnzmax_P : nat := nsum (S N) (fun k => nx k * nx k + nu k * nu k + 2 * nx k * nu k + 2 * ns k).
(** acados_osqp_nnzmax_A, ocp_qp_osqp.c:300-331 *)
Definition nnzmax_A : nat :=
  nsum (S N) (fun k => nb k + ng k * nx k + ng k * nu k + ns k * (nu k + nx k) + (nb k + ng k) * 2 * ns k + 2 * ns k)
  + nsum N (fun k => nx (S k) * nx k + nx (S k) * nu k + nx (S k)).

(** ocp_qp_osqp.c:449-463, :674-676 *)
Definition off_con (k : nat) : nat := nsum k (fun k => nb k + ng k + ns k).
Definition off_slk (k : nat) : nat := nsum k (fun k => 2 * ns k).
Definition slk_start : nat := off_con (S N) + con_start d.
Definition base (k : nat) : nat := con_start d + off_con k.

(** in->idxs_rev[kk][ii] >= 0 *)
Definition soft (k ii : nat) : bool := (0 <=? rev k ii)%Z.
(** number of softened constraints before ii: itmp of ocp_qp_osqp.c:518-526; nsb of :470-477 *)
Definition packed (k n : nat) : nat := nsum n (fun ii => if soft k ii then 1 else 0).
Definition nsb (k : nat) : nat := packed k (nb k).

(** replicated softened general constraints, ocp_qp_osqp.c:532-544, :609-621 *)
Fixpoint repl_rows (k ii itmp fuel : nat) : list nat :=
  match fuel with O => [] | S f =>
    if soft k (nb k + ii) then (base k + nb k + ng k + nsb k + itmp) :: repl_rows k (S ii) (S itmp) f
    else repl_rows k (S ii) itmp f end.
(** bound, D or C, replicated bound, replicated D or C for variable v of the stage, ocp_qp_osqp.c:494-545, :571-622 *)
Definition con_rows (k v : nat) : list nat :=
  let ib := bound_of d q k v in
  (if ib <? nb k then [base k + ib] else []) ++
  map (fun ii => base k + nb k + ii) (seq 0 (ng k)) ++
  (if ib <? nb k then if soft k ib then [base k + nb k + ng k + packed k ib] else [] else []) ++
  repl_rows k 0 0 (ng k).
(** the corresponding values, ocp_qp_osqp.c:715-748, :770-803 *)
Definition con_vals (k v : nat) : list T :=
  let ib := bound_of d q k v in
  (if ib <? nb k then [n1] else []) ++
  map (fun ii => q_DC q k v ii) (seq 0 (ng k)) ++
  (if ib <? nb k then if soft k ib then [n1] else [] else []) ++
  flat_map (fun ii => if soft k (nb k + ii) then [q_DC q k v ii] else []) (seq 0 (ng k)).

(** columns of a control and of a state, ocp_qp_osqp.c:479-547, :549-624 and :706-750, :752-805 *)
Definition u_rows (k jj : nat) : list nat := dyn_rows d k ++ con_rows k jj.
Definition u_vals (k jj : nat) : list T := dyn_vals d q k jj ++ con_vals k jj.
Definition x_rows (k jj : nat) : list nat := eye_rows d k jj ++ dyn_rows d k ++ con_rows k (nu k + jj).
Definition x_vals (k jj : nat) : list T := eye_vals k ++ dyn_vals d q k (nu k + jj) ++ con_vals k (nu k + jj).

(** slacks of lower inequalities, ocp_qp_osqp.c:626-645 and :807-826 *)
Definition sl_rows (k jj : nat) : list nat :=
  flat_map (fun ii => if (rev k ii =? Z.of_nat jj)%Z then [base k + ii] else []) (seq 0 (nb k + ng k)) ++
  [slk_start + off_slk k + jj].
Definition sl_vals (k jj : nat) : list T :=
  flat_map (fun ii => if (rev k ii =? Z.of_nat jj)%Z then [n1] else []) (seq 0 (nb k + ng k)) ++ [n1].
(** slacks of upper inequalities, ocp_qp_osqp.c:647-672 and :828-847 *)
Fixpoint up_rows (k jj ii itmp fuel : nat) : list nat :=
  match fuel with O => [] | S f =>
    (if (rev k ii =? Z.of_nat jj)%Z then [base k + nb k + ng k + itmp] else []) ++
    up_rows k jj (S ii) (if soft k ii then S itmp else itmp) f end.
Definition su_rows (k jj : nat) : list nat := up_rows k jj 0 0 (nb k + ng k) ++ [slk_start + off_slk k + ns k + jj].
Definition su_vals (k jj : nat) : list T :=
  flat_map (fun ii => if (rev k ii =? Z.of_nat jj)%Z then [nopp n1] else []) (seq 0 (nb k + ng k)) ++ [n1].

(** update_constraints_matrix_structure, ocp_qp_osqp.c:436-681; update_constraints_matrix_data, :686-850 *)
Definition con_cols_rows : list (list nat) := stages d (fun k =>
  map (u_rows k) (seq 0 (nu k)) ++ map (x_rows k) (seq 0 (nx k)) ++ map (sl_rows k) (seq 0 (ns k)) ++ map (su_rows k) (seq 0 (ns k))).
Definition con_cols_vals : list (list T) := stages d (fun k =>
  map (u_vals k) (seq 0 (nu k)) ++ map (x_vals k) (seq 0 (nx k)) ++ map (sl_vals k) (seq 0 (ns k)) ++ map (su_vals k) (seq 0 (ns k))).

(** update_bounds, ocp_qp_osqp.c:854-929.  l first holds b and is then negated in place; only the final value is kept. *)
Definition stages_dyn {X} (f : nat -> list X) : list X := flat_map f (seq 0 N).
Definition stores_l : list (nat * ebound) :=
  stages_dyn (fun k => map (fun ii => (off_dyn d k + ii, Fin (nopp (q_b q k ii)))) (seq 0 (nx (S k)))) ++
  stages d (fun k => map (fun ii => (base k + ii, Fin (q_d q k ii))) (seq 0 (nb k + ng k)) ++
                     map (fun ii => (base k + nb k + ng k + ii, MInf)) (seq 0 (ns k))) ++
  stages d (fun k => map (fun ii => (slk_start + off_slk k + ii, Fin (q_d q k (2 * nb k + 2 * ng k + ii)))) (seq 0 (2 * ns k))).
Fixpoint upper_stores (k ii itmp fuel : nat) : list (nat * ebound) :=
  match fuel with O => [] | S f =>
    let ub := Fin (nopp (q_d q k (nb k + ng k + ii))) in
    if (rev k ii =? -1)%Z then (base k + ii, ub) :: upper_stores k (S ii) itmp f
    else (base k + ii, PInf) :: (base k + nb k + ng k + itmp, ub) :: upper_stores k (S ii) (S itmp) f end.
Definition stores_u : list (nat * ebound) :=
  stages_dyn (fun k => map (fun ii => (off_dyn d k + ii, Fin (nopp (q_b q k ii)))) (seq 0 (nx (S k)))) ++
  stages d (fun k => upper_stores k 0 0 (nb k + ng k)) ++
  stages d (fun k => map (fun ii => (slk_start + off_slk k + ii, PInf)) (seq 0 (2 * ns k))).
End Q.

Definition store {X} (a : nat -> X) (w : list (nat * X)) : nat -> X :=
  fold_left (fun a p => fun i => if i =? fst p then snd p else a i) w a.

(** ocp_qp_osqp_memory, acados/ocp_qp/ocp_qp_osqp.h:61-97 *)
Record omem := mkOM { first_run : bool;
  P_p : list nat; P_i : list nat; P_x : list T; A_p : list nat; A_i : list nat; A_x : list T;
  lin_q : list T; lb : nat -> ebound; ub : nat -> ebound }.
(** new values over the beginning of an array *)
Definition over {X} (new old : list X) : list X := new ++ skipn (length new) old.

(** ocp_qp_osqp_update_memory, ocp_qp_osqp.c:933-949; ocp_qp_osqp clears first_run afterwards, :1756 *)
Definition update_memory (d : qdims) (q : qp A) (m : omem) : omem :=
  let hr := hess_rows d in let cr := con_cols_rows d q in
  mkOM false
    (if first_run m then over (ptrs 0 hr) (P_p m) else P_p m)
    (if first_run m then over (concat hr) (P_i m) else P_i m)
    (over (concat (hess_vals d q)) (P_x m))
    (if first_run m then over (ptrs 0 cr) (A_p m) else A_p m)
    (if first_run m then over (concat cr) (A_i m) else A_i m)
    (over (concat (con_cols_vals d q)) (A_x m))
    (over (gradient d q) (lin_q m))
    (store (lb m) (stores_l d q)) (store (ub m) (stores_u d q)).

(** fill_in_qp_out, ocp_qp_osqp.c:1628-1712 *)
Section F.
Variable d : qdims.
Variable q : qp A.
Notation nx := (qnx d). Notation nu := (qnu d). Notation nb := (qnb d). Notation ng := (qng d). Notation ns := (qns d).
Variables x y : nat -> T.
Definition vset (n off : nat) (src old : nat -> T) : nat -> T := fun i => if i <? n then src (off + i) else old i.
(** lines 1675-1697 *)
Fixpoint lam_stores (k ii itmp fuel : nat) : list (nat * T) :=
  match fuel with O => [] | S f =>
    let yi := y (base d k + ii) in
    if (q_rev q k ii =? -1)%Z then
      (if nleb yi n0 then (ii, nopp yi) else (nb k + ng k + ii, yi)) :: lam_stores k (S ii) itmp f
    else (ii, nopp yi) :: (nb k + ng k + ii, y (base d k + nb k + ng k + itmp)) :: lam_stores k (S ii) (S itmp) f end.
Definition fill_lam (k : nat) (old : nat -> T) : nat -> T :=
  let z := store old (map (fun ii => (ii, n0)) (seq 0 (2 * nb k + 2 * ng k))) in
  let a := store z (lam_stores k 0 0 (nb k + ng k)) in
  store a (map (fun ii => (2 * nb k + 2 * ng k + ii, nopp (y (slk_start d + off_slk d k + ii)))) (seq 0 (2 * ns k))).
Definition fill_in_qp_out (out : qsol A) : qsol A :=
  mkSol
    (fun k => if k <=? qN d then vset (nx k + nu k + 2 * ns k) (hess_off d k) x (s_ux out k) else s_ux out k)
    (fun k => if k <? qN d then vset (nx (S k)) (off_dyn d k) y (s_pi out k) else s_pi out k)
    (fun k => if k <=? qN d then fill_lam k (s_lam out k) else s_lam out k).
End F.

End S.
Arguments MInf {A}. Arguments Fin {A}. Arguments PInf {A}.
Arguments off_con d k : rename. Arguments soft {A}. Arguments packed {A}. Arguments nsb {A}. Arguments con_cols_rows {A}. Arguments con_cols_vals {A}.
Arguments stores_l {A}. Arguments stores_u {A}. Arguments update_memory {A}. Arguments fill_in_qp_out {A}. Arguments fill_lam {A}. Arguments lam_stores {A}.
Arguments upper_stores {A}. Arguments u_rows {A}. Arguments x_rows {A}. Arguments sl_rows {A}. Arguments su_rows {A}. Arguments u_vals {A}. Arguments x_vals {A}.
Arguments sl_vals {A}. Arguments su_vals {A}. Arguments con_rows {A}. Arguments con_vals {A}. Arguments repl_rows {A}. Arguments up_rows {A}. Arguments vset {A}.
Arguments first_run {A}. Arguments P_p {A}. Arguments P_i {A}. Arguments P_x {A}. Arguments A_p {A}. Arguments A_i {A}. Arguments A_x {A}. Arguments lin_q {A}. Arguments lb {A}. Arguments ub {A}. Arguments mkOM {A}.
