(** SQP with feasible QP, acados/ocp_nlp/ocp_nlp_sqp_with_feasible_qp.c: slack indices of the feasibility QP (:404-428,
    :1905-1954), right-hand side of the feasibility QP (:1347-1365), relaxed bounds of the nominal QP (:1121-1160),
    search direction mode (:1451-1540).

    One stage at a time; the stages do not share data here.  Arrays are functions of the index; a store outside the
    allocated idxns array gives [None]. *)
From Coq Require Import ZArith List Bool.
From Verif Require Import Arith Vec LinModel.

(** ** dimensions of a stage: n = nb + ng + ni_nl constraints, ns slacks given by the user *)
Record wdims := mkWdims { w_n : nat; w_ns : nat; w_nbu : nat; w_nsbu : nat; w_nbx : nat; w_nsbx : nat; w_first : bool }.
(** :404-421 nns, an int; the array idxns is allocated with that many entries *)
Definition w_nns (d : wdims) : Z :=
  let m := (Z.of_nat (w_n d) - Z.of_nat (w_ns d) - Z.of_nat (w_nbu d) + Z.of_nat (w_nsbu d))%Z in
  if w_first d then (m - Z.of_nat (w_nbx d) + Z.of_nat (w_nsbx d))%Z else m.
(** :1917-1936; [idxs] is what model_get "idxs" returns *)
Definition is_slacked (ns : nat) (idxs : nat -> nat) (i : nat) : bool := existsb (fun j => idxs j =? i) (seq 0 ns).
Definition relaxable (d : wdims) (i : nat) : bool :=
  ((negb (w_first d) && (w_nbu d <=? i)) || (w_first d && (w_nbu d + w_nbx d <=? i)))%nat.
Definition idxns_step (d : wdims) (idxs : nat -> nat) (i : nat) (s : option ((nat -> nat) * nat)) : option ((nat -> nat) * nat) :=
  match s with
  | None => None
  | Some (idxns, ins) =>
      if negb (is_slacked (w_ns d) idxs i) && relaxable d i
      then if (Z.of_nat ins <? w_nns d)%Z then Some (fun k => if (k =? ins)%nat then i else idxns k, S ins) else None
      else Some (idxns, ins)
  end.
Definition precompute_idxns (d : wdims) (idxs : nat -> nat) (idxns0 : nat -> nat) : option ((nat -> nat) * nat) :=
  loop (w_n d) (idxns_step d idxs) (Some (idxns0, 0%nat)).
(** :1938-1954 *)
Definition relaxed_idxs_rev (d : wdims) (idxs idxns : nat -> nat) (rev0 : nat -> Z) : nat -> Z :=
  let rev := loop (w_ns d) (fun i rev k => if (k =? idxs i)%nat then Z.of_nat i else rev k) rev0 in
  loop (Z.to_nat (w_nns d)) (fun i rev k => if (k =? idxns i)%nat then Z.of_nat (i + w_ns d) else rev k) rev.

Section S.
Variable A : arith.
Notation vec := (nat -> num A).
Local Open Scope num_scope.
(** :1350-1353 right-hand side of the feasibility QP; blasfeo_dveccp twice *)
Definition relaxed_d (d : wdims) (nominal relaxed0 : vec) : vec :=
  let n := w_n d in let ns := w_ns d in let nns := Z.to_nat (w_nns d) in
  let v : vec := fun k => if (k <? 2 * n + ns)%nat then nominal k else relaxed0 k in
  fun k => if ((2 * n + ns + nns <=? k) && (k <? 2 * n + ns + nns + ns))%nat%bool then nominal (k - (2 * n + ns + nns) + (2 * n + ns))%nat else v k.
(** :1355-1365 mask, at the first iteration *)
Definition relaxed_mask (d : wdims) (nominal relaxed0 : vec) : vec := fun k =>
  if (k <? 2 * w_n d)%nat then nominal k
  else if (k <? 2 * w_n d + 2 * (w_ns d + Z.to_nat (w_nns d)))%nat then 1 else relaxed0 k.
(** :1141-1159; [sl] and [su] are the two slack parts of the feasibility step *)
Definition byrd_omojokun_bounds (d : wdims) (idxns : nat -> nat) (rev : nat -> Z) (factor : num A) (sl su : vec) (dnom : vec) : vec :=
  loop (Z.to_nat (w_nns d)) (fun j v =>
    let c := idxns j in let s := Z.to_nat (rev c) in
    let v := vset v c (v c - factor * sl s) in
    vset v (w_n d + c) (v (w_n d + c)%nat - factor * su s)) dnom.
End S.
Arguments relaxed_d {A}. Arguments relaxed_mask {A}. Arguments byrd_omojokun_bounds {A}.

(** ** search direction mode *)
Inductive sd_mode := NOMINAL_QP | BYRD_OMOJOKUN | FEASIBILITY_QP.
Inductive sd_type := TypeN | TypeNFN | TypeFN | TypeF.
Record sd_mem := mkSdMem { sd_md : sd_mode; sd_counter : Z }.
(** what happens in one call: did the nominal QP succeed, did both Byrd-Omojokun QPs, are the slacks zero to tolerance *)
Record sd_input := mkSdInput { nominal_ok : bool; byrd_ok : bool; slacks_zero : bool }.
(** :1505-1531 *)
Definition byrd_part (allow : bool) (wmax : Z) (i : sd_input) (m : sd_mem) : sd_mem * bool :=
  let c := if slacks_zero i then (sd_counter m + 1)%Z else sd_counter m in
  if (allow && (c =? wmax)%Z)%bool then (mkSdMem NOMINAL_QP 0, byrd_ok i) else (mkSdMem BYRD_OMOJOKUN c, byrd_ok i).
(** :1451-1548: new memory, success, type *)
Definition search_direction (allow : bool) (wmax : Z) (i : sd_input) (m : sd_mem) : sd_mem * bool * sd_type :=
  match sd_md m with
  | NOMINAL_QP => if nominal_ok i then (m, true, TypeN) else (byrd_part allow wmax i (mkSdMem BYRD_OMOJOKUN (sd_counter m)), TypeNFN)
  | BYRD_OMOJOKUN => (byrd_part allow wmax i m, TypeFN)
  | FEASIBILITY_QP => (m, false, TypeF)
  end.
(** a run of the solver: the direction is computed once per iteration, a failure ends the run (:1588, :1728-1736) *)
Definition sd_start (md : sd_mode) : sd_mem := mkSdMem md 0.
Fixpoint sd_run (allow : bool) (wmax : Z) (m : sd_mem) (l : list sd_input) : list (sd_mem * sd_input * sd_type) * sd_mem :=
  match l with
  | nil => (nil, m)
  | cons i r => let '(m', ok, t) := search_direction allow wmax i m in
                let '(tr, m2) := (if ok then sd_run allow wmax m' r else (nil, m')) in (cons (m, i, t) tr, m2)
  end.
