(** C48: dimensions and totals after any history of setter calls. *)
From Coq Require Import ZArith List.
From Verif Require Import Arr DimsModel DimsSpec DimsProofs DimsTop.
Import ListNotations.
Open Scope Z_scope.

Theorem C48_totals : forall N h d t, do_calls N h fresh = Some d -> precompute_dims N d = Some t ->
  nx_total t = total (S N) (last_opt h oNx) /\ nu_total t = total N (last_opt h oNu) /\ nz_total t = total N (last_opt h oNz) /\
  ns_total t = total (S N) (last_opt h oNs) /\ np_total t = total (S N) (last_opt h oNp) /\ ny_total t = total (S N) (last_ny h) /\
  nbx_total t = total (S N) (last_con h cNbx) /\ nbu_total t = total N (last_con h cNbu) /\ ng_total t = total (S N) (last_con h cNg) /\
  nh_total t = total (S N) (last_con h cNh) /\
  ((forall i, (i <= N)%nat -> ni_current h i = true) ->
   ni_total t = total (S N) (fun i => last_con h cNbx i + last_con h cNbu i + last_con h cNg i + last_con h cNh i + last_opt h oNs i)).
Proof. exact dims_totals. Qed.
Print Assumptions C48_totals.
Theorem C48_stage : forall N h d i, do_calls N h fresh = Some d -> (i <= N)%nat ->
  nx (d i) = last_opt h oNx i /\ nu (d i) = last_opt h oNu i /\ nz (d i) = last_opt h oNz i /\ ns (d i) = last_opt h oNs i /\ np (d i) = last_opt h oNp i /\
  nv (d i) = last_opt h oNu i + last_opt h oNx i + 2 * last_opt h oNs i /\ ny (d i) = last_ny h i /\
  nb (d i) = last_con h cNbu i + last_con h cNbx i /\ ng (d i) = last_con h cNg i /\ ni_nl (d i) = last_con h cNh i /\
  (forall f, f <> cNb -> f <> cNsDerived -> con (d i) f = last_con h f i).
Proof. exact dims_stage. Qed.
Print Assumptions C48_stage.
Theorem C48_solvers : forall N h d i, do_calls N h fresh = Some d -> (i <= N)%nat ->
  let c f := last_con h f i in let x := last_opt h oNx i in let u := last_opt h oNu i in
  qp (d i) = mkQ x u (c cNbx) (c cNbu) (c cNg + c cNh) (last_opt h oNs i) (c cNbxe) (c cNbue) (c cNge + c cNhe) /\
  rqp (d i) = mkQ x u (c cNbx) (c cNbu) (c cNg + c cNh) (c cNg + c cNh + c cNsbu + (if (i =? 0)%nat then c cNsbx else c cNbx)) (c cNbxe) 0 0 /\
  reg (d i) = mkR x u (c cNbx) (c cNbu) (c cNg + c cNh).
Proof. exact dims_solvers. Qed.
Print Assumptions C48_solvers.
Theorem C48_ni : forall N h d i, do_calls N h fresh = Some d -> (i <= N)%nat -> ni_current h i = true ->
  ni (d i) = last_con h cNbx i + last_con h cNbu i + last_con h cNg i + last_con h cNh i + last_con h cNs i.
Proof. exact dims_ni. Qed.
Print Assumptions C48_ni.
Theorem C48_precompute : forall N h d, do_calls N h fresh = Some d ->
  ((exists t, precompute_dims N d = Some t) <-> forall i, (i <= N)%nat -> last_opt h oNs i = last_con h cNs i).
Proof. exact dims_precompute. Qed.
Print Assumptions C48_precompute.
Theorem C48_accepted : forall N h, Forall (accepted N) h -> exists d, do_calls N h fresh = Some d.
Proof. exact accepted_run. Qed.
Print Assumptions C48_accepted.
(** when the number of slacks is given after the constraints, the number of inequalities misses them and precompute does not notice *)
Theorem C48_ni_refuted : exists N h d t i, Forall (accepted N) h /\ do_calls N h fresh = Some d /\ precompute_dims N d = Some t /\ (i <= N)%nat /\
  (forall j, (j <= N)%nat -> last_opt h oNs j = last_con h cNsbu j + last_con h cNsbx j + last_con h cNsg j + last_con h cNsh j) /\
  ni (d i) < last_con h cNbx i + last_con h cNbu i + last_con h cNg i + last_con h cNh i + last_opt h oNs i.
Proof. exact ni_stale. Qed.
Print Assumptions C48_ni_refuted.
Example C48_case : Forall (accepted 2) ex_h /\ (forall i, (i <= 2)%nat -> ni_current ex_h i = true) /\
  exists d t, do_calls 2 ex_h fresh = Some d /\ precompute_dims 2 d = Some t /\
    nx_total t = 9 /\ nu_total t = 4 /\ ni_total t = 15 /\ map (fun i => nv (d i)) [0; 1; 2]%nat = [5; 7; 7] /\ qNs (rqp (d 1%nat)) = 3.
Proof. exact ex_dims. Qed.
