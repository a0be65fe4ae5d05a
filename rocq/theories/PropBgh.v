(** C40: constraint setters. *)
From Coq Require Import ZArith List Bool.
From Flocq Require Import IEEE754.BinarySingleNaN.
From Verif Require Import FP Arr ArrProofs DimsModel BghModel BghSpec BghTop BghGet BghInit.
Import ListNotations.
Open Scope Z_scope.

(** after any history of calls every bound is the one last set (zero if never set), it is masked out exactly when it does not restrict anything, the index
    arrays and the matrices hold what was last set, and nothing else has changed *)
Theorem C40_history : forall dm order, wf dm -> declared dm order -> forall m lam h,
  fresh dm m -> Forall (valid dm order) h -> 2 * (dm cNb + dm cNg + dm cNh + dm cNs) <= len lam ->
  exists m' lam', set_history dm (dm cNb + dm cNg + dm cNh + dm cNs) h (m, lam) = Some (m', lam') /\ reflects dm order m h m' /\ len lam' = len lam.
Proof. exact history_ok. Qed.
Print Assumptions C40_history.
Example C40_history_case : wf ex_dm /\ declared ex_dm order_idx /\ fresh ex_dm ex_m /\ Forall (valid ex_dm order_idx) ex_h /\
  option_map show (set_history ex_dm 6 ex_h (ex_m, repeat f1 12)) =
  Some ([true; true; true; true; false; true; true; true; true; true; false; true],
        [true; true; true; true; false; true; false; true; true; true; false; true], [0; 2], [4], [3]).
Proof. exact (conj ex_wf (conj ex_declared (conj ex_fresh (conj ex_valid ex_run)))). Qed.
(** the blocks of the fields cover the whole vector, so the previous theorem speaks about every entry *)
Theorem C40_cover : forall dm order, wf dm -> declared dm order -> forall m0 h m k, reflects dm order m0 h m ->
  0 <= k < 2 * (dm cNb + dm cNg + dm cNh + dm cNs) -> exists f j, In f order /\ 0 <= j < bsize dm f /\ k = bplace dm order f + j.
Proof. exact mask_values. Qed.
Print Assumptions C40_cover.
(** a call leaves the multipliers of active bounds as they are and zeroes those of masked ones *)
Theorem C40_multipliers : forall dm order, wf dm -> declared dm order -> forall m0 h m lam c, valid dm order c -> reflects dm order m0 h m -> shaped dm m0 ->
  2 * (dm cNb + dm cNg + dm cNh + dm cNs) <= len lam ->
  exists m' lam', constraints_model_set dm (dm cNb + dm cNg + dm cNh + dm cNs) c (m, lam) = Some (m', lam') /\ reflects dm order m0 (h ++ [c]) m' /\ len lam' = len lam /\
  forall k a, 0 <= k < 2 * (dm cNb + dm cNg + dm cNh + dm cNs) -> aget lam k = Some a -> is_finite a = true ->
    (aget (bmask m') k = Some f1 /\ aget lam' k = Some a) \/ (aget (bmask m') k = Some f0 /\ exists b, aget lam' k = Some (B754_zero b)).
Proof. exact call_ok. Qed.
Print Assumptions C40_multipliers.
Theorem C40_masked_multipliers : forall dm order, wf dm -> declared dm order -> forall m lam h m' lam', fresh dm m -> Forall (valid dm order) h ->
  2 * (dm cNb + dm cNg + dm cNh + dm cNs) <= len lam -> h <> [] -> (forall k a, aget lam k = Some a -> is_finite a = true) ->
  set_history dm (dm cNb + dm cNg + dm cNh + dm cNs) h (m, lam) = Some (m', lam') ->
  forall k, 0 <= k < 2 * (dm cNb + dm cNg + dm cNh + dm cNs) -> aget (bmask m') k = Some f0 -> exists b, aget lam' k = Some (B754_zero b).
Proof. exact masked_zero. Qed.
Print Assumptions C40_masked_multipliers.
(** the getters return what was last set *)
Theorem C40_get_bound : forall dm order, wf dm -> declared dm order -> forall m0 h m f value, reflects dm order m0 h m ->
  In f [lbu; lbx; lg; lh; ubu; ubx; ug; uh] -> bsize dm f <= len value ->
  exists value', get_bound dm f m value = Some value' /\ len value' = len value /\
    forall k, aget value' k = if (0 <=? k) && (k <? bsize dm f) then Some (lastb h f k) else aget value k.
Proof. exact get_bound_ok. Qed.
Print Assumptions C40_get_bound.
Theorem C40_get_idxbx : forall dm order, wf dm -> forall m0 h m value, reflects dm order m0 h m -> given h idxbx = true -> dm cNbx <= len value ->
  exists value', get_idxbx dm m value = Some value' /\ len value' = len value /\ forall k, aget value' k = if (0 <=? k) && (k <? dm cNbx) then Some (lasti h idxbx k) else aget value k.
Proof. exact get_idxbx_ok. Qed.
Print Assumptions C40_get_idxbx.
Theorem C40_get_idxbu : forall dm order, wf dm -> forall m0 h m value, reflects dm order m0 h m -> given h idxbu = true -> dm cNbu <= len value ->
  exists value', get_idxbu dm m value = Some value' /\ len value' = len value /\ forall k, aget value' k = if (0 <=? k) && (k <? dm cNbu) then Some (lasti h idxbu k) else aget value k.
Proof. exact get_idxbu_ok. Qed.
Print Assumptions C40_get_idxbu.
Theorem C40_get_idxs : forall dm order, wf dm -> forall m0 h m value, order = order_idx -> reflects dm order m0 h m -> (forall f, In f order_s -> given h f = true) -> dm cNs <= len value ->
  exists value', get_idxs dm m value = Some value' /\ len value' = len value /\
    (forall f k, In f order_s -> 0 <= k < isize dm f -> aget value' (iplace dm order_s f + k) = Some (ishift dm f + lasti h f k)) /\
    (forall k, dm cNs <= k -> aget value' k = aget value k).
Proof. exact get_idxs_ok. Qed.
Print Assumptions C40_get_idxs.
Theorem C40_get_C : forall dm order, wf dm -> forall m0 h m value, reflects dm order m0 h m -> shaped dm m0 -> dm cNg * dm cNx <= len value ->
  exists value', get_C dm m value = Some value' /\ len value' = len value /\
    (forall i j x, 0 <= i < dm cNg -> 0 <= j < dm cNx -> aget (DCt m0) (adr dm (dm cNu + j) i) = Some x -> aget value' (i + dm cNg * j) = Some (lastC dm h i j x)) /\
    (forall k, dm cNg * dm cNx <= k -> aget value' k = aget value k).
Proof. exact get_C_ok. Qed.
Print Assumptions C40_get_C.
Theorem C40_get_D : forall dm order, wf dm -> forall m0 h m value, reflects dm order m0 h m -> shaped dm m0 -> dm cNg * dm cNu <= len value ->
  exists value', get_D dm m value = Some value' /\ len value' = len value /\
    (forall i j x, 0 <= i < dm cNg -> 0 <= j < dm cNu -> aget (DCt m0) (adr dm j i) = Some x -> aget value' (i + dm cNg * j) = Some (lastD dm h i j x)) /\
    (forall k, dm cNg * dm cNu <= k -> aget value' k = aget value k).
Proof. exact get_D_ok. Qed.
Print Assumptions C40_get_D.
(** the QP gets the index data; the reverse slack map is written at the softened constraints only *)
Theorem C40_initialize : forall dm m q, wf dm -> shaped dm m ->
  len (q_idxb q) = dm cNb -> len (q_idxs_rev q) = dm cNb + dm cNg + dm cNh -> len (q_idxe q) = dm cNbue + dm cNbxe + dm cNge + dm cNhe ->
  (use_idxs_rev m = false -> forall j k, aget (idxs m) j = Some k -> 0 <= k < dm cNb + dm cNg + dm cNh) ->
  exists q', initialize dm m q = Some q' /\
    (forall k, aget (q_idxb q') k = aget (idxb m) k) /\ (forall k, aget (q_idxe q') k = aget (idxe m) k) /\
    (use_idxs_rev m = true -> forall k, aget (q_idxs_rev q') k = aget (idxs_rev m) k) /\
    (use_idxs_rev m = false -> NoDup (idxs m) -> (forall j k, aget (idxs m) j = Some k -> aget (q_idxs_rev q') k = Some j) /\ (forall k, ~ In k (idxs m) -> aget (q_idxs_rev q') k = aget (q_idxs_rev q) k)).
Proof. exact initialize_ok. Qed.
Print Assumptions C40_initialize.
(** precompute accepts the declared slack dimensions exactly when the parts add up, or when there are no parts *)
Theorem C40_accepts : forall dm m, wf dm -> dm cNsDerived = dm cNsbu + dm cNsbx + dm cNsg + dm cNsh ->
  precompute_accepts dm m = true <-> (if use_idxs_rev m then dm cNsbu = 0 /\ dm cNsbx = 0 /\ dm cNsg = 0 /\ dm cNsh = 0 else declared dm order_idx).
Proof. exact accepts_ok. Qed.
Print Assumptions C40_accepts.
(** so setting a slack index again leaves the constraint softened before softened in the QP *)
Theorem C40_stale_slack_refuted : exists dm m q m1 q1 m2 q2, wf dm /\ fresh dm m /\ (forall k x, aget (q_idxs_rev q) k = Some x -> x = -1) /\
  model_set dm (SetI idxsh [1]) m = Some m1 /\ initialize dm m1 q = Some q1 /\ model_set dm (SetI idxsh [0]) m1 = Some m2 /\ initialize dm m2 q1 = Some q2 /\
  precompute_accepts dm m2 = true /\ exists k, ~ In k (idxs m2) /\ aget (q_idxs_rev q2) k = Some 0.
Proof. exact stale_slack. Qed.
Print Assumptions C40_stale_slack_refuted.
