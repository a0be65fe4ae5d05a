(** C39: flat access to the iterate. *)
From Coq Require Import ZArith List Bool.
From Flocq Require Import IEEE754.BinarySingleNaN.
From Verif Require Import FP Arr ArrProofs DimsModel DimsSpec IfaceModel IfaceSpec IfaceProofs IfaceTop IfaceCases.
Import ListNotations.
Open Scope Z_scope.

Theorem C39_round_trip : forall (T : Type) (mul : T -> T -> T) N d, dims_ok N d -> forall (s : store T) f v b, f <> Flam -> allocated N d s ->
  flat_length N d f <= len v -> flat_length N d f <= len b ->
  exists s' b', set_all mul N d s f v = Some s' /\ allocated N d s' /\ get_all N d s' f b = Some b' /\ len b' = len b /\
    forall k, aget b' k = if (0 <=? k) && (k <? flat_length N d f) then aget v k else aget b k.
Proof. exact @round_trip. Qed.
Print Assumptions C39_round_trip.
Theorem C39_multipliers : forall (T : Type) (mul : T -> T -> T) N d, dims_ok N d -> forall (s : store T) v b, allocated N d s ->
  flat_length N d Flam <= len v -> flat_length N d Flam <= len b ->
  exists s' b', set_all mul N d s Flam v = Some s' /\ allocated N d s' /\ get_all N d s' Flam b = Some b' /\ len b' = len b /\
    (forall k, ~ 0 <= k < flat_length N d Flam -> aget b' k = aget b k) /\
    (forall i j, (i <= N)%nat -> 0 <= j < 2 * ni (d i) ->
       let k := flat_start d Flam i + j in exists mask m a, nth_error (dmask s) i = Some mask /\ aget mask j = Some m /\ aget v k = Some a /\ aget b' k = Some (mul m a)).
Proof. exact @multipliers. Qed.
Print Assumptions C39_multipliers.
(** in double precision a mask 1 keeps the value and a mask 0 gives a zero, if the value is finite *)
Theorem C39_mask_one : forall x : double, isnan x = false -> fmul f1 x = x.
Proof. exact fmul_one. Qed.
Print Assumptions C39_mask_one.
Theorem C39_mask_zero : forall x : double, is_finite x = true -> exists b, fmul f0 x = B754_zero b.
Proof. exact fmul_zero. Qed.
Print Assumptions C39_mask_zero.
Theorem C39_masked_zero_refuted : exists N d (s : store double) v b, dims_ok N d /\ allocated N d s /\ flat_length N d Flam <= len v /\ flat_length N d Flam <= len b /\
  (forall l x, In l (dmask s) -> In x l -> x = f0 \/ x = f1) /\
  exists s' b' k y, set_all fmul N d s Flam v = Some s' /\ get_all N d s' Flam b = Some b' /\ aget b' k = Some y /\ cell (dmask s) 0 k = Some f0 /\ isnan y = true.
Proof. exact infinite_multiplier. Qed.
Print Assumptions C39_masked_zero_refuted.
Theorem C39_others : forall (T : Type) (mul : T -> T -> T) N d, dims_ok N d -> forall (s s' : store T) f g v b, clash f g = false -> allocated N d s ->
  flat_length N d f <= len v -> flat_length N d g <= len b ->
  set_all mul N d s f v = Some s' -> get_all N d s' g b = get_all N d s g b /\ dmask s' = dmask s.
Proof. exact @others. Qed.
Print Assumptions C39_others.
Theorem C39_slices : forall (T : Type) (mul : T -> T -> T) N d, dims_ok N d -> forall (s : store T) f v i b, single f = true -> f <> Flam -> allocated N d s ->
  flat_length N d f <= len v -> (i < stages N f)%nat -> field_size d f i <= len b ->
  exists s' b', set_all mul N d s f v = Some s' /\ out_get N d s' (Z.of_nat i) f b = Some b' /\ len b' = len b /\
    forall k, aget b' k = if (0 <=? k) && (k <? field_size d f i) then aget v (flat_start d f i + k) else aget b k.
Proof. exact @slices. Qed.
Print Assumptions C39_slices.
Theorem C39_stage_round_trip : forall (T : Type) (mul : T -> T -> T) N d, dims_ok N d -> forall (s : store T) f i v b, single f = true -> f <> Flam -> allocated N d s -> inside N f i ->
  field_size d f i <= len v -> field_size d f i <= len b ->
  exists s' b', out_set mul N d s (Z.of_nat i) f v = Some s' /\ allocated N d s' /\ out_get N d s' (Z.of_nat i) f b = Some b' /\ len b' = len b /\
    forall k, aget b' k = if (0 <=? k) && (k <? field_size d f i) then aget v k else aget b k.
Proof. exact @stage_round_trip. Qed.
Print Assumptions C39_stage_round_trip.
Theorem C39_stage_multipliers : forall (T : Type) (mul : T -> T -> T) N d, dims_ok N d -> forall (s : store T) i v b, allocated N d s -> (i <= N)%nat -> 2 * ni (d i) <= len v -> 2 * ni (d i) <= len b ->
  exists s' b', out_set mul N d s (Z.of_nat i) Flam v = Some s' /\ allocated N d s' /\ out_get N d s' (Z.of_nat i) Flam b = Some b' /\ len b' = len b /\
    forall k, 0 <= k < 2 * ni (d i) -> exists mask m a, nth_error (dmask s) i = Some mask /\ aget mask k = Some m /\ aget v k = Some a /\ aget b' k = Some (mul m a).
Proof. exact @stage_multipliers. Qed.
Print Assumptions C39_stage_multipliers.
Theorem C39_stage_others : forall (T : Type) (mul : T -> T -> T) N d, dims_ok N d -> forall (s s' : store T) f g i j v b, single f = true -> single g = true -> allocated N d s ->
  inside N f i -> inside N g j -> field_size d f i <= len v -> field_size d g j <= len b ->
  i <> j \/ clash f g = false -> out_set mul N d s (Z.of_nat i) f v = Some s' -> out_get N d s' (Z.of_nat j) g b = out_get N d s (Z.of_nat j) g b.
Proof. exact @stage_others. Qed.
Print Assumptions C39_stage_others.
Theorem C39_totals : forall N d t f, precompute_dims N d = Some t -> total_from_attr d t f = flat_length N d f.
Proof. exact totals_ok. Qed.
Print Assumptions C39_totals.
Example C39_case : exists s1 s2 s3, set_all Z.mul 1 ex_d (ex_s 0 1) Fx [10; 11; 12] = Some s1 /\ set_all Z.mul 1 ex_d s1 Fs [13; 14] = Some s2 /\ set_all Z.mul 1 ex_d s2 Flam [15; 16; 17; 18] = Some s3 /\
  ux s3 = [[0; 10; 11; 13; 14]; [12]] /\ lam s3 = [[15; 0]; [17; 18]] /\ get_all 1 ex_d s3 Fx [0; 0; 0; 9] = Some [10; 11; 12; 9] /\ get_all 1 ex_d s3 Flam [9; 9; 9; 9] = Some [15; 0; 17; 18].
Proof. exact ex_iface. Qed.
Example C39_case_hypotheses : dims_ok 1 ex_d /\ allocated 1 ex_d (ex_s 0 1).
Proof. exact (conj ex_dims_ok (ex_allocated 0 1)). Qed.
