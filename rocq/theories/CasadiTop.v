From Coq Require Import ZArith List Bool Lia.
From Verif Require Import Arr ArrProofs CasadiModel CasadiSpec CasadiProofs.
Import ListNotations.
Open Scope Z_scope.

(** ** parameters *)
Section P.
Variable T : Type.
(** a list of updates: position k holds the value of the last update that names it *)
Definition updated (o n : Z) (idx : list Z) (v p p' : list T) : Prop :=
  len p' = len p /\
  (forall a, (forall ii k, 0 <= ii < n -> aget idx ii = Some k -> a <> o + k) -> aget p' a = aget p a) /\
  (forall ii k, 0 <= ii < n -> aget idx ii = Some k -> (forall jj, ii < jj < n -> aget idx jj <> Some k) -> aget p' (o + k) = aget v ii).
Lemma updates_ok o n idx (v p : list T) : 0 <= n -> n <= len idx -> n <= len v ->
  (forall ii k, 0 <= ii < n -> aget idx ii = Some k -> 0 <= o + k < len p) ->
  exists p', for_ 0 n (fun ii b => do k <- aget idx ii; do x <- aget v ii; aput b (o + k) x) p = Some p' /\ updated o n idx v p p'.
Proof.
  intros Hn Li Lv R.
  apply (for_rule (fun m q => updated o m idx v p q) 0 n); [auto| |].
  - split; [reflexivity|]. split; [auto|lia].
  - intros ii q Hi (A & B & C). destruct (aget_in idx ii) as (k & Ek); [lia|]. destruct (aget_in v ii) as (x & Ex); [lia|].
    rewrite Ek; cbn [obind]. rewrite Ex; cbn [obind]. specialize (R ii k Hi Ek).
    destruct (aput_ok q (o + k) x) as (q' & Eq & L & G); [lia|]. exists q'. split; [exact Eq|]. split; [lia|]. split.
    + intros a Ha. rewrite G. destruct (Z.eqb_spec a (o + k)) as [->|]; [exfalso; apply (Ha ii k); [lia|auto|auto]|].
      apply B. intros jj k' Hj Ek'. apply (Ha jj k'); [lia|auto].
    + intros jj k' Hj Ek' N. rewrite G. destruct (Z.eqb_spec (o + k') (o + k)) as [Q|Q].
      * assert (k' = k) by lia. subst k'. destruct (Z.eq_dec jj ii) as [->|]; [congruence|]. exfalso. apply (N ii); [lia|auto].
      * apply C; auto.
        -- destruct (Z.eq_dec jj ii) as [->|]; [congruence|lia].
        -- intros m Hm. apply N; lia.
Qed.
Lemma set_param_sparse_ok n idx (v p : list T) : 0 <= n -> n <= len idx -> n <= len v ->
  (forall ii k, 0 <= ii < n -> aget idx ii = Some k -> 0 <= k < len p) ->
  exists p', set_param_sparse n idx v p = Some p' /\ updated 0 n idx v p p'.
Proof. intros A B C D. apply (updates_ok 0 n idx v p); auto. Qed.
Lemma in_set_params_sparse_ok np stage n idx (v b : list T) : 0 <= n -> n <= len idx -> n <= len v ->
  (forall ii k, 0 <= ii < n -> aget idx ii = Some k -> 0 <= k < nth stage np 0) ->
  0 <= param_off np stage -> param_off np stage + nth stage np 0 <= len b ->
  exists b', in_set_params_sparse np stage n idx v b = Some b' /\ updated (param_off np stage) n idx v b b'.
Proof. intros A B C D E F. apply (updates_ok (param_off np stage) n idx v b); auto. intros ii k Hi Hk. specialize (D ii k Hi Hk); lia. Qed.
Lemma set_all_ok o n (v p : list T) : 0 <= n -> n <= len v -> 0 <= o -> o + n <= len p ->
  exists p', for_ 0 n (fun ii b => do x <- aget v ii; aput b (o + ii) x) p = Some p' /\ len p' = len p /\
    forall a, aget p' a = if (o <=? a) && (a <? o + n) then aget v (a - o) else aget p a.
Proof.
  intros Hn Lv Ho Lp.
  apply (for_rule (fun m q => len q = len p /\ forall a, aget q a = if (o <=? a) && (a <? o + m) then aget v (a - o) else aget p a) 0 n); [auto| |].
  - split; [reflexivity|]. intro a. destruct (Z.leb_spec o a); destruct (Z.ltb_spec a (o + 0)); cbn [andb]; auto; lia.
  - intros ii q Hi (A & B). destruct (aget_in v ii) as (x & Ex); [lia|]. rewrite Ex; cbn [obind].
    destruct (aput_ok q (o + ii) x) as (q' & Eq & L & G); [lia|]. exists q'. split; [exact Eq|]. split; [lia|]. intro a. rewrite G, B.
    destruct (Z.eqb_spec a (o + ii)) as [->|].
    + rewrite (proj2 (Z.leb_le _ _)), (proj2 (Z.ltb_lt _ _)) by lia. cbn [andb]. replace (o + ii - o) with ii by lia. auto.
    + destruct (Z.leb_spec o a); destruct (Z.ltb_spec a (o + ii)); destruct (Z.ltb_spec a (o + (ii + 1))); cbn [andb]; auto; lia.
Qed.
Lemma params_round_trip np stage (v b out : list T) : 0 <= nth stage np 0 -> nth stage np 0 = len v -> len out = len v ->
  0 <= param_off np stage -> param_off np stage + nth stage np 0 <= len b ->
  exists b', in_set_params np stage v b = Some b' /\ in_get_params np stage b' out = Some v /\
    forall a, ~ param_off np stage <= a < param_off np stage + nth stage np 0 -> aget b' a = aget b a.
Proof.
  intros H0 H1 H2 H3 H4. destruct (set_all_ok (param_off np stage) (nth stage np 0) v b) as (b' & E & L & G); try lia.
  exists b'. split; [exact E|]. split.
  - unfold in_get_params. rewrite H1 in *.
    destruct (for_rule (fun m q => len q = len out /\ forall a, 0 <= a < m -> aget q a = aget v a) 0 (len v)
      (fun ii out => do x <- aget b' (param_off np stage + ii); aput out ii x) out) as (q & Eq & A & B).
    + lia.
    + split; [auto|lia].
    + intros ii q Hi (A & B). rewrite G. rewrite (proj2 (Z.leb_le _ _)), (proj2 (Z.ltb_lt _ _)) by lia. cbn [andb].
      replace (param_off np stage + ii - param_off np stage) with ii by lia. destruct (aget_in v ii) as (x & Ex); [lia|]. rewrite Ex; cbn [obind].
      destruct (aput_ok q ii x) as (q' & Eq & L' & G'); [lia|]. exists q'. split; [exact Eq|]. split; [lia|]. intros a Ha. rewrite G'.
      destruct (Z.eqb_spec a ii) as [->|]; [auto|]. apply B; lia.
    + rewrite Eq. f_equal. apply aget_ext. intro k. assert (0 <= k < len v \/ ~ 0 <= k < len v) as [R|R] by lia; [apply B; auto|].
      rewrite !(proj2 (aget_none _ _)); auto; lia.
  - intros a Ha. rewrite G. destruct (Z.leb_spec (param_off np stage) a); destruct (Z.ltb_spec a (param_off np stage + nth stage np 0)); cbn [andb]; auto; lia.
Qed.
End P.
Arguments updated {T}.
(** the blocks of the stages are disjoint and inside the allocation *)
Lemma param_off_mono np : Forall (fun n => 0 <= n) np -> forall i, (i < length np)%nat ->
  0 <= param_off np i /\ param_off np i + nth i np 0 <= fold_right Z.add 0 np /\ forall j, (i < j < length np)%nat -> param_off np i + nth i np 0 <= param_off np j.
Proof.
  induction 1 as [|n np Hn F IH]; intros i Hi; cbn [length] in *; [lia|].
  assert (forall k, 0 <= fold_right Z.add 0 np /\ 0 <= param_off np k) as Q.
  { clear - F. induction F as [|n np Hn F IH]; intro k; [destruct k; cbn; lia|]. cbn [fold_right]. destruct k; cbn [param_off]; [specialize (IH 0%nat); lia|].
    specialize (IH k); lia. }
  destruct i as [|i]; cbn [param_off nth fold_right].
  - split; [lia|]. split; [specialize (Q 0%nat); lia|]. intros j Hj. destruct j; [lia|]. cbn [param_off]. specialize (Q j); lia.
  - destruct (IH i) as (A & B & C); [lia|]. split; [lia|]. split; [lia|]. intros j Hj. destruct j; [lia|]. cbn [param_off]. specialize (C j ltac:(lia)); lia.
Qed.

(** ** witnesses *)
(** [1 0 2; 0 3 0] as values 1,3,2 with columns {0},{1},{0} *)
Definition ex_P : pattern := [[0]; [1]; [0]].
Definition ex_s : list Z := [2; 3; 0; 1; 2; 3; 0; 1; 0].
Lemma ex_describes : describes ex_s 2 ex_P /\ pattern_ok 2 ex_P. 
Proof. split; [left; reflexivity|]. repeat constructor; cbn; try lia; intros []. Qed.
Lemma ex_run : casadi_to_arg 0 (DMAT 3 4 1 1) [10; 30; 20] ex_s (repeat 7 12) false = Done [7; 7; 7; 7; 10; 0; 7; 0; 30; 7; 20; 0].
Proof. reflexivity. Qed.
Lemma ex_params : in_set_params_sparse [2; 3; 2] 1 3 [2; 0; 2] [10; 20; 30] [0; 1; 2; 3; 4; 5; 6] = Some [0; 1; 20; 3; 30; 5; 6].
Proof. reflexivity. Qed.
(** a dense 2 x 3 block through COLMAJ_ARGS comes out wrong *)
Lemma args_wrong : exists s nrow P lda inp o o', describes s nrow P /\ pattern_ok nrow P /\ fits (COLMAJ_ARGS lda) nrow (len P) (len o) /\ len inp = len (entries P) /\
  casadi_is_dense s = Some true /\ casadi_to_arg 0 (COLMAJ_ARGS lda) inp s o true = Done o' /\ ~ unpacked 0 (place (COLMAJ_ARGS lda) nrow) nrow P inp o o'.
Proof.
  exists [2; 3; 1], 2, (full 2 3), 2, [1; 2; 3; 4; 5; 6], [0; 0; 0; 0; 0; 0], [1; 2; 3; 5; 6; 0].
  split; [right; split; reflexivity|]. split; [apply full_ok; lia|]. split; [cbn; lia|]. split; [reflexivity|]. split; [reflexivity|]. split; [reflexivity|].
  intros (_ & B & _). specialize (B 5 1 2 eq_refl). discriminate.
Qed.
(** and with two rows and one column it is written outside the array *)
Lemma args_oob : exists s nrow P lda inp o, describes s nrow P /\ pattern_ok nrow P /\ fits (COLMAJ_ARGS lda) nrow (len P) (len o) /\ len inp = len (entries P) /\
  casadi_is_dense s = Some true /\ casadi_to_arg 0 (COLMAJ_ARGS lda) inp s o true = UB.
Proof.
  exists [2; 1; 1], 2, (full 2 1), 2, [1; 2], [0; 0].
  split; [right; split; reflexivity|]. split; [apply full_ok; lia|]. split; [cbn; lia|]. repeat split; reflexivity.
Qed.
(** an n x 0 result taken as a vector: n values are read from an empty buffer *)
Lemma dvec_empty : exists s nrow P xi o, describes s nrow P /\ pattern_ok nrow P /\ entries P = [] /\ xi + nrow <= len o /\
  casadi_is_dense s = Some true /\ casadi_to_arg 0 (DVEC xi) [] s o true = UB.
Proof.
  exists [2; 0; 0], 2, [], 0, [5; 6]. split; [left; reflexivity|]. split; [constructor|]. split; [reflexivity|]. split; [cbn; lia|]. split; reflexivity.
Qed.
(** an index equal to the number of parameters changes the first parameter of the next stage *)
Lemma index_unchecked : exists np stage idx (v b b' : list Z), (S stage < length np)%nat /\ Forall (fun n => 0 < n) np /\ len b = fold_right Z.add 0 np /\
  idx = [nth stage np 0] /\ in_set_params_sparse np stage 1 idx v b = Some b' /\ aget b' (param_off np (S stage)) <> aget b (param_off np (S stage)).
Proof.
  exists [2; 2], 0%nat, [2], [9], [0; 1; 2; 3], [0; 1; 9; 3]. cbn. repeat split; try lia; repeat constructor. discriminate.
Qed.

(** the variant for generated functions: same as the plain one when the parameter vector is dense, refused otherwise *)
Lemma casadi_sparse_ok {T} dense n idx (v p : list T) : 0 <= n -> n <= len idx -> n <= len v ->
  (forall ii k, 0 <= ii < n -> aget idx ii = Some k -> 0 <= k < len p) ->
  match set_param_sparse_casadi dense n idx v p with
  | Done p' => dense = true /\ updated 0 n idx v p p'
  | Exit => dense = false
  | UB => False
  end.
Proof.
  intros A B C D. unfold set_param_sparse_casadi. destruct dense; [|reflexivity].
  destruct (set_param_sparse_ok T n idx v p A B C D) as (p' & E & U). rewrite E. cbn [checked]. auto.
Qed.
