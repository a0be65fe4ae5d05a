From Coq Require Import ZArith List Bool Lia Lra Reals.
From Flocq Require Import Core IEEE754.BinarySingleNaN.
From Verif Require Import FP Arr ArrProofs DimsModel DimsSpec DimsProofs DimsTop IfaceModel IfaceSpec IfaceProofs IfaceTop.
Import ListNotations.
Open Scope Z_scope.

Section P.
Context {T : Type} (mul : T -> T -> T) (N : nat) (d : ndims).
Hypothesis dims : dims_ok N d.
Implicit Types (s : store T) (b : list T) (f g : field).

Lemma stage_round_trip s f i v b : single f = true -> f <> Flam -> allocated N d s -> inside N f i -> field_size d f i <= len v -> field_size d f i <= len b ->
  exists s' b', out_set mul N d s (Z.of_nat i) f v = Some s' /\ allocated N d s' /\ out_get N d s' (Z.of_nat i) f b = Some b' /\ len b' = len b /\
    forall k, aget b' k = if (0 <=? k) && (k <? field_size d f i) then aget v k else aget b k.
Proof.
  intros Sf NL A Hi Hv Hb. destruct (out_set_ok mul N d dims s f i v Sf A Hi Hv) as (s' & E & A' & _ & C).
  destruct (out_get_ok N d dims s' f i b Sf A' Hi Hb) as (b' & E' & L & G). exists s', b'. repeat (split; [auto|]). intro k. rewrite G.
  destruct ((0 <=? k) && (k <? field_size d f i)) eqn:B; [|reflexivity]. apply andb_true_iff in B. rewrite Z.leb_le, Z.ltb_lt in B. rewrite C.
  replace (match bufof f with Bux => _ | _ => _ end) with true by (destruct (bufof f); reflexivity).
  rewrite Z.eqb_refl, (proj2 (Z.leb_le _ _)), (proj2 (Z.ltb_lt _ _)) by lia. cbn [andb].
  replace (ofZ d f (Z.of_nat i) + k - ofZ d f (Z.of_nat i)) with k by lia. destruct (aget v k); [|reflexivity]. cbn [obind]. destruct f; try reflexivity; congruence.
Qed.
Lemma stage_multipliers s i v b : allocated N d s -> (i <= N)%nat -> 2 * ni (d i) <= len v -> 2 * ni (d i) <= len b ->
  exists s' b', out_set mul N d s (Z.of_nat i) Flam v = Some s' /\ allocated N d s' /\ out_get N d s' (Z.of_nat i) Flam b = Some b' /\ len b' = len b /\
    forall k, 0 <= k < 2 * ni (d i) -> exists mask m a, nth_error (dmask s) i = Some mask /\ aget mask k = Some m /\ aget v k = Some a /\ aget b' k = Some (mul m a).
Proof.
  intros A Hi Hv Hb. destruct (out_set_ok mul N d dims s Flam i v eq_refl A Hi Hv) as (s' & E & A' & _ & C).
  destruct (out_get_ok N d dims s' Flam i b eq_refl A' Hi Hb) as (b' & E' & L & G). exists s', b'. repeat (split; [auto|]). intros k B. 
  destruct (sized_get _ _ _ (Z.of_nat i) (al_mask _ _ _ A) ltac:(lia)) as (mask & M1 & M2). rewrite Nat2Z.id in M2.
  destruct (aget_in mask k) as (m & Em); [lia|]. destruct (aget_in v k) as (a & Ea); [lia|]. exists mask, m, a. rewrite aget_nat in M1. repeat (split; [auto|]).
  rewrite G. cbn [field_size]. rewrite (proj2 (Z.leb_le _ _)), (proj2 (Z.ltb_lt _ _)) by lia. cbn [andb]. rewrite C. unfold ofZ, field_size. cbn [bufof].
  rewrite Z.eqb_refl, (proj2 (Z.leb_le _ _)), (proj2 (Z.ltb_lt _ _)) by lia. cbn [andb]. rewrite Z.add_0_l, Z.sub_0_r, Ea. cbn [obind].
  unfold stored, cell. rewrite aget_nat, M1; cbn [obind]. rewrite Em. reflexivity.
Qed.
Lemma stage_others s s' f g i j v b : single f = true -> single g = true -> allocated N d s -> inside N f i -> inside N g j -> field_size d f i <= len v -> field_size d g j <= len b ->
  i <> j \/ clash f g = false -> out_set mul N d s (Z.of_nat i) f v = Some s' -> out_get N d s' (Z.of_nat j) g b = out_get N d s (Z.of_nat j) g b.
Proof.
  intros Sf Sg A Hi Hj Hv Hb Dj E. destruct (out_set_ok mul N d dims s f i v Sf A Hi Hv) as (s1 & E1 & A' & _ & C). rewrite E in E1; injection E1 as <-.
  destruct (out_get_ok N d dims s' g j b Sg A' Hj Hb) as (b1 & G1 & L1 & R1). destruct (out_get_ok N d dims s g j b Sg A Hj Hb) as (b2 & G2 & L2 & R2).
  rewrite G1, G2. f_equal. apply aget_ext. intro k. rewrite R1, R2. destruct ((0 <=? k) && (k <? field_size d g j)) eqn:B; [|reflexivity].
  apply andb_true_iff in B. rewrite Z.leb_le, Z.ltb_lt in B. rewrite C.
  match goal with |- (if ?c then _ else _) = _ => destruct c eqn:X; [exfalso|reflexivity] end.
  repeat rewrite andb_true_iff in X. rewrite Z.eqb_eq, Z.leb_le, Z.ltb_lt in X. destruct X as (((X0 & X1) & X2) & X3). apply Nat2Z.inj in X1. subst j.
  destruct Dj as [Dj|Dj]; [congruence|]. assert (i <= N)%nat as Hi' by (unfold inside in Hi; destruct f; lia). pose proof (dims i Hi') as D.
  unfold ofZ in *. rewrite Nat2Z.id in *.
  destruct f, g; cbn in Dj; try discriminate Dj; cbn [bufof] in X0; try discriminate X0; cbn [field_size] in *; lia.
Qed.

Lemma totals_ok t f : precompute_dims N d = Some t -> total_from_attr d t f = flat_length N d f.
Proof.
  intro P. unfold precompute_dims in P. destruct (forallb _ _) in P; [|discriminate P]. apply (f_equal (fun o => match o with Some t => t | None => t end)) in P. rewrite <- P.
  unfold flat_length, total. rewrite <- acc_fold.
  assert (forall n h, 2 * acc_stages n h = acc_stages n (fun i => 2 * h i)) as M2. { intros n h; induction n; cbn [acc_stages]; lia. }
  assert (forall n h, acc_stages (S n) h - h 0%nat = acc_stages n (fun i => h (S i))) as SH.
  { intros n h. induction n; cbn [acc_stages]; [lia|]. cbn [acc_stages] in IHn. lia. }
  destruct f; unfold stages, total_from_attr; cbn [nx_total nu_total ns_total nz_total np_total ni_total]; try reflexivity.
  - apply M2.
  - exact (SH N (fun i => nx (d i))).
  - apply M2.
Qed.
End P.

(** ** multipliers in double precision *)
Lemma fmul_one (x : double) : isnan x = false -> fmul f1 x = x.
Proof.
  intro H. destruct x as [b|b| |b m e He]; [destruct b; apply B2SF_inj; reflexivity|destruct b; apply B2SF_inj; reflexivity|discriminate H|].
  set (x := B754_finite b m e He). pose proof (Bmult_correct 53 1024 _ _ mode_NE f1 x) as C.
  assert (B2R f1 = 1%R) as E1. { unfold f1. vm_compute. lra. }
  rewrite E1, Rmult_1_l in C. rewrite round_generic in C; [|apply valid_rnd_round_mode|apply generic_format_B2R].
  rewrite Rlt_bool_true in C by apply abs_B2R_lt_emax. destruct C as (C1 & C2 & C3).
  apply B2R_Bsign_inj; [exact C2|reflexivity|exact C1|]. unfold fmul. rewrite C3; [replace (Bsign f1) with false by (vm_compute; reflexivity); now rewrite xorb_false_l|].
  destruct (Bmult mode_NE f1 x) eqn:Q; try reflexivity. cbn in C2. discriminate C2.
Qed.
Lemma fmul_zero (x : double) : is_finite x = true -> exists b, fmul f0 x = B754_zero b.
Proof. destruct x; intro H; try discriminate H; cbn; eauto. Qed.
Lemma fmul_zero_inf : isnan (fmul f0 finf) = true. Proof. reflexivity. Qed.
(** two stages: nx = 2, 1; nu = 1, 0; ns = 1, 0; nz = 1, 0; ni = 1, 1; np = 1, 2 *)
Definition ex_d : ndims := fun i =>
  if (i =? 0)%nat then mkS 5 2 1 1 1 1 1 0 0 0 0 (fun _ => 0) (mkQ 0 0 0 0 0 0 0 0 0) (mkQ 0 0 0 0 0 0 0 0 0) (mkR 0 0 0 0 0)
  else mkS 1 1 0 0 0 2 1 0 0 0 0 (fun _ => 0) (mkQ 0 0 0 0 0 0 0 0 0) (mkQ 0 0 0 0 0 0 0 0 0) (mkR 0 0 0 0 0).
Definition ex_s {T} (o i : T) : store T := mkStore [[o; o; o; o; o]; [o]] [[o]; []] [[o]] [[o; o]; [o; o]] [[o]; [o; o]] [[i; o]; [i; i]].
Lemma ex_dims_ok : dims_ok 1 ex_d.
Proof. intros i H. destruct i as [|[|i]]; [cbn; lia|cbn; lia|lia]. Qed.
Lemma ex_allocated {T} (o i : T) : allocated 1 ex_d (ex_s o i).
Proof. constructor; split; try reflexivity; intros k l E; destruct k as [|[|[|k]]]; cbn in E; first [discriminate E|injection E as <-; reflexivity]. Qed.
Lemma ex_iface : exists s1 s2 s3, set_all Z.mul 1 ex_d (ex_s 0 1) Fx [10; 11; 12] = Some s1 /\ set_all Z.mul 1 ex_d s1 Fs [13; 14] = Some s2 /\ set_all Z.mul 1 ex_d s2 Flam [15; 16; 17; 18] = Some s3 /\
  ux s3 = [[0; 10; 11; 13; 14]; [12]] /\ lam s3 = [[15; 0]; [17; 18]] /\ get_all 1 ex_d s3 Fx [0; 0; 0; 9] = Some [10; 11; 12; 9] /\ get_all 1 ex_d s3 Flam [9; 9; 9; 9] = Some [15; 0; 17; 18].
Proof. eexists _, _, _. repeat split. Qed.
Lemma infinite_multiplier : exists N d (s : store double) v b, dims_ok N d /\ allocated N d s /\ flat_length N d Flam <= len v /\ flat_length N d Flam <= len b /\
  (forall l x, In l (dmask s) -> In x l -> x = f0 \/ x = f1) /\
  exists s' b' k y, set_all fmul N d s Flam v = Some s' /\ get_all N d s' Flam b = Some b' /\ aget b' k = Some y /\ cell (dmask s) 0 k = Some f0 /\ isnan y = true.
Proof.
  exists 1%nat, ex_d, (ex_s f0 f1), [f0; finf; f0; f0], [f0; f0; f0; f0].
  split; [apply ex_dims_ok|]. split; [apply ex_allocated|]. split; [vm_compute; discriminate|]. split; [vm_compute; discriminate|]. split.
  { intros l x [<-|[<-|[]]] [<-|[<-|[]]]; auto. }
  destruct (multipliers fmul 1 ex_d ex_dims_ok (ex_s f0 f1) [f0; finf; f0; f0] [f0; f0; f0; f0] (ex_allocated f0 f1)) as (s' & b' & E & _ & G & _ & _ & M); [vm_compute; discriminate|vm_compute; discriminate|].
  destruct (M 0%nat 1) as (mask & m & a & M1 & M2 & M3 & M4); [lia|cbn; lia|]. cbn in M1. injection M1 as <-. injection M2 as <-. injection M3 as <-.
  exists s', b', 1, (fmul f0 finf). split; [exact E|]. split; [exact G|]. split; [exact M4|]. split; [reflexivity|reflexivity].
Qed.
