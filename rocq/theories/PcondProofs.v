(** Partial condensing: block sizes are those asked for and sum up to the horizon; what happens otherwise. *)
From Coq Require Import ZArith List Bool Lia.
From Verif Require Import Arr ArrProofs PcondModel.
Import ListNotations.
Open Scope Z_scope.

Ltac ll := unfold ArrProofs.len in *; lia.
Notation len l := (Z.of_nat (length l)).
Fixpoint zsum (l : list Z) : Z := match l with [] => 0 | x :: r => x + zsum r end.

Lemma zsum_app a b : zsum (a ++ b) = zsum a + zsum b.
Proof. induction a as [|x a IH]; cbn; [reflexivity|]. ll. Qed.
Lemma firstn_next (l : list Z) i x : aget l i = Some x -> firstn (Z.to_nat (i + 1)) l = firstn (Z.to_nat i) l ++ [x].
Proof.
  intros H. assert (R := aget_range _ _ _ H). rewrite Z2Nat.inj_add, Nat.add_1_r by ll.
  unfold aget in H. destruct (Z.leb_spec 0 i); [|ll]. generalize dependent (Z.to_nat i). clear. intros n. revert n.
  induction l as [|y l IH]; intros [|n] H; try discriminate; cbn in *.
  - injection H as ->. reflexivity.
  - rewrite <- (IH n H). destruct l; reflexivity.
Qed.

Lemma copy_ok n src dst : 0 <= n -> n <= len src -> n <= len dst ->
  exists r, copy n src dst = Some r /\ length r = length dst /\ firstn (Z.to_nat n) r = firstn (Z.to_nat n) src /\ (forall k, n <= k -> aget r k = aget dst k).
Proof.
  intros H0 Hs Hd. unfold copy.
  destruct (for_rule (fun i r => length r = length dst /\ (forall k, aget r k = if (0 <=? k) && (k <? i) then aget src k else aget dst k)) 0 n
     (fun i l => do x <- aget src i; aput l i x) dst H0) as (r & E & L & G).
  - split; [reflexivity|]. intros k. destruct (Z.leb_spec 0 k), (Z.ltb_spec k 0); cbn; try ll; reflexivity.
  - intros i l Hi [L G]. destruct (aget_in src i ltac:(ll)) as [x Ex]. rewrite Ex. cbn [obind].
    destruct (aput_ok l i x ltac:(ll)) as (l' & E & L' & G'). exists l'. split; [exact E|]. split; [ll|].
    intros k. rewrite G', G. destruct (Z.eqb_spec k i) as [->|].
    + replace (0 <=? i) with true by (symmetry; apply Z.leb_le; ll). replace (i <? i + 1) with true by (symmetry; apply Z.ltb_lt; ll). rewrite Ex. reflexivity.
    + replace (k <? i + 1) with (k <? i) by (destruct (Z.ltb_spec k i), (Z.ltb_spec k (i + 1)); ll || reflexivity). reflexivity.
  - exists r. split; [exact E|]. split; [exact L|]. split.
    + apply aget_ext. intros k.
      assert (F : forall (l : list Z), n <= len l -> aget (firstn (Z.to_nat n) l) k = if (0 <=? k) && (k <? n) then aget l k else None).
      { intros l Hl. destruct (Z.leb_spec 0 k); cbn [andb].
        - destruct (Z.ltb_spec k n).
          + unfold aget. replace (0 <=? k) with true by (symmetry; apply Z.leb_le; ll).
            rewrite <- (firstn_skipn (Z.to_nat n) l) at 2. rewrite nth_error_app1; [reflexivity|]. rewrite firstn_length. ll.
          + apply aget_none. unfold ArrProofs.len. rewrite firstn_length. ll.
        - apply aget_none. ll. }
      rewrite !F by ll. rewrite G. destruct ((0 <=? k) && (k <? n)); reflexivity.
    + intros k Hk. rewrite G. replace (k <? n) with false by (symmetry; apply Z.ltb_ge; ll). rewrite andb_false_r. reflexivity.
Qed.
Lemma copy_len n src dst r : copy n src dst = Some r -> 0 <= n -> n <= len src /\ n <= len dst.
Proof.
  intros H H0. unfold copy in H. destruct (Z.le_gt_cases n (len src)) as [A|A], (Z.le_gt_cases n (len dst)) as [B|B]; auto; exfalso.
  all: assert (forall m i (d : list Z), length d = length dst -> (0 <= i) -> (i + Z.of_nat m = n) -> (len src < n \/ len dst < n) -> (i <= len src /\ i <= len dst) ->
     ofor m i (fun i l => do x <- aget src i; aput l i x) d = None).
  1,3,5: intros m; induction m as [|m IH]; intros i d Ld Hi Hm Hb Hc; [ll|]; cbn [ofor];
    destruct (aget src i) as [x|] eqn:Ex; [|reflexivity]; cbn [obind];
    destruct (aput d i x) as [d'|] eqn:Ed; [|reflexivity]; cbn [obind];
    assert (Rs := aget_range _ _ _ Ex);
    destruct (aput_inv _ _ _ _ Ed) as (Rd & L' & _); apply IH; ll.
  all: unfold for_ in H; rewrite (H1 _ 0 dst) in H; try discriminate; ll.
Qed.
Lemma total_ok n l : 0 <= n -> n <= len l -> total n l = Some (zsum (firstn (Z.to_nat n) l)).
Proof.
  intros H0 Hl. unfold total.
  destruct (for_rule (fun i t => t = zsum (firstn (Z.to_nat i) l)) 0 n (fun i t => do x <- aget l i; Some (t + x)) 0 H0 eq_refl) as (t & E & H).
  - intros i t Hi ->. destruct (aget_in l i ltac:(ll)) as [x Ex]. rewrite Ex. cbn [obind]. eexists. split; [reflexivity|].
    rewrite (firstn_next l i x Ex), zsum_app. cbn. ll.
  - rewrite E, H. reflexivity.
Qed.
Lemma auto_ok f n (l : list Z) : 0 <= n -> n <= len l ->
  exists r, for_ 0 n (fun i l => aput l i (f i)) l = Some r /\ length r = length l /\ firstn (Z.to_nat n) r = map (fun k => f (Z.of_nat k)) (seq 0 (Z.to_nat n)).
Proof.
  intros H0 Hl.
  destruct (for_rule (fun i r => length r = length l /\ (firstn (Z.to_nat i) r = map (fun k => f (Z.of_nat k)) (seq 0 (Z.to_nat i)))) 0 n
     (fun i l => aput l i (f i)) l H0) as (r & E & L & G).
  - split; reflexivity.
  - intros i r Hi [L G]. destruct (aput_ok r i (f i) ltac:(ll)) as (r' & E & L' & G'). exists r'. split; [exact E|]. split; [ll|].
    assert (Ei : aget r' i = Some (f i)) by (rewrite G', Z.eqb_refl; reflexivity).
    rewrite (firstn_next r' i _ Ei). replace (Z.to_nat (i + 1)) with (S (Z.to_nat i)) by ll. rewrite seq_S, map_app. cbn [map]. rewrite Nat.add_0_l, Z2Nat.id by ll.
    f_equal. rewrite <- G. clear - Hi L G' L' E Ei Hl.
    apply aget_ext. intros k.
    assert (F : forall (l : list Z), i <= len l -> aget (firstn (Z.to_nat i) l) k = if (0 <=? k) && (k <? i) then aget l k else None).
    { intros x Hx. destruct (Z.leb_spec 0 k); cbn [andb].
      - destruct (Z.ltb_spec k i).
        + unfold aget. replace (0 <=? k) with true by (symmetry; apply Z.leb_le; ll).
          rewrite <- (firstn_skipn (Z.to_nat i) x) at 2. rewrite nth_error_app1; [reflexivity|]. rewrite firstn_length. ll.
        + apply aget_none. unfold ArrProofs.len. rewrite firstn_length. ll.
      - apply aget_none. ll. }
    rewrite !F by ll. rewrite G'. destruct (Z.leb_spec 0 k), (Z.ltb_spec k i), (Z.eqb_spec k i); cbn; ll || reflexivity.
  - eauto.
Qed.

Section M.
Variable auto : Z -> Z -> Z -> Z.
Variable N : Z.
Hypothesis HN : 0 <= N.
Definition sized (s : pst) : Prop := len (p_bs s) = N + 1 /\ len (p_dbs s) = N + 1.
(** every horizon is within [0, N], every array of block sizes has the entries for the horizon set before *)
Fixpoint usable (n2 : Z) (l : list ev) : Prop :=
  match l with
  | [] => True
  | SetN n :: r => 0 <= n <= N /\ usable n r
  | SetBlock v :: r => n2 + 1 <= len v /\ usable n2 r
  | _ :: r => usable n2 r
  end.
(** the block sizes in use, and the property asked of d_part_cond_qp_compute_block_size *)
Definition blocks (s : pst) : list Z := firstn (Z.to_nat (p_pN s + 1)) (p_dbs s).
Definition auto_sums : Prop := forall n, 0 < n <= N -> zsum (map (fun k => auto N n (Z.of_nat k)) (seq 0 (Z.to_nat (n + 1)))) = N.

Lemma create_ok s : sized s -> 0 <= p_N2 s <= N -> auto_sums ->
  match create auto N s with
  | UB => False
  | Exit => p_was s = true /\ zsum (firstn (Z.to_nat (p_N2 s + 1)) (p_bs s)) <> N
  | Done s' => sized s' /\ p_N2 s' = p_N2 s /\ p_bkp s' = p_bkp s /\ p_bs s' = p_bs s /\ p_was s' = p_was s /\ p_pN s' = p_N2 s /\ (p_was s = true \/ 0 < p_N2 s -> zsum (blocks s') = N) /\
       blocks s' = (if p_was s then firstn (Z.to_nat (p_N2 s + 1)) (p_bs s) else map (fun k => auto N (p_N2 s) (Z.of_nat k)) (seq 0 (Z.to_nat (p_N2 s + 1))))
  end.
Proof.
  intros [Lb Ld] Hn Ha. unfold create. destruct (p_was s) eqn:W.
  - destruct (copy_ok (p_N2 s + 1) (p_bs s) (p_dbs s) ltac:(ll) ltac:(ll) ltac:(ll)) as (r & E & L & F & _). rewrite E.
    rewrite (total_ok (p_N2 s + 1) r ltac:(ll) ltac:(ll)). rewrite F.
    destruct (Z.eqb_spec (zsum (firstn (Z.to_nat (p_N2 s + 1)) (p_bs s))) N) as [Q|Q]; cbn [negb].
    + cbn. unfold sized, blocks; cbn. rewrite F. repeat split; auto; ll.
    + auto.
  - destruct (auto_ok (auto N (p_N2 s)) (p_N2 s + 1) (p_dbs s) ltac:(ll) ltac:(ll)) as (r & E & L & F). rewrite E. cbn. unfold sized, blocks; cbn. rewrite F.
    repeat split; auto; try ll. intros [X|X]; [discriminate|]. apply Ha; ll.
Qed.

Lemma run_safe l : forall s, sized s -> 0 <= p_N2 s <= N -> usable (p_N2 s) l -> auto_sums ->
  match run auto N l s with UB => False | Exit => True | Done s' => sized s' /\ 0 <= p_N2 s' <= N end.
Proof.
  induction l as [|e l IH]; intros s Hs Hn Hu Ha; [cbn; auto|]. cbn [run].
  destruct e as [n|n|v| | |]; cbn [step usable] in *.
  - apply IH; cbn; tauto.
  - apply IH; cbn; tauto.
  - unfold set_block. destruct Hu as [Hv Hu]. destruct Hs as [Lb Ld].
    destruct (copy_ok (p_N2 s + 1) v (p_bs s) ltac:(ll) Hv ltac:(ll)) as (r & E & L & _). rewrite E. apply IH; cbn; auto. unfold sized; cbn. ll.
  - apply IH; cbn; auto.
  - assert (C := create_ok s Hs Hn Ha). destruct (create auto N s) as [s'| |]; auto.
    destruct C as (S1 & S2 & _). apply IH; auto; rewrite S2; auto.
  - destruct (p_N2 s =? p_bkp s); [apply IH; auto|exact I].
Qed.

(** after a solver was created from usable options, the blocks cover the horizon *)
Lemma created l s : sized s -> 0 <= p_N2 s <= N -> usable (p_N2 s) l -> auto_sums ->
  match run auto N (l ++ solver_create) s with
  | UB => False | Exit => True
  | Done s' => (p_was s' = true \/ 0 < p_N2 s' -> zsum (blocks s') = N) /\ p_pN s' = p_N2 s' /\ p_bkp s' = p_N2 s' /\ length (blocks s') = Z.to_nat (p_N2 s' + 1)
  end.
Proof.
  intros Hs Hn Hu Ha. assert (R := run_safe l s Hs Hn Hu Ha).
  assert (A : forall l1 l2 s, run auto N (l1 ++ l2) s = match run auto N l1 s with Done s => run auto N l2 s | o => o end).
  { clear. induction l1 as [|e l1 IH]; intros l2 s; [cbn; destruct (run auto N l2 s); reflexivity|]. cbn [app run]. destruct (step auto N e s); auto. }
  rewrite A. destruct (run auto N l s) as [s1| |]; auto. destruct R as [S1 N1].
  cbn [solver_create run step].
  set (s2 := mkP (p_N2 s1) (p_N2 s1) (p_bs s1) (p_was s1) (p_N2 s1) (p_dbs s1)).
  assert (C := create_ok s2 S1 N1 Ha). destruct (create auto N s2) as [s3| |]; auto.
  destruct C as (S3 & E1 & E2 & E3 & E4 & E5 & E6 & E7). cbn [s2 p_N2 p_bkp p_bs p_was] in *. repeat split; auto; try ll; [intros X; apply E6; rewrite <- E1, <- E4; exact X|].
  rewrite E1. unfold blocks. rewrite firstn_length. destruct S3 as [_ S3]. ll.
Qed.
(** block sizes set after the horizon are the ones used; they are refused exactly if they do not cover the horizon *)
Lemma given s n v : sized s -> 0 <= n <= N -> len v = n + 1 ->
  match run auto N ([SetN n; SetBlock v] ++ solver_create) s with
  | UB => False | Exit => zsum v <> N | Done s' => blocks s' = v /\ zsum v = N
  end.
Proof.
  intros [Lb Ld] Hn Hv. cbn [app run step solver_create]. unfold set_block. cbn [p_N2 p_bkp p_bs p_was p_pN p_dbs].
  destruct (copy_ok (n + 1) v (p_bs s) ltac:(ll) ltac:(ll) ltac:(ll)) as (r & E & L & F & _). rewrite E. cbn [step p_N2 p_bkp p_bs p_was p_pN p_dbs].
  unfold create. cbn [p_N2 p_bkp p_bs p_was p_pN p_dbs].
  destruct (copy_ok (n + 1) r (p_dbs s) ltac:(ll) ltac:(ll) ltac:(ll)) as (r2 & E2 & L2 & F2 & _). rewrite E2.
  rewrite (total_ok (n + 1) r2 ltac:(ll) ltac:(ll)). rewrite F2, F. rewrite (firstn_all2 v) by ll.
  destruct (Z.eqb_spec (zsum v) N); cbn [negb]; [|assumption]. unfold blocks; cbn [p_pN p_dbs]. rewrite F2, F, (firstn_all2 v) by ll. auto.
Qed.
(** without block sizes nothing is refused *)
Lemma automatic s n : sized s -> p_was s = false -> 0 < n <= N -> auto_sums ->
  exists s', run auto N ([SetN n] ++ solver_create ++ [Solve]) s = Done s' /\ zsum (blocks s') = N /\ p_pN s' = n.
Proof.
  intros [Lb Ld] W Hn Ha. cbn [app run step solver_create].
  set (s2 := mkP _ _ _ _ _ _). assert (C := create_ok s2 (conj Lb Ld) ltac:(cbn; ll) Ha). destruct (create auto N s2) as [s3| |]; [|destruct C as [C _]; cbn in C; congruence|contradiction].
  destruct C as (S3 & E1 & E2 & E3 & E4 & E5 & E6 & E7). cbn [s2 p_N2 p_bkp p_bs p_was] in *.
  rewrite E1, E2, Z.eqb_refl. exists s3. split; [reflexivity|]. split; [apply E6; right; ll|exact E5].
Qed.
(** a horizon beyond N leaves the arrays *)
Lemma too_long s n : sized s -> N < n -> run auto N (update_cond_N n) s = UB.
Proof.
  intros [Lb Ld] Hn. unfold update_cond_N, solver_create. cbn [run step]. unfold create. cbn [p_N2 p_bkp p_bs p_was p_pN p_dbs].
  destruct (p_was s).
  - destruct (copy (n + 1) (p_bs s) (p_dbs s)) eqn:E; [|reflexivity]. apply copy_len in E; ll.
  - destruct (for_ 0 (n + 1) (fun i l => aput l i (auto N n i)) (p_dbs s)) eqn:E; [|reflexivity]. exfalso. unfold for_ in E.
    assert (G : forall m i (d : list Z), len d = N + 1 -> 0 <= i -> i + Z.of_nat m = n + 1 -> i <= N + 1 -> ofor m i (fun i l => aput l i (auto N n i)) d = None).
    { induction m as [|m IH]; intros i d L H0 H1 H2; [ll|]. cbn [ofor]. destruct (aput d i (auto N n i)) as [d'|] eqn:Ed; [|reflexivity]. cbn [obind].
      destruct (aput_inv _ _ _ _ Ed) as (Rd & L' & _). apply IH; ll. }
    rewrite G in E; try discriminate; ll.
Qed.
(** the generated code with a horizon shorter than the generated qp_solver_cond_N *)
Lemma template_short ori v s : N < ori -> template auto N ori (Some v) s = UB.
Proof.
  intros H. unfold template. replace (N <? ori) with true by (symmetry; apply Z.ltb_lt; ll). cbn [step].
  destruct (copy (ori + 1) v (repeat 0 (Z.to_nat (N + 1)))) eqn:E; [|reflexivity]. apply copy_len in E; [|ll]. rewrite repeat_length in E. ll.
Qed.
(** ... and with one that is not shorter: as given *)
Lemma template_ok ori v s : sized s -> 0 <= ori <= N -> len v = ori + 1 ->
  template auto N ori (Some v) s = run auto N [SetN ori; SetBlock v] s.
Proof.
  intros [Lb Ld] Ho Hv. unfold template. replace (N <? ori) with false by (symmetry; apply Z.ltb_ge; ll). cbn [run step].
  destruct (copy_ok (ori + 1) v (repeat 0 (Z.to_nat (ori + 1))) ltac:(ll) ltac:(ll) ltac:(rewrite repeat_length; ll)) as (r & E & L & F & _). rewrite E.
  rewrite repeat_length in L. rewrite (firstn_all2 v), (firstn_all2 r) in F by ll. subst r.
  destruct (set_block v _); reflexivity.
Qed.
End M.

(** ** cases *)
(** equal blocks, the first ones larger by one, the last one empty *)
Definition even (N n i : Z) : Z := if i <? n then N / n + (if i <? N mod n then 1 else 0) else 0.
Lemma sum_even N n : 0 < n -> 0 <= N -> zsum (map (fun k => even N n (Z.of_nat k)) (seq 0 (Z.to_nat (n + 1)))) = N.
Proof.
  intros Hn HN.
  assert (G : forall m, Z.of_nat m <= n -> zsum (map (fun k => even N n (Z.of_nat k)) (seq 0 m)) = Z.of_nat m * (N / n) + Z.min (Z.of_nat m) (N mod n)).
  { induction m as [|m IH]; intros Hm; [cbn; assert (B := Z.mod_pos_bound N n Hn); lia|].
    rewrite seq_S, map_app, zsum_app, IH by lia. cbn [map zsum]. rewrite Nat.add_0_l. unfold even at 1.
    replace (Z.of_nat m <? n) with true by (symmetry; apply Z.ltb_lt; lia). destruct (Z.ltb_spec (Z.of_nat m) (N mod n)); lia. }
  replace (Z.to_nat (n + 1)) with (S (Z.to_nat n)) by lia. rewrite seq_S, map_app, zsum_app, G by lia. cbn [map zsum]. rewrite Nat.add_0_l, Z2Nat.id by lia.
  unfold even. rewrite Z.ltb_irrefl. assert (B := Z.mod_pos_bound N n Hn). assert (D := Z.div_mod N n). lia.
Qed.
Lemma even_sums N : 0 <= N -> auto_sums even N.
Proof. intros H n Hn. apply sum_even; lia. Qed.
Lemma fresh_sized N : 0 <= N -> sized N (fresh N).
Proof. intros H. unfold sized, fresh; cbn. rewrite repeat_length. lia. Qed.
Lemma case_given : run even 10 ([SetN 3; SetBlock [4; 3; 2; 1]] ++ solver_create ++ [Solve]) (fresh 10) =
  Done (mkP 3 3 [4; 3; 2; 1; 0; 0; 0; 0; 0; 0; 0] true 3 [4; 3; 2; 1; 0; 0; 0; 0; 0; 0; 0]).
Proof. vm_compute. reflexivity. Qed.
Lemma case_auto : exists s, run even 10 ([SetN 3] ++ solver_create ++ [Solve]) (fresh 10) = Done s /\ blocks s = [4; 3; 3; 0].
Proof. eexists. split; vm_compute; reflexivity. Qed.
(** a new horizon after block sizes were given: a smaller one ends the process, a larger one adds blocks nobody asked for *)
Lemma stale_blocks : 
  (exists l s, run even 10 l (fresh 10) = Done s /\ usable 10 (p_N2 (fresh 10)) l /\ zsum (blocks s) = 10 /\ run even 10 (update_cond_N 2) s = Exit) /\
  (exists l s s', run even 10 l (fresh 10) = Done s /\ usable 10 (p_N2 (fresh 10)) l /\ run even 10 (update_cond_N 5) s = Done s' /\ blocks s' = [4; 3; 2; 1; 0; 0]).
Proof.
  split.
  - exists ([SetN 3; SetBlock [4; 3; 2; 1]] ++ solver_create). eexists. split; [vm_compute; reflexivity|]. split; [cbn; lia|]. split; vm_compute; reflexivity.
  - exists ([SetN 3; SetBlock [4; 3; 2; 1]] ++ solver_create). do 2 eexists. split; [vm_compute; reflexivity|]. split; [cbn; lia|]. split; vm_compute; reflexivity.
Qed.
Lemma negative_block : exists s, run even 10 ([SetN 2; SetBlock [12; -2; 0]] ++ solver_create) (fresh 10) = Done s /\ blocks s = [12; -2; 0].
Proof. eexists. split; vm_compute; reflexivity. Qed.
