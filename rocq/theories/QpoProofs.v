(** The multipliers read back from qpOASES. *)
From Coq Require Import ZArith List Bool Lia Reals Lra Arith.
From Verif Require Import Arith Vec LinModel RSum DenseModel QpoModel DenseSpec DenseProofs StackProofs.
Open Scope nat_scope.

Lemma Rmax_split y : (Rmax 0 y - Rmax 0 (- y) = y)%R.
Proof. unfold Rmax. destruct (Rle_dec 0 y), (Rle_dec 0 (- y)); lra. Qed.
Lemma split_at (nl nu : nat) (y : R) (lam : nat -> R) : nl <> nu -> lam nl = 0%R -> lam nu = 0%R ->
  split_dual (A := real) nl nu y lam nl = Rmax 0 y /\ split_dual (A := real) nl nu y lam nu = Rmax 0 (- y).
Proof.
  intros N H1 H2. unfold split_dual. change (@nleb real) with Rleb. change (@n0 real) with 0%R. destruct (Rleb_spec 0 y) as [L|L].
  - rewrite vset_eq, vset_ne by auto. rewrite H2. unfold Rmax. destruct (Rle_dec 0 y), (Rle_dec 0 (- y)); split; lra.
  - rewrite vset_eq, vset_ne by auto. rewrite H1. cbn [num nopp real]. unfold Rmax. destruct (Rle_dec 0 y), (Rle_dec 0 (- y)); split; lra.
Qed.
Lemma split_out (nl nu : nat) (y : R) (lam : nat -> R) k : k <> nl -> k <> nu -> split_dual (A := real) nl nu y lam k = lam k.
Proof. intros N1 N2. unfold split_dual. destruct (nleb _ _); apply vset_ne; assumption. Qed.

Section L.
Variable d : ddims.
Variable q : rdqp.
Hypothesis Hs : one_row_each d q.
Notation nv := (dnv d). Notation nb := (dnb d). Notation ng := (dng d). Notation ns := (dns d). Notation nv2 := (stk_nv d).
Notation soft := (soft q). Notation rk := (rk q). Notation sl := (sl q).
Variable y : nat -> R.

(** ** hard rows *)
Lemma splits (n off up : nat) (f : nat -> R) (lam : nat -> R) : off + n <= up -> (forall k, k < n -> lam (off + k) = 0%R /\ lam (up + k) = 0%R) ->
  (forall k, k < n -> loop n (fun ii lam => split_dual (A := real) (off + ii) (up + ii) (f ii) lam) lam (off + k) = Rmax 0 (f k) /\
                      loop n (fun ii lam => split_dual (A := real) (off + ii) (up + ii) (f ii) lam) lam (up + k) = Rmax 0 (- f k)) /\
  (forall k, (k < off \/ off + n <= k) -> (k < up \/ up + n <= k) -> loop n (fun ii lam => split_dual (A := real) (off + ii) (up + ii) (f ii) lam) lam k = lam k).
Proof.
  intros Hu Z. assert (G : forall m, m <= n ->
    (forall k, k < m -> loop m (fun ii lam => split_dual (A := real) (off + ii) (up + ii) (f ii) lam) lam (off + k) = Rmax 0 (f k) /\
                      loop m (fun ii lam => split_dual (A := real) (off + ii) (up + ii) (f ii) lam) lam (up + k) = Rmax 0 (- f k)) /\
    (forall k, (k < off \/ off + m <= k) -> (k < up \/ up + m <= k) -> loop m (fun ii lam => split_dual (A := real) (off + ii) (up + ii) (f ii) lam) lam k = lam k)); [|apply G; lia].
  induction m as [|m IH]; intros Hm; [split; [lia|reflexivity]|]. destruct (IH ltac:(lia)) as [I1 I2]. split.
  - intros k Hk. rewrite !loop_S. destruct (Nat.eq_dec k m) as [->|N].
    + apply split_at; [lia| |]; rewrite I2 by lia; apply Z; lia.
    + rewrite !split_out by lia. apply I1. lia.
  - intros k H1 H2. rewrite loop_S, split_out by lia. apply I2; lia.
Qed.
Definition yh (k : nat) : R := if k <? nb then y (dq_idxb q k) else y (nv2 + (k - nb)).
Lemma lam_hard_rows lam : (forall m, m < dall d -> lam m = 0%R) ->
  (forall k, k < nb + ng -> lam_hard d q y lam k = Rmax 0 (yh k) /\ lam_hard d q y lam (nb + ng + k) = Rmax 0 (- yh k)) /\
  (forall m, 2 * (nb + ng) <= m < dall d -> lam_hard d q y lam m = 0%R).
Proof.
  intros Z. unfold dall in Z. unfold lam_hard. pose proof (splits nb 0 (nb + ng) (fun ii => y (dq_idxb q ii)) lam ltac:(lia) ltac:(intros; split; apply Z; lia)) as [A1 A2].
  change (loop nb (fun (ii : nat) (lam : nat -> num real) => split_dual ii (nb + ng + ii) (y (dq_idxb q ii)) lam) lam) with
    (loop nb (fun ii lam => split_dual (A := real) (0 + ii) (nb + ng + ii) (y (dq_idxb q ii)) lam) lam).
  set (l1 := loop nb (fun ii lam => split_dual (A := real) (0 + ii) (nb + ng + ii) (y (dq_idxb q ii)) lam) lam) in *. pose proof (splits ng nb (2 * nb + ng) (fun ii => y (nv2 + ii)) l1 ltac:(lia) ltac:(intros; split; rewrite A2 by lia; apply Z; lia)) as [B1 B2].
  split.
  - intros k Hk. unfold yh. destruct (Nat.ltb_spec k nb) as [L|L].
    + rewrite !B2 by lia. exact (A1 k L).
    + destruct (B1 (k - nb) ltac:(lia)) as [E1 E2]. replace (nb + (k - nb)) with k in E1 by lia. replace (2 * nb + ng + (k - nb)) with (nb + ng + k) in E2 by lia. split; assumption.
  - intros m Hm. unfold dall in Hm. rewrite B2, A2 by lia. apply Z. lia.
Qed.

(** ** the list of softened rows *)
Lemma idxs_of i0 k : k < nb + ng -> soft k = true -> get_idxs d q i0 (sl k) = k.
Proof.
  intros Hk Ek. unfold get_idxs. assert (G : forall n, n <= nb + ng -> k < n -> loop n (fun ii s => if hard q ii then s else iset s (Z.to_nat (dq_rev q ii)) ii) i0 (sl k) = k); [|apply G; lia].
  induction n as [|n IH]; intros Hn Hkn; [lia|]. rewrite loop_S. destruct (hard q n) eqn:En.
  - apply IH; [lia|]. assert (k <> n) by (intros ->; unfold StackProofs.soft in Ek; rewrite En in Ek; discriminate). lia.
  - destruct (Nat.eq_dec k n) as [->|N]; [apply iset_eq|]. rewrite iset_ne; [apply IH; lia|]. intros E. apply N. assert (Sn : soft n = true) by (unfold StackProofs.soft; rewrite En; reflexivity). exact (sl_inj d q Hs k n Hk ltac:(lia) Ek Sn E).
Qed.
Hypothesis Hord : forall i j, i < j < nb -> (0 <= dq_rev q i)%Z -> (0 <= dq_rev q j)%Z -> (dq_rev q i < dq_rev q j)%Z.
Variable idxs : nat -> nat.
Hypothesis Hidx : forall k, k < nb + ng -> soft k = true -> idxs (sl k) = k.
Let P (ii : nat) : bool := idxs ii <? nb.
Lemma owner e : e < ns -> exists k, k < nb + ng /\ soft k = true /\ sl k = e /\ idxs e = k.
Proof.
  intros He. destruct (proj2 (proj2 Hs) e He) as (k & Hk & Ek). assert (Sk : soft k = true) by (unfold StackProofs.soft, hard; destruct (Z.eqb_spec (dq_rev q k) (-1)); [lia|reflexivity]).
  assert (E : sl k = e) by (unfold StackProofs.sl; lia). exists k. split; [exact Hk|split; [exact Sk|split; [exact E|]]]. rewrite <- E. apply Hidx; assumption.
Qed.
Lemma sl_order i j : i < j < nb -> soft i = true -> soft j = true -> sl i < sl j.
Proof.
  intros H Ei Ej. destruct (soft_rev d q Hs i ltac:(lia) Ei) as [_ A]. destruct (soft_rev d q Hs j ltac:(lia) Ej) as [_ B].
  pose proof (Hord i j H ltac:(lia) ltac:(lia)). lia.
Qed.
Lemma P_soft e : e < ns -> P e = true -> exists js, js < nb /\ soft js = true /\ sl js = e.
Proof. intros He HP. destruct (owner e He) as (k & _ & A & B & C). unfold P in HP. apply Nat.ltb_lt in HP. rewrite C in HP. exists k. auto. Qed.
Lemma count_before n : n <= nb -> forall t, t <= ns -> (forall js, js < n -> soft js = true -> sl js < t) -> (forall js, n <= js < nb -> soft js = true -> t <= sl js) -> cnt P t = cnt soft n.
Proof.
  induction n as [|n IH]; intros Hn t Ht H1 H2.
  - rewrite (cnt_zero P 0 t); [reflexivity|lia|]. intros i _ Hi. destruct (P i) eqn:E; [|reflexivity]. destruct (P_soft i ltac:(lia) E) as (js & A & B & C). specialize (H2 js ltac:(lia) B). lia.
  - cbn [cnt]. destruct (soft n) eqn:En.
    + pose proof (H1 n ltac:(lia) En) as Hlt. rewrite (cnt_zero P (S (sl n)) t).
      * cbn [cnt]. assert (EP : P (sl n) = true) by (unfold P; rewrite Hidx by (try assumption; lia); apply Nat.ltb_lt; lia). rewrite EP. f_equal. apply IH; [lia|lia| |].
        -- intros js Hj Ej. apply sl_order; [lia|assumption|assumption].
        -- intros js Hj Ej. destruct (Nat.eq_dec js n) as [->|N]; [lia|]. pose proof (sl_order n js ltac:(lia) En Ej). lia.
      * lia.
      * intros i Hi1 Hi2. destruct (P i) eqn:E; [|reflexivity]. destruct (P_soft i ltac:(lia) E) as (js & A & B & C). destruct (Nat.lt_trichotomy js n) as [L|[L|L]].
        -- pose proof (sl_order js n ltac:(lia) B En). lia.
        -- subst js. lia.
        -- specialize (H2 js ltac:(lia) B). lia.
    + apply IH; [lia|exact Ht| |].
      * intros js Hj. apply H1. lia.
      * intros js Hj Ej. apply H2; [|exact Ej]. assert (js <> n) by congruence. lia.
Qed.
Lemma count_rk js : js < nb -> soft js = true -> cnt P (sl js) = rk js.
Proof.
  intros H E. destruct (soft_rev d q Hs js ltac:(lia) E) as [A _]. apply count_before; [lia|lia| |].
  - intros i Hi Ei. apply sl_order; [lia|assumption|assumption].
  - intros i Hi Ei. destruct (Nat.eq_dec i js) as [->|N]; [lia|]. pose proof (sl_order js i ltac:(lia) E Ei). lia.
Qed.

(** ** softened rows *)
Definition yrow (k : nat) : R := if k <? nb then if hard q k then y (dq_idxb q k) else y (nv2 + ng + rk k) else y (nv2 + (k - nb)).
Variable lam0 : nat -> R.
Hypothesis H0 : forall k, k < nb + ng -> lam0 k = Rmax 0 (yh k) /\ lam0 (nb + ng + k) = Rmax 0 (- yh k).
Hypothesis Hy0 : forall k, k < nb -> soft k = true -> y (dq_idxb q k) = 0%R.
Hypothesis Hsl : forall e, e < 2 * ns -> (0 <= y (nv + e)%nat)%R.
Let F (n : nat) : (nat -> R) * nat := loop n (lam_soft_step d idxs y) (lam0, 0).
Lemma F_S n : F (S n) = lam_soft_step d idxs y n (F n). Proof. reflexivity. Qed.
Lemma F_k n : snd (F n) = cnt P n.
Proof.
  induction n as [|n IH]; [reflexivity|]. rewrite F_S. unfold lam_soft_step. destruct (F n) as [l k]. cbn [snd] in IH. subst k. cbn [cnt]. change (P n) with (idxs n <? nb). destruct (idxs n <? nb); [|reflexivity].
  destruct (nleb _ _); reflexivity.
Qed.
(** one step, spelled out *)
Lemma F_step n k : n < ns -> k < nb + ng -> soft k = true -> sl k = n ->
  exists l, (k < nb -> forall m, m <> k -> m <> nb + ng + k -> l m = fst (F n) m) /\ (nb <= k -> l = fst (F n)) /\
    (k < nb -> fst (F n) k = 0%R -> fst (F n) (nb + ng + k) = 0%R -> l k = Rmax 0 (yrow k) /\ l (nb + ng + k) = Rmax 0 (- yrow k)) /\
    fst (F (S n)) = vset (A := real) (vset (A := real) l (2 * nb + 2 * ng + n) (y (nv + n)%nat - (if (k <? nb)%nat then Rmax 0 (- yrow k) else l (nb + ng + k)%nat))%R) (2 * nb + 2 * ng + ns + n)
      (y (nv + ns + n)%nat - (if (k <? nb)%nat then Rmax 0 (yrow k) else l k))%R.
Proof.
  intros Hn Hk Ek En. pose proof (F_k n) as Kn. rewrite F_S. unfold lam_soft_step. destruct (F n) as [l0 c]. cbn [fst snd] in *. subst c. assert (EI : idxs n = k) by (rewrite <- En; apply Hidx; assumption). rewrite EI.
  change (@nleb real) with Rleb. change (@n0 real) with 0%R. cbn [num nsub nopp real].
  assert (E1 : Rleb 0 (y (nv + n)) = true) by (destruct (Rleb_spec 0 (y (nv + n))) as [L|L]; [reflexivity|exfalso; apply L, Hsl; lia]).
  assert (E2 : Rleb 0 (y (nv + ns + n)) = true) by (destruct (Rleb_spec 0 (y (nv + ns + n))) as [L|L]; [reflexivity|exfalso; apply L; replace (nv + ns + n) with (nv + (ns + n)) by lia; apply Hsl; lia]).
  destruct (Nat.ltb_spec k nb) as [L|L].
  - assert (Ey : yrow k = y (nv2 + ng + cnt P n)).
    { unfold yrow. destruct (Nat.ltb_spec k nb); [|lia]. unfold StackProofs.soft in Ek. apply negb_true_iff in Ek as Eh. rewrite Eh. f_equal. f_equal. rewrite <- En. symmetry. apply count_rk; [exact L|unfold StackProofs.soft; rewrite Eh; reflexivity]. }
    rewrite <- Ey. destruct (Rleb_spec (yrow k) 0) as [Ly|Ly].
    + exists (vset (A := real) l0 (nb + ng + k) (- yrow k)%R). rewrite E1, E2. cbn [fst]. split; [|split; [lia|split]].
      * intros _ m M1 M2. apply vset_ne. exact M2.
      * intros _ Z1 Z2. rewrite vset_eq, vset_ne by lia. rewrite Z1. unfold Rmax. destruct (Rle_dec 0 (yrow k)), (Rle_dec 0 (- yrow k)); split; lra.
      * replace (Rmax 0 (- yrow k)) with (- yrow k)%R by (unfold Rmax; destruct (Rle_dec 0 (- yrow k)); lra).
        replace (Rmax 0 (yrow k)) with 0%R by (unfold Rmax; destruct (Rle_dec 0 (yrow k)); lra). reflexivity.
    + exists (vset (A := real) l0 k (yrow k)). rewrite E1, E2. cbn [fst]. split; [|split; [lia|split]].
      * intros _ m M1 M2. apply vset_ne. exact M1.
      * intros _ Z1 Z2. rewrite vset_eq, vset_ne by lia. rewrite Z2. unfold Rmax. destruct (Rle_dec 0 (yrow k)), (Rle_dec 0 (- yrow k)); split; lra.
      * replace (Rmax 0 (- yrow k)) with 0%R by (unfold Rmax; destruct (Rle_dec 0 (- yrow k)); lra).
        replace (Rmax 0 (yrow k)) with (yrow k) by (unfold Rmax; destruct (Rle_dec 0 (yrow k)); lra). reflexivity.
  - exists l0. rewrite E1, E2. cbn [fst]. split; [lia|split; [reflexivity|split; [lia|]]]. replace (nb + k - nb) with k by lia. replace (2 * nb + ng + k - nb) with (nb + ng + k) by lia. reflexivity.
Qed.
Lemma F_rows n : n <= ns -> forall k, k < nb + ng ->
  (k < nb -> soft k = true -> sl k < n -> fst (F n) k = Rmax 0 (yrow k) /\ fst (F n) (nb + ng + k) = Rmax 0 (- yrow k)) /\
  ((nb <= k \/ soft k = false \/ n <= sl k) -> fst (F n) k = lam0 k /\ fst (F n) (nb + ng + k) = lam0 (nb + ng + k)).
Proof.
  induction n as [|n IH]; intros Hn k Hk.
  - split; [lia|]. intros _. split; reflexivity.
  - specialize (IH ltac:(lia)). destruct (owner n ltac:(lia)) as (o & Ho & So & Eo & _). destruct (F_step n o ltac:(lia) Ho So Eo) as (l & A1 & A2 & A3 & ->).
    assert (B1 : o < nb -> l o = Rmax 0 (yrow o) /\ l (nb + ng + o) = Rmax 0 (- yrow o)).
    { intros L. destruct (IH o Ho) as [_ I2]. destruct (I2 ltac:(right; right; lia)) as [J1 J2]. destruct (H0 o Ho) as [K1 K2]. unfold yh in K1, K2. destruct (Nat.ltb_spec o nb); [|lia]. rewrite Hy0 in K1, K2 by assumption.
      apply A3; [exact L| |]; [rewrite J1, K1|rewrite J2, K2]; unfold Rmax; [destruct (Rle_dec 0 0)|destruct (Rle_dec 0 (- 0))]; lra. }
    assert (B2 : k <> o -> l k = fst (F n) k /\ l (nb + ng + k) = fst (F n) (nb + ng + k)).
    { intros N. destruct (Nat.ltb_spec o nb) as [L|L]; [split; apply A1; lia|rewrite (A2 L); auto]. }
    rewrite !vset_ne by lia. split.
    + intros Lk Sk Hsk. destruct (Nat.eq_dec k o) as [->|N]; [apply B1; exact Lk|]. destruct (B2 N) as [-> ->]. apply IH; try assumption.
      assert (sl k <> n) by (intros E; apply N; apply (sl_inj d q Hs); try assumption; lia). lia.
    + intros Hc. destruct (Nat.eq_dec k o) as [->|N].
      * destruct Hc as [Hc|[Hc|Hc]]; [|congruence|lia]. rewrite (A2 Hc). apply IH; [exact Ho|]. left. exact Hc.
      * destruct (B2 N) as [-> ->]. apply IH; [exact Hk|]. destruct Hc as [Hc|[Hc|Hc]]; [left; exact Hc|right; left; exact Hc|right; right; lia].
Qed.
Lemma F_row_final k : k < nb + ng -> fst (F ns) k = Rmax 0 (yrow k) /\ fst (F ns) (nb + ng + k) = Rmax 0 (- yrow k).
Proof.
  intros Hk. destruct (F_rows ns (le_n _) k Hk) as [R1 R2]. destruct (soft k) eqn:Sk; [destruct (Nat.ltb_spec k nb) as [L|L]|].
  - apply R1; [exact L|reflexivity|]. apply (soft_rev d q Hs k Hk Sk).
  - destruct (R2 ltac:(left; exact L)) as [-> ->]. destruct (H0 k Hk) as [-> ->]. unfold yrow, yh. destruct (Nat.ltb_spec k nb); [lia|]. auto.
  - destruct (R2 ltac:(right; left; exact eq_refl)) as [-> ->]. destruct (H0 k Hk) as [-> ->]. unfold yrow, yh. unfold StackProofs.soft in Sk. apply negb_false_iff in Sk. rewrite Sk. auto.
Qed.
Lemma F_slack n : n <= ns -> forall k, k < nb + ng -> soft k = true -> sl k < n ->
  fst (F n) (2 * nb + 2 * ng + sl k) = (y (nv + sl k)%nat - Rmax 0 (- yrow k))%R /\ fst (F n) (2 * nb + 2 * ng + ns + sl k) = (y (nv + ns + sl k)%nat - Rmax 0 (yrow k))%R.
Proof.
  induction n as [|n IH]; intros Hn k Hk Sk Hlt; [lia|]. specialize (IH ltac:(lia)).
  destruct (owner n ltac:(lia)) as (o & Ho & So & Eo & _). destruct (F_step n o ltac:(lia) Ho So Eo) as (l & A1 & A2 & A3 & ->).
  destruct (Nat.eq_dec k o) as [->|N].
  - rewrite Eo. rewrite (vset_ne _ (2 * nb + 2 * ng + ns + n)) by lia. rewrite !vset_eq. destruct (Nat.ltb_spec o nb) as [L|L]; [auto|]. rewrite (A2 L).
    destruct (F_rows n ltac:(lia) o Ho) as [_ R2]. destruct (R2 ltac:(left; exact L)) as [-> ->]. destruct (H0 o Ho) as [-> ->]. unfold yrow, yh. destruct (Nat.ltb_spec o nb); [lia|]. auto.
  - assert (Nsl : sl k <> n) by (intros E; apply N; apply (sl_inj d q Hs); try assumption; lia). destruct (soft_rev d q Hs k Hk Sk) as [Lk _].
    rewrite !vset_ne by lia. destruct (Nat.ltb_spec o nb) as [L|L]; [rewrite !(A1 L) by lia|rewrite (A2 L)]; apply IH; try assumption; lia.
Qed.
End L.

(** ** all together *)
Lemma lam_all (d : ddims) (q : rdqp) (Hs : one_row_each d q)
  (Hord : forall i j, i < j < dnb d -> (0 <= dq_rev q i)%Z -> (0 <= dq_rev q j)%Z -> (dq_rev q i < dq_rev q j)%Z)
  (y lam : nat -> R) i0 (Hy0 : forall k, k < dnb d -> soft q k = true -> y (dq_idxb q k) = 0%R) (Hsl : forall e, e < 2 * dns d -> (0 <= y (dnv d + e)%nat)%R) :
  let l := qpo_lam d q (get_idxs d q i0) y lam in
  (forall k, k < drows d -> l k = Rmax 0 (yrow d q y k) /\ l (drows d + k) = Rmax 0 (- yrow d q y k)) /\
  (forall k, k < drows d -> soft q k = true ->
     l (2 * drows d + sl q k) = (y (dnv d + sl q k)%nat - Rmax 0 (- yrow d q y k))%R /\ l (2 * drows d + (dns d + sl q k)) = (y (dnv d + (dns d + sl q k))%nat - Rmax 0 (yrow d q y k))%R).
Proof.
  intros l. unfold l, qpo_lam. set (lam1 := lam_hard d q y _).
  assert (H0 : forall k, k < dnb d + dng d -> lam1 k = Rmax 0 (yh d q y k) /\ lam1 (dnb d + dng d + k) = Rmax 0 (- yh d q y k)).
  { apply lam_hard_rows. intros m Hm. unfold dall in Hm. rewrite wr_in by lia. reflexivity. }
  pose proof (idxs_of d q Hs i0) as Hidx. unfold drows. split.
  - intros k Hk. apply (F_row_final d q Hs y Hord (get_idxs d q i0) Hidx lam1 H0 Hy0 Hsl k Hk).
  - intros k Hk Sk. destruct (F_slack d q Hs y Hord (get_idxs d q i0) Hidx lam1 H0 Hy0 Hsl (dns d) (le_n _) k Hk Sk (proj1 (soft_rev d q Hs k Hk Sk))) as [E1 E2].
    replace (2 * (dnb d + dng d) + sl q k) with (2 * dnb d + 2 * dng d + sl q k) by lia. replace (2 * (dnb d + dng d) + (dns d + sl q k)) with (2 * dnb d + 2 * dng d + dns d + sl q k) by lia.
    replace (dnv d + (dns d + sl q k)) with (dnv d + dns d + sl q k) by lia. split; assumption.
Qed.
