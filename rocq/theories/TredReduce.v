(** One pass of the reduction loop of tred2, as a congruence with a reflection (reals). *)
From Coq Require Import ZArith List Bool Reals Lia Lra.
From Verif Require Import Arith Vec LinModel RSum TredModel TredStep TredOrth.
Open Scope R_scope.
Local Notation st := (tst real).
Ltac toR := match goal with |- @eq _ ?x ?y => apply (Rminus_diag_uniq x y) end.

Lemma sum_trunc n i f : (i <= n)%nat -> (forall k, (i <= k)%nat -> (k < n)%nat -> f k = 0) -> sum n f = sum i f.
Proof. intros Hi Z. replace n with (i + (n - i))%nat by lia. rewrite sum_split, (sum_zero (n - i)); [ring|]. intros k Hk. apply Z; lia. Qed.
Lemma scale_of_sum i (s : st) : scale_of i s = sum i (fun k => Rabs (td s k)).
Proof. unfold scale_of. apply (loop_inv (fun j (a : R) => a = sum j (fun k => Rabs (td s k)))); [reflexivity|]. intros k a _ ->. rewrite sum_S1. reflexivity. Qed.
Lemma is_zero_real (x : R) : is_zero (A := real) x = true <-> x = 0.
Proof. unfold is_zero. cbn. destruct (Rleb_spec x 0), (Rleb_spec 0 x); cbn; split; intros; try lra; discriminate. Qed.
Lemma sum_abs_zero n f : sum n (fun k => Rabs (f k)) = 0 -> forall k, (k < n)%nat -> f k = 0.
Proof.
  induction n as [|n IH]; intros H k Hk; [lia|]. rewrite sum_S in H.
  assert (P : 0 <= sum n (fun k => Rabs (f k))) by (apply sum_nonneg; intros; apply Rabs_pos). pose proof (Rabs_pos (f n)).
  destruct (Nat.eq_dec k n) as [->|]; [|apply IH; [lra|lia]]. destruct (Req_dec (f n) 0) as [E|E]; [exact E|]. apply Rabs_no_R0 in E. lra.
Qed.
Lemma sum_pick2 i (f g : nat -> R) j v : (j < i)%nat -> (forall k, (k < i)%nat -> k <> j -> f k = g k) -> f j = g j + v -> sum i f = sum i g + v.
Proof. intros Hj E Ej. rewrite (sum_pick i j f Hj), (sum_pick i j g Hj), Ej. rewrite (sum_ext i (fun k => if (k =? j)%nat then 0 else f k) (fun k => if (k =? j)%nat then 0 else g k)); [ring|]. intros k Hk. destruct (Nat.eqb_spec k j); auto. Qed.

Definition step_ok (n i : nat) (s r : st) : Prop :=
  (forall x y, bil n (shape (i - 1) r) x y = bil n (shape i s) (refl n (ucol r i) (td r i) x) (refl n (ucol r i) (td r i) y)) /\
  ((td r i = 0 /\ forall a, ucol r i a = 0) \/ (td r i <> 0 /\ dot n (ucol r i) (ucol r i) = 2 * td r i)) /\
  (forall j, (j < i)%nat -> td r j = tV r (i - 1)%nat j) /\ (forall k, (i < k)%nat -> td r k = td s k) /\
  (forall a b, (i < b)%nat -> tV r a b = tV s a b) /\ (forall a b, (i < a)%nat -> tV r a b = tV s a b) /\ (forall j, (j < i)%nat -> tV r i j = 0).

Lemma no_reflection_ok n i (s : st) : (0 < i)%nat -> (i < n)%nat -> (forall j, (j <= i)%nat -> td s j = tV s i j) -> (forall k, (k < i)%nat -> td s k = 0) -> step_ok n i s (setd i (@n0 real) (no_reflection i s)).
Proof.
  intros Hi Hn D Z. destruct (no_reflection_spec i s Hi) as (V1 & D1 & E1). set (r := no_reflection i s) in *. clearbody r.
  assert (U : forall a, ucol (setd i (@n0 real) r) i a = 0). { intros a. unfold ucol. cbn [tV setd]. destruct (Nat.ltb_spec a i); [|reflexivity]. rewrite V1. upd; reflexivity. }
  unfold step_ok. split; [|split; [left; split; [cbn; unfold vset; rewrite Nat.eqb_refl; reflexivity|exact U]|]].
  - intros x y. assert (RX : forall h z a, refl n (ucol (setd i (@n0 real) r) i) h z a = z a) by (intros; unfold refl; rewrite U; ring).
    rewrite (bil_ext_v n (shape i s) _ x _ y) by (intros; apply RX). apply bil_ext.
    assert (L : forall a b, (b <= a)%nat -> shape (i - 1) (setd i (@n0 real) r) a b = shape i s a b).
    { intros a b Hb. unfold shape. rewrite Nat.max_l, Nat.min_r by lia. cbn [tV te setd]. rewrite !V1, E1. pose proof (D b) as Db. pose proof (Z b) as Zb.
      destruct (Nat.leb_spec a (i - 1)), (Nat.leb_spec a i); try lia.
      - upd; reflexivity.
      - assert (a = i) by lia. subst a. destruct (Nat.eqb_spec i b) as [->|]; [upd; reflexivity|]. destruct (Nat.eqb_spec i (b + 1)) as [->|].
        + replace (b + 1 - 1)%nat with b by lia. rewrite Nat.eqb_refl. apply Db. lia.
        + rewrite <- Db, Zb by lia. reflexivity.
      - upd; reflexivity. }
    intros a b _ _. destruct (le_lt_dec b a); [apply L; assumption|]. rewrite shape_sym, (shape_sym i). apply L. lia.
  - repeat split.
    + intros j Hj. cbn [td tV setd]. unfold vset. rewrite D1, V1. upd; reflexivity.
    + intros k Hk. cbn [td setd]. unfold vset. rewrite D1. upd; reflexivity.
    + intros a b Hb. cbn [tV setd]. rewrite V1. upd; reflexivity.
    + intros a b Hb. cbn [tV setd]. rewrite V1. upd; reflexivity.
    + intros j Hj. cbn [tV setd]. rewrite V1. upd; reflexivity.
Qed.
Lemma reflection_ok n i (s : st) c : (0 < i)%nat -> (i < n)%nat -> (forall j, (j <= i)%nat -> td s j = tV s i j) -> c <> 0 -> (exists k, (k < i)%nat /\ td s k <> 0) ->
  forall r h, reflection (A := real) sqrt i c s = (r, h) -> step_ok n i s (setd i h r).
Proof.
  intros Hi Hn D Hc (k0 & Hk0 & NZ) r h ER. pose proof (reflection_spec i c s Hi r h ER) as W. cbv zeta in W.
  set (s2 := sum i (fun k => td s k / c * (td s k / c))) in *. set (f := td s (i - 1)%nat / c) in *. set (g := if Rlt_dec 0 f then - sqrt s2 else sqrt s2) in *.
  set (u := fun a => if (a =? i - 1)%nat then f - g else td s a / c) in *. set (p := fun a => sum i (fun b => sy (tV s) a b * u b) / h) in *.
  set (K := sum i (fun b => p b * u b) / (h + h)) in *. 
  change (h = s2 - f * g /\
    (forall a b, tV r a b = if (b <? i)%nat then if (a =? i)%nat then 0 else if (b <=? a)%nat && (a <? i)%nat then tV s a b - (u b * (p a - K * u a) + (p b - K * u b) * u a) else tV s a b
       else if (a <? i)%nat && (b =? i)%nat then u a else tV s a b) /\
    (forall k, td r k = if (k <? i)%nat then tV r (i - 1)%nat k else td s k) /\ (forall k, (i <= k)%nat -> te r k = if (k =? i)%nat then c * g else te s k)) in W.
  destruct W as (Hh & VR & DR & ERR).
  assert (S0 : 0 <= s2) by (apply sum_nonneg; intros; nra).
  assert (S2 : 0 < s2). { destruct S0 as [S0|S0]; [exact S0|]. exfalso. apply NZ. symmetry in S0. pose proof (sum_sq_zero i (fun k => td s k / c) S0 k0 Hk0) as Q. cbn beta in Q.
    apply (Rmult_eq_reg_r (/ c)); [|apply Rinv_neq_0_compat; exact Hc]. rewrite Rmult_0_l. exact Q. }
  assert (GG : g * g = s2). { unfold g. destruct (Rlt_dec 0 f); [replace (- sqrt s2 * - sqrt s2) with (sqrt s2 * sqrt s2) by ring|]; apply sqrt_sqrt; lra. }
  assert (HP : 0 < h). { rewrite Hh. pose proof (sqrt_lt_R0 s2 S2). unfold g. destruct (Rlt_dec 0 f); nra. }
  assert (UC : forall a, ucol (setd i h r) i a = if (a <? i)%nat then u a else 0).
  { intros a. unfold ucol. cbn [tV setd]. destruct (Nat.ltb_spec a i); [|reflexivity]. rewrite VR. upd; reflexivity. }
  assert (UU : sum i (fun a => u a * u a) = 2 * h).
  { rewrite (sum_pick2 i (fun a => u a * u a) (fun a => td s a / c * (td s a / c)) (i - 1) ((f - g) * (f - g) - f * f)); [fold s2; rewrite Hh; nra|lia| |].
    - intros k Hk NE. unfold u. destruct (Nat.eqb_spec k (i - 1)); [lia|reflexivity].
    - unfold u. rewrite Nat.eqb_refl. fold f. ring. }
  assert (UD : sum i (fun a => td s a * u a) = c * h).
  { rewrite (sum_ext i _ (fun a => c * (td s a / c * u a))) by (intros; field; exact Hc). rewrite sum_scal. f_equal.
    rewrite (sum_pick2 i (fun a => td s a / c * u a) (fun a => td s a / c * (td s a / c)) (i - 1) (f * (f - g) - f * f)); [fold s2; rewrite Hh; ring|lia| |].
    - intros k Hk NE. unfold u. destruct (Nat.eqb_spec k (i - 1)); [lia|reflexivity].
    - unfold u. rewrite Nat.eqb_refl. fold f. ring. }
  assert (HD : td (setd i h r) i = h) by (cbn; unfold vset; rewrite Nat.eqb_refl; reflexivity).
  unfold step_ok. rewrite HD. split; [|split; [right; split; [lra|]|]].
  - set (pn := fun a => if (a <? i)%nat then p a else if (a =? i)%nat then c else 0).
    apply (house n (shape i s) (shape (i - 1) (setd i h r)) (ucol (setd i h r) i) pn K h).
    + lra.
    + intros; apply shape_sym.
    + intros a Ha. rewrite (sum_trunc n i); [|lia|intros k Hk _; rewrite UC; upd; ring].
      rewrite (sum_ext i _ (fun b => shape i s a b * u b)). 2:{ intros b Hb. rewrite UC. upd; reflexivity. }
      unfold pn. destruct (Nat.ltb_spec a i).
      * unfold p. replace (h * (sum i (fun b => sy (tV s) a b * u b) / h)) with (sum i (fun b => sy (tV s) a b * u b)) by (field; lra). apply sum_ext. intros b Hb. unfold shape, sy. destruct (Nat.leb_spec (Nat.max a b) i); [reflexivity|lia].
      * destruct (Nat.eqb_spec a i) as [->|].
        -- rewrite (sum_ext i _ (fun b => td s b * u b)); [rewrite UD; ring|]. intros b Hb. unfold shape. rewrite Nat.max_l, Nat.min_r by lia. rewrite Nat.leb_refl, <- D by lia. reflexivity.
        -- rewrite sum_zero; [ring|]. intros b Hb. unfold shape. rewrite Nat.max_l, Nat.min_r by lia. upd; ring.
    + unfold dot. rewrite (sum_trunc n i); [|lia|intros k Hk _; rewrite UC; upd; ring]. rewrite (sum_ext i _ (fun b => p b * u b)).
      * unfold K. field. lra.
      * intros b Hb. rewrite UC. unfold pn. upd; ring.
    + assert (L : forall a b, (b <= a)%nat -> shape (i - 1) (setd i h r) a b = shape i s a b - ((pn a - K * ucol (setd i h r) i a) * ucol (setd i h r) i b + ucol (setd i h r) i a * (pn b - K * ucol (setd i h r) i b))).
      { intros a b Hb. rewrite !UC. unfold shape, pn. rewrite Nat.max_l, Nat.min_r by lia. cbn [tV te setd]. rewrite !VR.
        destruct (Nat.ltb_spec a i) as [La|Ga].
        - destruct (Nat.leb_spec a (i - 1)); [|lia]. destruct (Nat.leb_spec a i); [|lia]. destruct (Nat.ltb_spec b i); [|lia]. destruct (Nat.eqb_spec a i); [lia|]. destruct (Nat.leb_spec b a); [|lia]. cbn [andb]. (toR; ring).
        - destruct (Nat.leb_spec a (i - 1)); [lia|]. destruct (Nat.eqb_spec a i) as [->|NE].
          + rewrite Nat.leb_refl. destruct (Nat.eqb_spec i b) as [<-|NB].
            * rewrite Nat.ltb_irrefl. cbn [andb]. rewrite Nat.eqb_refl. toR; ring.
            * destruct (Nat.ltb_spec b i); [|lia]. rewrite <- D by lia. rewrite (ERR i) by lia. rewrite Nat.eqb_refl. unfold u. destruct (Nat.eqb_spec i (b + 1)) as [Eb|].
              -- destruct (Nat.eqb_spec b (i - 1)); [|lia]. subst b. unfold f. toR; field; exact Hc.
              -- destruct (Nat.eqb_spec b (i - 1)); [lia|]. toR; field; exact Hc.
          + destruct (Nat.leb_spec a i); [lia|]. cbn [andb]. rewrite (ERR a) by lia. destruct (Nat.eqb_spec a i); [lia|]. destruct (Nat.ltb_spec b i).
            * destruct (Nat.ltb_spec a i); [lia|]. destruct (Nat.eqb_spec a b); [lia|]. destruct (Nat.eqb_spec a (b + 1)); [lia|]. (toR; ring).
            * destruct (Nat.ltb_spec a i); [lia|]. cbn [andb]. destruct (Nat.eqb_spec a b); [(toR; ring)|]. destruct (Nat.eqb_spec a (b + 1)); (toR; ring). }
      intros a b _ _. destruct (le_lt_dec b a); [apply L; assumption|]. rewrite shape_sym, (shape_sym i), L by lia. ring.
  - unfold dot. rewrite (sum_trunc n i); [|lia|intros k Hk _; rewrite UC; upd; ring]. rewrite <- UU. apply sum_ext. intros a Ha. rewrite UC. upd; reflexivity.
  - repeat split.
    + intros j Hj. cbn [td tV setd]. unfold vset. rewrite DR. upd; reflexivity.
    + intros k Hk. cbn [td setd]. unfold vset. rewrite DR. upd; reflexivity.
    + intros a b Hb. cbn [tV setd]. rewrite VR. upd; reflexivity.
    + intros a b Hb. cbn [tV setd]. rewrite VR. upd; reflexivity.
    + intros j Hj. cbn [tV setd]. rewrite VR. upd; reflexivity.
Qed.
Lemma reduce_ok n i (s : st) : (0 < i)%nat -> (i < n)%nat -> (forall j, (j <= i)%nat -> td s j = tV s i j) -> step_ok n i s (reduce (A := real) sqrt i s).
Proof.
  intros Hi Hn D. unfold reduce. destruct (is_zero (scale_of i s)) eqn:Z.
  - apply no_reflection_ok; try assumption. apply is_zero_real in Z. rewrite scale_of_sum in Z. apply sum_abs_zero. exact Z.
  - assert (NZ : scale_of i s <> 0) by (intros E; apply is_zero_real in E; congruence).
    destruct (reflection sqrt i (scale_of i s) s) as [r h] eqn:ER. eapply reflection_ok; try eassumption.
    rewrite scale_of_sum in NZ. clear - NZ. induction i as [|i IH]; [cbn in NZ; lra|]. destruct (Req_dec (td s i) 0) as [E|E]; [|exists i; split; [lia|exact E]].
    rewrite sum_S, E, Rabs_R0, Rplus_0_r in NZ. destruct (IH NZ) as (k & Hk & H). exists k. split; [lia|exact H].
Qed.
