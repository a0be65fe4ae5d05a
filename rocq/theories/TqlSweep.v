(** One sweep of the QL iteration as a similarity transformation (reals). *)
From Coq Require Import ZArith List Bool Reals Lia Lra.
From Verif Require Import Arith Vec LinModel RSum TredModel TredStep TredOrth TredReduce TqlModel TqlProofs.
Open Scope R_scope.
Local Notation st := (tst real).

(** the tridiagonal matrix; e b is the entry (b + 1, b) *)
Definition tri (l : nat) (f : R) (d e : nat -> R) (a b : nat) : R :=
  if (a =? b)%nat then d a + (if (l <=? a)%nat then f else 0) else if (a =? b + 1)%nat then e b else if (b =? a + 1)%nat then e a else 0.
Ltac dec := repeat match goal with
  | |- context [Nat.eqb ?a ?b] => destruct (Nat.eqb_spec a b); try (exfalso; lia)
  | |- context [Nat.leb ?a ?b] => destruct (Nat.leb_spec a b); try (exfalso; lia)
  end.

Section N.
Variable n : nat.
Variable S : nat -> nat -> R.
Lemma near_ext tau V T T' : (forall a b, (a < n)%nat -> (b < n)%nat -> T a b = T' a b) -> near n S tau V T -> near n S tau V T'.
Proof. intros E N x. rewrite <- (bil_ext n T T') by exact E. apply N. Qed.
Lemma dot_nonneg x : 0 <= dot n x x. Proof. unfold dot. apply sum_nonneg. intros; nra. Qed.
Lemma near_le tau tau' V T : tau <= tau' -> near n S tau V T -> near n S tau' V T.
Proof. intros H N x. pose proof (N x). pose proof (dot_nonneg x). nra. Qed.
(** dropping the entry e_k *)
Lemma bil_drop k (e : R) x : (k + 1 < n)%nat -> bil n (fun a b => if (a =? k + 1)%nat && (b =? k)%nat || (a =? k)%nat && (b =? k + 1)%nat then e else 0) x x = 2 * (e * x k * x (k + 1)%nat).
Proof.
  intros Hk. unfold bil.
  assert (E : forall a, (a < n)%nat -> sum n (fun b => x a * (if (a =? k + 1)%nat && (b =? k)%nat || (a =? k)%nat && (b =? k + 1)%nat then e else 0) * x b) = (if (a =? k)%nat then e * x k * x (k + 1)%nat else 0) + (if (a =? k + 1)%nat then e * x k * x (k + 1)%nat else 0)).
  { intros a Ha. destruct (Nat.eqb_spec a k) as [->|]; [|destruct (Nat.eqb_spec a (k + 1)) as [->|]].
    - destruct (Nat.eqb_spec k (k + 1)); [lia|]. rewrite (sum_one n (k + 1)); [|exact Hk|intros b _ NE; cbn [andb orb]; destruct (Nat.eqb_spec b (k + 1)); [contradiction|ring]]. cbn [andb orb]. rewrite Nat.eqb_refl. ring.
    - rewrite (sum_one n k); [|lia|intros b _ NE; cbn [andb orb]; destruct (Nat.eqb_spec b k); [contradiction|cbn [orb]; ring]]. cbn [andb orb]. rewrite Nat.eqb_refl. cbn [orb]. ring.
    - cbn [andb orb]. rewrite sum_zero by (intros; ring). ring. }
  rewrite (sum_ext n _ _ E), sum_plus, (sum_one n k), (sum_one n (k + 1)); try lia.
  - rewrite !Nat.eqb_refl. ring.
  - intros b _ NE. destruct (Nat.eqb_spec b (k + 1)); [contradiction|reflexivity].
  - intros b _ NE. destruct (Nat.eqb_spec b k); [contradiction|reflexivity].
Qed.
Lemma two_le k x : (k + 1 < n)%nat -> x k * x k + x (k + 1)%nat * x (k + 1)%nat <= dot n x x.
Proof.
  intros Hk. unfold dot. replace n with (k + (2 + (n - k - 2)))%nat by lia. rewrite !sum_split. cbn [sum]. rewrite !Nat.add_0_r.
  pose proof (sum_nonneg k (fun i => x i * x i) ltac:(intros; nra)). pose proof (sum_nonneg (n - k - 2) (fun i => x (k + (2 + i))%nat * x (k + (2 + i))%nat) ltac:(intros; nra)). lra.
Qed.
Lemma near_drop tau del k e V T T' : 0 <= del -> ((k + 1 < n)%nat -> Rabs e <= del) ->
  (forall a b, (a < n)%nat -> (b < n)%nat -> T a b = T' a b + (if (a =? k + 1)%nat && (b =? k)%nat || (a =? k)%nat && (b =? k + 1)%nat then e else 0)) -> near n S tau V T -> near n S (tau + del) V T'.
Proof.
  intros Hd He E N x. destruct (le_lt_dec n (k + 1)) as [Hk|Hk].
  - apply (near_le tau); [lra|]. apply (near_ext tau V T); [|exact N]. intros a b Ha Hb. rewrite E by assumption.
    destruct (Nat.eqb_spec a (k + 1)), (Nat.eqb_spec b (k + 1)); try lia. cbn [andb]. rewrite andb_false_r. cbn [orb]. ring.
  - specialize (N x). specialize (He Hk).
    assert (B : bil n T x x = bil n T' x x + 2 * (e * x k * x (k + 1)%nat)).
    { rewrite <- bil_drop by exact Hk. unfold bil. rewrite <- sum_plus. apply sum_ext. intros a Ha. rewrite <- sum_plus. apply sum_ext. intros b Hb. rewrite E by assumption. ring. }
    rewrite B in N. pose proof (two_le k x Hk). set (u := bil n S (act n V x) (act n V x)) in *. set (t := bil n T' x x) in *.
    assert (Rabs (2 * (e * x k * x (k + 1)%nat)) <= del * dot n x x).
    { replace (2 * (e * x k * x (k + 1)%nat)) with (e * (2 * (x k * x (k + 1)%nat))) by ring. rewrite Rabs_mult.
      assert (Rabs (2 * (x k * x (k + 1)%nat)) <= dot n x x) by (pose proof (Rle_0_sqr (x k - x (k + 1)%nat)) as U1; pose proof (Rle_0_sqr (x k + x (k + 1)%nat)) as U2; unfold Rsqr in U1, U2; apply Rabs_le; split; lra).
      apply Rmult_le_compat; try apply Rabs_pos; assumption. }
    replace (u - t) with ((u - (t + 2 * (e * x k * x (k + 1)%nat))) + 2 * (e * x k * x (k + 1)%nat)) by ring.
    eapply Rle_trans; [apply Rabs_triang|]. lra.
Qed.

(** the shift *)
Lemma shift_spec l (t : st) : te t l <> 0 -> (l + 1 < n)%nat -> forall t' dl1 h, shift (A := real) sqrt n l t = (t', dl1, h) ->
  tV t' = tV t /\ te t' = te t /\ (forall k, (k < l)%nat -> td t' k = td t k) /\ (forall k, (l <= k)%nat -> (k < n)%nat -> td t' k + h = td t k) /\ td t' (l + 1)%nat = dl1 /\ dl1 <> 0 /\ td t' l * dl1 = te t l * te t l.
Proof.
  intros He Hl t' dl1 h E. unfold shift in E. cbv zeta in E.
  set (p := @ndiv real (@nsub real (td t (l + 1)%nat) (td t l)) (@nmul real (ncst 2 0) (te t l))) in *.
  match type of E with context [@nadd real p ?r] => set (q := @nadd real p r) in * end.
  assert (Q : q * q - 2 * p * q - 1 = 0 /\ q <> 0 :> R).
  { assert (Z : 0 <= p * p + 1) by nra. assert (P : 0 < sqrt (p * p + 1)) by (apply sqrt_lt_R0; nra). pose proof (sqrt_sqrt _ Z) as X.
    assert (M : (p + sqrt (p * p + 1)) * (p - sqrt (p * p + 1)) = -1) by (ring_simplify; nra).
    assert (C : q = p + sqrt (p * p + 1) :> R \/ q = p - sqrt (p * p + 1) :> R).
    { unfold q, hypot2. cbn. rewrite Rmult_1_l. match goal with |- context [if ?b then _ else _] => destruct b end; [right|left]; cbn; ring. }
    split; [destruct C as [C|C]; rewrite C; ring_simplify; nra|]. destruct C as [C|C]; rewrite C; intros Z0; rewrite Z0 in M; lra. }
  destruct Q as (Q1 & Q2). assert (PD : 2 * te t l * p = td t (l + 1)%nat - td t l :> R).
  { unfold p. cbn. replace (IZR 2 * IZR (10 ^ 0)) with 2 by (cbn; ring). field. exact He. }
  clearbody q. clearbody p.
  match type of E with (loop ?m ?F ?t0, _, _) = _ => set (t1 := t0) in *;
    assert (L : tV (loop m F t1) = tV t1 /\ te (loop m F t1) = te t1 /\ forall k, td (loop m F t1) k = if (l + 2 <=? k)%nat && (k <? l + 2 + m)%nat then td t1 k - h else td t1 k) end.
  { injection E as _ _ <-. pose (P := fun (m : nat) (z : st) => tV z = tV t1 /\ te z = te t1 /\ forall k, td z k = if (l + 2 <=? k)%nat && (k <? l + 2 + m)%nat then td t1 k - (@nsub real (td t l) (td t1 l)) else td t1 k).
    match goal with |- context [loop ?m ?F t1] => assert (L : P m (loop m F t1)); [|exact L] end.
    apply (loop_inv P); unfold P.
    - split; [reflexivity|]. split; [reflexivity|]. intros k. destruct (Nat.leb_spec (l + 2) k), (Nat.ltb_spec k (l + 2 + 0)); try lia; reflexivity.
    - intros m z Hm (H1 & H2 & H3). split; [exact H1|]. split; [exact H2|]. intros k. cbn [td setd]. unfold vset. rewrite !H3.
      destruct (Nat.eqb_spec k (l + 2 + m)) as [->|].
      + destruct (Nat.leb_spec (l + 2) (l + 2 + m)), (Nat.ltb_spec (l + 2 + m) (l + 2 + m)), (Nat.ltb_spec (l + 2 + m) (l + 2 + (m + 1))); try lia. reflexivity.
      + destruct (Nat.leb_spec (l + 2) k), (Nat.ltb_spec k (l + 2 + m)), (Nat.ltb_spec k (l + 2 + (m + 1))); try lia; reflexivity. }
  pose proof (f_equal (fun z => fst (fst z)) E) as E1. pose proof (f_equal (fun z => snd (fst z)) E) as E2. pose proof (f_equal snd E) as E3. cbn [fst snd] in E1, E2, E3. match type of E1 with ?X = _ => match type of L with context [loop ?m ?F t1] => change (loop m F t1) with X in L end end. rewrite E1 in L. destruct L as (L1 & L2 & L3). cbn [tV te setd t1] in L1, L2.
  assert (D : forall k, td t1 k = if (k =? l + 1)%nat then te t l * q else if (k =? l)%nat then te t l / q else td t k) by (intros; reflexivity).
  assert (Hh : h = td t l - te t l / q) by (rewrite <- E3, D; destruct (Nat.eqb_spec l (l + 1)); [lia|]; rewrite Nat.eqb_refl; reflexivity).
  assert (Hd : dl1 = te t l * q) by (rewrite <- E2, D, Nat.eqb_refl; reflexivity).
  split; [exact L1|]. split; [exact L2|]. split; [|split; [|split; [|split]]].
  - intros k Hk. rewrite L3, D. destruct (Nat.leb_spec (l + 2) k), (Nat.eqb_spec k (l + 1)), (Nat.eqb_spec k l); try lia. reflexivity.
  - intros k Hk Hk2. rewrite L3, D. destruct (Nat.leb_spec (l + 2) k).
    + destruct (Nat.ltb_spec k (l + 2 + (n - (l + 2)))), (Nat.eqb_spec k (l + 1)), (Nat.eqb_spec k l); try lia. cbn [andb]. ring.
    + cbn [andb]. rewrite Hh. destruct (Nat.eqb_spec k (l + 1)) as [->|]; [|destruct (Nat.eqb_spec k l) as [->|]; [ring|lia]].
      apply (Rmult_eq_reg_r q); [|exact Q2]. transitivity (te t l * (q * q - 1) + td t l * q); [field; exact Q2|].
      replace (q * q - 1) with (2 * p * q) by lra. transitivity ((2 * te t l * p + td t l) * q); [ring|]. rewrite PD. ring.
  - rewrite L3, D, Nat.eqb_refl. destruct (Nat.leb_spec (l + 2) (l + 1)); [lia|]. cbn [andb]. symmetry; exact Hd.
  - rewrite Hd. apply Rmult_integral_contrapositive_currified; assumption.
  - rewrite L3, D, Hd. destruct (Nat.leb_spec (l + 2) l), (Nat.eqb_spec l (l + 1)); try lia. cbn [andb]. rewrite Nat.eqb_refl. field. exact Q2.
Qed.
End N.
