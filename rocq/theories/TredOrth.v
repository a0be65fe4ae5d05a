(** One step of tred2 is a similarity transformation with a Householder reflection (reals). *)
From Coq Require Import ZArith List Bool Reals Lia Lra.
From Verif Require Import Arith Vec LinModel RSum TredModel TredStep.
Open Scope R_scope.
Local Notation st := (tst real).

(** x' M y, and the reflection x - (u'x / h) u *)
Definition bil (n : nat) (M : nat -> nat -> R) (x y : nat -> R) : R := sum n (fun a => sum n (fun b => x a * M a b * y b)).
Definition refl (n : nat) (u : nat -> R) (h : R) (x : nat -> R) : nat -> R := fun a => x a - dot n u x / h * u a.

Lemma bil_dot n M x y : bil n M x y = dot n x (fun a => sum n (fun b => M a b * y b)).
Proof. unfold bil, dot. apply sum_ext. intros a _. rewrite <- sum_scal. apply sum_ext. intros; ring. Qed.
Lemma bil_sym n M x y : (forall a b, M a b = M b a) -> bil n M x y = bil n M y x.
Proof. intros S. unfold bil. rewrite sum_swap. apply sum_ext. intros a _. apply sum_ext. intros b _. rewrite S. ring. Qed.
Lemma bil_ext n M M' x y : (forall a b, (a < n)%nat -> (b < n)%nat -> M a b = M' a b) -> bil n M x y = bil n M' x y.
Proof. intros E. unfold bil. apply sum_ext. intros a Ha. apply sum_ext. intros b Hb. rewrite E by assumption. reflexivity. Qed.
Lemma bil_ext_v n M x x' y y' : (forall a, (a < n)%nat -> x a = x' a) -> (forall a, (a < n)%nat -> y a = y' a) -> bil n M x y = bil n M x' y'.
Proof. intros E F. unfold bil. apply sum_ext. intros a Ha. apply sum_ext. intros b Hb. rewrite E, F by assumption. reflexivity. Qed.
Lemma bil_sub_l n M x al u y : bil n M (fun a => x a - al * u a) y = bil n M x y - al * bil n M u y.
Proof. rewrite !bil_dot. unfold dot. rewrite <- sum_scal, <- sum_minus. apply sum_ext. intros; ring. Qed.
Lemma bil_sub_r n M x be u y : bil n M x (fun a => y a - be * u a) = bil n M x y - be * bil n M x u.
Proof. unfold bil. rewrite <- sum_scal, <- sum_minus. apply sum_ext. intros a _. rewrite <- sum_scal, <- sum_minus. apply sum_ext. intros; ring. Qed.
Lemma bil_rank2 n M q u x y : bil n (fun a b => M a b - (q a * u b + u a * q b)) x y = bil n M x y - (dot n x q * dot n u y + dot n x u * dot n q y).
Proof.
  unfold bil, dot. rewrite <- !sum_scal_r, <- sum_plus, <- sum_minus. apply sum_ext. intros a _.
  rewrite <- !sum_scal, <- sum_plus, <- sum_minus. apply sum_ext. intros; ring.
Qed.
Lemma dot_comm n x y : dot n x y = dot n y x. Proof. unfold dot. apply sum_ext. intros; ring. Qed.
Lemma dot_sub_l n x al u y : dot n (fun a => x a - al * u a) y = dot n x y - al * dot n u y.
Proof. unfold dot. rewrite <- sum_scal, <- sum_minus. apply sum_ext. intros; ring. Qed.
Lemma dot_sub_r n x be u y : dot n x (fun a => y a - be * u a) = dot n x y - be * dot n x u.
Proof. unfold dot. rewrite <- sum_scal, <- sum_minus. apply sum_ext. intros; ring. Qed.
Lemma dot_ext n x x' y y' : (forall a, (a < n)%nat -> x a = x' a) -> (forall a, (a < n)%nat -> y a = y' a) -> dot n x y = dot n x' y'.
Proof. intros E F. unfold dot. apply sum_ext. intros a Ha. rewrite E, F by assumption. reflexivity. Qed.
Lemma refl_dot n u h x y : h <> 0 -> dot n u u = 2 * h -> dot n (refl n u h x) (refl n u h y) = dot n x y.
Proof.
  intros H U. unfold refl. rewrite dot_sub_l, !dot_sub_r, U, (dot_comm n x u). field. exact H.
Qed.
(** M' = M - q u' - u q' with q = M u / h - K u, K = u'Mu / 2h^2, is the matrix of x, y -> (Hx)' M (Hy) *)
Lemma house n M M' u p K h : h <> 0 -> (forall a b, M a b = M b a) -> (forall a, (a < n)%nat -> sum n (fun b => M a b * u b) = h * p a) -> dot n u p = K * (2 * h) ->
  (forall a b, (a < n)%nat -> (b < n)%nat -> M' a b = M a b - ((p a - K * u a) * u b + u a * (p b - K * u b))) ->
  forall x y, bil n M' x y = bil n M (refl n u h x) (refl n u h y).
Proof.
  intros H S P EK E x y. rewrite (bil_ext n M' _ x y E), (bil_rank2 n M (fun a => p a - K * u a)). unfold refl.
  rewrite bil_sub_l, !bil_sub_r.
  assert (Q : forall z, bil n M z u = h * dot n z p). { intros z. rewrite bil_dot. unfold dot. rewrite <- sum_scal. apply sum_ext. intros a Ha. rewrite P by assumption. ring. }
  rewrite (bil_sym n M u y S), !Q, dot_sub_r, dot_sub_l, EK, (dot_comm n p y), (dot_comm n x u). field. exact H.
Qed.

(** the matrix represented before row i is reduced: the lower triangle up to row i, tridiagonal below *)
Definition shape (i : nat) (s : st) (a b : nat) : R :=
  let p := Nat.max a b in let q := Nat.min a b in
  if (p <=? i)%nat then tV s p q else if (p =? q)%nat then tV s p p else if (p =? q + 1)%nat then te s p else 0.
Lemma shape_sym i s a b : shape i s a b = shape i s b a. Proof. unfold shape. rewrite (Nat.max_comm a b), (Nat.min_comm a b). reflexivity. Qed.
Definition ucol (s : st) (i : nat) : nat -> R := fun a => if (a <? i)%nat then tV s a i else 0.

Lemma reflection_spec i (c : R) (s : st) : (0 < i)%nat -> forall r h, reflection (A := real) sqrt i c s = (r, h) ->
  let s2 := sum i (fun k => (td s k / c) * (td s k / c)) in let f := td s (i - 1)%nat / c in let g := if Rlt_dec 0 f then - sqrt s2 else sqrt s2 in
  let u := fun a => if (a =? i - 1)%nat then f - g else td s a / c in
  let p := fun a => sum i (fun b => sy (tV s) a b * u b) / h in let K := sum i (fun b => p b * u b) / (h + h) in let q := fun a => p a - K * u a in
  h = s2 - f * g /\
  (forall a b, tV r a b = if (b <? i)%nat then if (a =? i)%nat then 0 else if (b <=? a)%nat && (a <? i)%nat then tV s a b - (u b * q a + q b * u a) else tV s a b
     else if (a <? i)%nat && (b =? i)%nat then u a else tV s a b) /\
  (forall k, td r k = if (k <? i)%nat then tV r (i - 1)%nat k else td s k) /\ (forall k, (i <= k)%nat -> te r k = if (k =? i)%nat then c * g else te s k).
Proof.
  intros Hi r h0 ER. unfold reflection in ER. pose proof (scale_d_spec i c s) as K1. cbn zeta in K1. destruct (scale_d i c s) as [s1 h1]. cbn [fst snd] in K1. destruct K1 as (V1 & E1 & D1 & HH). subst h1.
  assert (F1 : td s1 (i - 1)%nat = td s (i - 1)%nat / c) by (rewrite D1; destruct (Nat.ltb_spec (i - 1) i); [reflexivity|lia]).
  rewrite F1 in ER. set (s2 := sum i (fun k => td s k / c * (td s k / c))) in *. set (f := td s (i - 1)%nat / c) in *.
  cbn [nltb n0 real] in ER. assert (G : (if Rltb 0 f then - sqrt s2 else sqrt s2) = if Rlt_dec 0 f then - sqrt s2 else sqrt s2) by (unfold Rltb; destruct (Rlt_dec 0 f); reflexivity).
  cbn [nopp real nsub nmul nadd ndiv num] in ER. rewrite G in ER. set (g := if Rlt_dec 0 f then - sqrt s2 else sqrt s2) in *. clear G.
  match type of ER with context [setd (i - 1) ?X (sete i ?Y s1)] => set (s3 := setd (i - 1) X (sete i Y s1)) in * end.
  match type of ER with context [loop i ?F s3] => assert (K4 : tV (loop i F s3) = tV s3 /\ td (loop i F s3) = td s3 /\ (forall k, te (loop i F s3) k = if (k <? i)%nat then 0 else te s3 k)) by exact (zero_e_spec i s3); set (s4 := loop i F s3) in * end.
  destruct K4 as (V4 & D4 & E4).
  set (u := fun a => if (a =? i - 1)%nat then f - g else td s a / c).
  assert (U : forall a, (a < i)%nat -> td s4 a = u a). { intros a Ha. rewrite D4. unfold s3, u. cbn [td setd sete]. unfold vset. destruct (Nat.eqb_spec a (i - 1)); [reflexivity|]. rewrite D1. destruct (Nat.ltb_spec a i); [reflexivity|lia]. }
  assert (Z4 : forall k, (k < i)%nat -> te s4 k = 0). { intros k Hk. rewrite E4. destruct (Nat.ltb_spec k i); [reflexivity|lia]. }
  pose proof (apply_spec i s4 Z4) as K5. cbn zeta in K5. match type of ER with context [loop i ?F s4] => change (loop i (fun j s => apply_col i j s) s4) with (loop i F s4) in K5; set (s5 := loop i F s4) in * end. destruct K5 as (D5 & V5 & E5).
  match type of ER with context [div_e i ?X s5] => set (h := X) in * end.
  pose proof (div_e_spec i h s5) as K6. cbn zeta in K6. destruct (div_e i h s5) as [s6 p6]. cbn [fst snd] in K6. destruct K6 as (V6 & D6 & E6 & HP). subst p6.
  set (p := fun a => sum i (fun b => sy (tV s) a b * u b) / h).
  assert (P5 : forall k, (k < i)%nat -> te s5 k / h = p k).
  { intros k Hk. unfold p. rewrite E5. destruct (Nat.ltb_spec k i); [|lia]. apply f_equal2; [|reflexivity]. apply sum_ext. intros b Hb. rewrite V4, U by assumption. unfold s3. cbn [tV setd sete]. rewrite V1. reflexivity. }
  assert (K6 : sum i (fun k => te s5 k / h * td s5 k) = sum i (fun b => p b * u b)). { apply sum_ext. intros k Hk. rewrite P5, D5, U by assumption. reflexivity. }
  set (K := sum i (fun b => p b * u b) / (h + h)).
  match type of ER with context [loop i ?F s6] => assert (K7 : tV (loop i F s6) = tV s6 /\ td (loop i F s6) = td s6 /\ (forall k, te (loop i F s6) k = if (k <? i)%nat then te s6 k - sum i (fun k => te s5 k / h * td s5 k) / (h + h) * td s6 k else te s6 k)) by exact (sub_e_spec i (sum i (fun k => te s5 k / h * td s5 k) / (h + h)) s6); set (s7 := loop i F s6) in * end. rewrite K6 in K7. fold K in K7. destruct K7 as (V7 & D7 & E7).
  destruct (update_spec i s7) as (E8 & V8 & D8). set (s8 := loop i (fun j s => update_col i j s) s7) in *. injection ER as ER1 ER2. subst r h0. cbn zeta.
  set (q := fun a => p a - K * u a).
  assert (Q7 : forall k, (k < i)%nat -> te s7 k = q k).
  { intros k Hk. rewrite E7. destruct (Nat.ltb_spec k i); [|lia]. rewrite E6. destruct (Nat.ltb_spec k i); [|lia]. rewrite P5, D6, D5, U by assumption. reflexivity. }
  assert (U7 : forall k, (k < i)%nat -> td s7 k = u k). { intros k Hk. rewrite D7, D6, D5. apply U. exact Hk. }
  assert (W7 : forall a b, tV s7 a b = if (a <? i)%nat && (b =? i)%nat then u a else tV s a b).
  { intros a b. rewrite V7, V6, V5, V4. unfold s3. cbn [tV setd sete]. rewrite V1. destruct (Nat.ltb_spec a i); cbn [andb]; [|reflexivity]. destruct (b =? i)%nat; [apply U; assumption|reflexivity]. }
  assert (VR : forall a b, tV s8 a b = if (b <? i)%nat then if (a =? i)%nat then 0 else if (b <=? a)%nat && (a <? i)%nat then tV s a b - (u b * q a + q b * u a) else tV s a b
     else if (a <? i)%nat && (b =? i)%nat then u a else tV s a b).
  { intros a b. rewrite V8. destruct (Nat.ltb_spec b i); [|apply W7]. destruct (a =? i)%nat; [reflexivity|].
    destruct (Nat.leb_spec b a), (Nat.ltb_spec a i); cbn [andb]; rewrite W7; destruct (Nat.ltb_spec a i), (Nat.eqb_spec b i); cbn [andb]; try lia; try reflexivity.
    rewrite !U7, !Q7 by lia. reflexivity. }
  split; [reflexivity|]. split; [exact VR|]. split.
  - intros k. rewrite D8. destruct (Nat.ltb_spec k i).
    + rewrite VR. destruct (Nat.ltb_spec k i); [|lia]. destruct (Nat.eqb_spec (i - 1) i); [lia|]. destruct (Nat.leb_spec k (i - 1)); [|lia]. destruct (Nat.ltb_spec (i - 1) i); [|lia]. cbn [andb].
      rewrite W7. destruct (Nat.eqb_spec k i); [lia|]. rewrite andb_false_r. rewrite !U7, !Q7 by lia. reflexivity.
    + rewrite D7, D6, D5, D4. unfold s3. cbn [td setd sete]. unfold vset. destruct (Nat.eqb_spec k (i - 1)); [lia|]. rewrite D1. destruct (Nat.ltb_spec k i); [lia|reflexivity].
  - intros k Hk. rewrite E8, E7. destruct (Nat.ltb_spec k i); [lia|]. rewrite E6. destruct (Nat.ltb_spec k i); [lia|]. rewrite E5. destruct (Nat.ltb_spec k i); [lia|]. rewrite E4. destruct (Nat.ltb_spec k i); [lia|].
    unfold s3. cbn [te setd sete]. unfold vset. rewrite E1. reflexivity.
Qed.
