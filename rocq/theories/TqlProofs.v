(** Plane rotations, and the matrix that the QL sweep of tql2 keeps implicitly (reals). *)
From Coq Require Import ZArith List Bool Reals Lia Lra.
From Verif Require Import Arith Vec LinModel RSum TredModel TredStep TredOrth TredReduce TqlModel.
Open Scope R_scope.
Local Notation st := (tst real).

Definition Gv (i : nat) (c s : R) (x : nat -> R) : nat -> R := fun a => if (a =? i)%nat then c * x i + s * x (i + 1)%nat else if (a =? i + 1)%nat then - s * x i + c * x (i + 1)%nat else x a.
Definition rv (i : nat) (c s : R) (f : nat -> R) : nat -> R := fun b => if (b =? i + 1)%nat then s * f i + c * f (i + 1)%nat else if (b =? i)%nat then c * f i - s * f (i + 1)%nat else f b.
Definition gm (i : nat) (c s : R) (T : nat -> nat -> R) : nat -> nat -> R := fun a b => rv i c s (fun x => rv i c s (T x) b) a.

Lemma sum_two n i f g : (i + 1 < n)%nat -> (forall k, (k < n)%nat -> k <> i -> k <> (i + 1)%nat -> f k = g k) -> f i + f (i + 1)%nat = g i + g (i + 1)%nat -> sum n f = sum n g.
Proof.
  intros Hi E E2. replace n with (i + (2 + (n - i - 2)))%nat by lia. rewrite !sum_split. cbn [sum]. rewrite !Nat.add_0_r.
  rewrite (sum_ext i f g) by (intros; apply E; lia). rewrite (sum_ext (n - i - 2) (fun k => f (i + (2 + k))%nat) (fun k => g (i + (2 + k))%nat)) by (intros; apply E; lia). lra.
Qed.
Lemma dot_G n i c s x f : (i + 1 < n)%nat -> dot n (Gv i c s x) f = dot n x (rv i c s f).
Proof.
  intros Hi. unfold dot. apply (sum_two n i); [exact Hi| |].
  - intros k _ H1 H2. unfold Gv, rv. destruct (Nat.eqb_spec k i), (Nat.eqb_spec k (i + 1)); try lia. reflexivity.
  - unfold Gv, rv. rewrite !Nat.eqb_refl. destruct (Nat.eqb_spec i (i + 1)), (Nat.eqb_spec (i + 1) i); try lia. ring.
Qed.
Lemma rv_dot n i c s (F : nat -> nat -> R) y b : rv i c s (fun a => dot n y (F a)) b = dot n y (fun q => rv i c s (fun a => F a q) b).
Proof.
  unfold rv, dot. destruct (b =? i + 1)%nat; [|destruct (b =? i)%nat; [|reflexivity]].
  - rewrite <- !sum_scal, <- sum_plus. apply sum_ext. intros; ring.
  - rewrite <- !sum_scal, <- sum_minus. apply sum_ext. intros; ring.
Qed.
Lemma rv_ext i c s f g b : (forall a, f a = g a) -> rv i c s f b = rv i c s g b. Proof. intros E. unfold rv. rewrite !E. reflexivity. Qed.
Lemma bil_G n i c s T x y : (i + 1 < n)%nat -> bil n (gm i c s T) x y = bil n T (Gv i c s x) (Gv i c s y).
Proof.
  intros Hi. rewrite !bil_dot, dot_G by exact Hi. apply dot_ext; [reflexivity|]. intros a _.
  transitivity (dot n y (fun b => gm i c s T a b)); [unfold dot; apply sum_ext; intros; ring|].
  unfold gm. rewrite <- rv_dot. apply rv_ext. intros q. rewrite <- dot_G by exact Hi. unfold dot. apply sum_ext. intros; ring.
Qed.
Lemma dot_GG n i c s x : (i + 1 < n)%nat -> c * c + s * s = 1 -> dot n (Gv i c s x) (Gv i c s x) = dot n x x.
Proof.
  intros Hi E. rewrite dot_G by exact Hi. apply dot_ext; [reflexivity|]. intros a _. unfold rv, Gv. rewrite !Nat.eqb_refl.
  destruct (Nat.eqb_spec i (i + 1)), (Nat.eqb_spec (i + 1) i); try lia. destruct (Nat.eqb_spec a (i + 1)) as [->|].
  - replace (s * (c * x i + s * x (i + 1)%nat) + c * (- s * x i + c * x (i + 1)%nat)) with ((c * c + s * s) * x (i + 1)%nat) by ring. rewrite E. ring.
  - destruct (Nat.eqb_spec a i) as [->|]; [|reflexivity].
    replace (c * (c * x i + s * x (i + 1)%nat) - s * (- s * x i + c * x (i + 1)%nat)) with ((c * c + s * s) * x i) by ring. rewrite E. ring.
Qed.
(** the columns of V *)
Definition act (n : nat) (V : nat -> nat -> R) (x : nat -> R) : nat -> R := fun a => dot n (V a) x.
Lemma rot_cols_spec n i s c (t : st) : let r := rot_cols n i s c t in
  td r = td t /\ te r = te t /\ forall a b, tV r a b = if (a <? n)%nat then rv i c s (tV t a) b else tV t a b.
Proof.
  unfold rot_cols. apply (loop_inv (fun k (r : st) => td r = td t /\ te r = te t /\ forall a b, tV r a b = if (a <? k)%nat then rv i c s (tV t a) b else tV t a b)).
  - repeat split.
  - intros k z Hk (H1 & H2 & H3). split; [exact H1|]. split; [exact H2|]. intros a b. cbn [tV setV]. unfold put2.
    assert (E : forall q, tV z k q = tV t k q) by (intros q; rewrite H3, Nat.ltb_irrefl; reflexivity). rewrite !E.
    assert (NE : (i =? i + 1)%nat = false) by (apply Nat.eqb_neq; lia). rewrite NE, andb_false_r.
    destruct (Nat.eqb_spec a k) as [->|]; cbn [andb].
    + unfold rv. destruct (Nat.ltb_spec k (k + 1)); [|lia]. destruct (Nat.eqb_spec b i) as [->|]; [rewrite NE; reflexivity|]. destruct (b =? i + 1)%nat; [reflexivity|]. apply E.
    + rewrite H3. destruct (Nat.ltb_spec a k), (Nat.ltb_spec a (k + 1)); try lia; reflexivity.
Qed.

Section N.
Variable n : nat.
Variable S : nat -> nat -> R.
(** V' S V differs from T by a matrix with norm at most tau; V keeps lengths *)
Definition near (tau : R) (V T : nat -> nat -> R) : Prop := forall x, Rabs (bil n S (act n V x) (act n V x) - bil n T x x) <= tau * dot n x x.
Definition iso (V : nat -> nat -> R) : Prop := forall x y, dot n (act n V x) (act n V y) = dot n x y.
Lemma act_G i c s (V V' : nat -> nat -> R) x a : (i + 1 < n)%nat -> (forall b, V' a b = rv i c s (V a) b) -> act n V' x a = act n V (Gv i c s x) a.
Proof. intros Hi E. unfold act. rewrite (dot_comm n (V a)), dot_G by exact Hi. rewrite dot_comm. apply dot_ext; [reflexivity|]. intros; apply E. Qed.
Lemma near_rot tau i c s (V V' T T' : nat -> nat -> R) : (i + 1 < n)%nat -> c * c + s * s = 1 -> (forall a b, (a < n)%nat -> V' a b = rv i c s (V a) b) -> (forall a b, (a < n)%nat -> (b < n)%nat -> T' a b = gm i c s T a b) ->
  near tau V T -> near tau V' T'.
Proof.
  intros Hi E HV HT N x. rewrite (bil_ext n T' (gm i c s T)), bil_G by assumption.
  rewrite (bil_ext_v n S (act n V' x) (act n V (Gv i c s x)) (act n V' x) (act n V (Gv i c s x))) by (intros; apply act_G; auto).
  rewrite <- (dot_GG n i c s x) by assumption. apply N.
Qed.
Lemma dot_GG2 i c s x y : (i + 1 < n)%nat -> c * c + s * s = 1 -> dot n (Gv i c s x) (Gv i c s y) = dot n x y.
Proof.
  intros Hi E. rewrite dot_G by exact Hi. apply dot_ext; [reflexivity|]. intros a _. unfold rv, Gv. rewrite !Nat.eqb_refl.
  destruct (Nat.eqb_spec i (i + 1)), (Nat.eqb_spec (i + 1) i); try lia. destruct (Nat.eqb_spec a (i + 1)) as [->|].
  - replace (s * (c * y i + s * y (i + 1)%nat) + c * (- s * y i + c * y (i + 1)%nat)) with ((c * c + s * s) * y (i + 1)%nat) by ring. rewrite E. ring.
  - destruct (Nat.eqb_spec a i) as [->|]; [|reflexivity].
    replace (c * (c * y i + s * y (i + 1)%nat) - s * (- s * y i + c * y (i + 1)%nat)) with ((c * c + s * s) * y i) by ring. rewrite E. ring.
Qed.
Lemma iso_rot i c s (V V' : nat -> nat -> R) : (i + 1 < n)%nat -> c * c + s * s = 1 -> (forall a b, (a < n)%nat -> V' a b = rv i c s (V a) b) -> iso V -> iso V'.
Proof.
  intros Hi E HV I x y. rewrite (dot_ext n (act n V' x) (act n V (Gv i c s x)) (act n V' y) (act n V (Gv i c s y))) by (intros; apply act_G; auto).
  rewrite I. apply dot_GG2; assumption.
Qed.

(** the matrix before the rotation in the plane (j - 1, j); f is the accumulated shift of the rows from l on *)
Definition midl (l : nat) (f : R) (j : nat) (d e : nat -> R) (c s p : R) (a b : nat) : R :=
  if (a =? b)%nat then (if (a =? j)%nat then c * p else d a) + (if (l <=? a)%nat then f else 0)
  else if (a =? b + 1)%nat then if (a =? j)%nat then c * e b else if (b =? j)%nat then s * p else e b
  else if (a =? b + 2)%nat then if (b + 1 =? j)%nat then s * e b else 0 else 0.
Definition mid l f j d e c s p (a b : nat) : R := if (b <=? a)%nat then midl l f j d e c s p a b else midl l f j d e c s p b a.
Lemma mid_sym l f j d e c s p a b : mid l f j d e c s p a b = mid l f j d e c s p b a.
Proof. unfold mid. destruct (Nat.leb_spec b a), (Nat.leb_spec a b); try reflexivity; [|lia]. replace b with a by lia. reflexivity. Qed.
Lemma gm_sym i c s T a b : (forall a b, T a b = T b a) -> gm i c s T a b = gm i c s T b a.
Proof. intros H. unfold gm, rv. destruct (a =? i + 1)%nat, (b =? i + 1)%nat, (a =? i)%nat, (b =? i)%nat; rewrite ?(H i (i + 1)%nat), ?(H a), ?(H i b), ?(H (i + 1)%nat b); ring. Qed.
Ltac dec := repeat match goal with
  | |- context [Nat.eqb ?a ?b] => destruct (Nat.eqb_spec a b); try (exfalso; lia)
  | |- context [Nat.leb ?a ?b] => destruct (Nat.leb_spec a b); try (exfalso; lia)
  end.
Lemma mid_step l f i (d e : nat -> R) c s C Q r : (l <= i)%nat -> C * C + Q * Q = 1 -> e i = Q * r ->
  let p := C * r in let p' := C * d i - Q * (c * e i) in
  forall a b, mid l f i (vset (A := real) d (i + 1) (c * p + Q * (C * (c * e i) + Q * d i))%R) (vset (A := real) e (i + 1) (s * r)%R) C Q p' a b = gm i C Q (mid l f (i + 1) d e c s p) a b.
Proof.
  intros Hl E Ei p p'.
  assert (L : forall a b, (b <= a)%nat -> mid l f i (vset (A := real) d (i + 1) (c * p + Q * (C * (c * e i) + Q * d i))%R) (vset (A := real) e (i + 1) (s * r)%R) C Q p' a b = gm i C Q (mid l f (i + 1) d e c s p) a b).
  { intros a b Hb. unfold gm, rv, p', p, mid, midl, vset.
    destruct (Nat.eq_dec a i) as [->|Na]; [|destruct (Nat.eq_dec a (i + 1)) as [->|Na1]]; (destruct (Nat.eq_dec b i) as [->|Nb]; [|destruct (Nat.eq_dec b (i + 1)) as [->|Nb1]]); try (exfalso; lia).
    all: dec; subst; rewrite ?Ei; try reflexivity; try (apply Rminus_diag_uniq; ring).
    all: apply Rminus_diag_uniq.
    - transitivity ((C * C + Q * Q - 1) * - f); [toR; ring|]. rewrite E. ring.
    - transitivity ((C * C + Q * Q - 1) * - (f + c * C * r)); [toR; ring|]. rewrite E. ring.
    - transitivity ((C * C + Q * Q - 1) * - (s * r)); [toR; ring|]. rewrite E. ring. }
  intros a b. destruct (le_lt_dec b a); [apply L; assumption|]. rewrite mid_sym, (gm_sym i C Q) by (intros; apply mid_sym). apply L. lia.
Qed.
End N.
