(** tred2 reads only the lower triangle V[i*dim+j], j <= i, of its argument. *)
From Coq Require Import ZArith List Bool Lia.
From Verif Require Import Arith Vec LinModel TredModel.
Import ListNotations.

Lemma loop_rel {S S'} (P : nat -> S -> S' -> Prop) n f g s s' : P 0%nat s s' -> (forall k a b, (k < n)%nat -> P k a b -> P (k + 1)%nat (f k a) (g k b)) -> P n (loop n f s) (loop n g s').
Proof.
  intros H0 Hs. induction n as [|n IH]; [exact H0|]. cbn [loop]. rewrite <- Nat.add_1_r. apply Hs; [lia|]. apply IH. intros k a b Hk. apply Hs. lia.
Qed.
Lemma loop_ext {S} n (f g : nat -> S -> S) s : (forall k a, (k < n)%nat -> f k a = g k a) -> loop n f s = loop n g s.
Proof. induction n as [|n IH]; intros H; [reflexivity|]. cbn [loop]. rewrite IH by (intros; apply H; lia). apply H. lia. Qed.

Section P.
Variable A : arith.
Notation T := (num A).
Variable sqrt_ : T -> T.
Variable dim : nat.
Local Notation tst := (tst A).

(** agreement of the matrices on a set of positions, of d and e on sets of indices *)
Definition agr (SV : nat -> nat -> Prop) (Sd Se : nat -> Prop) (s s' : tst) : Prop :=
  (forall a b, SV a b -> tV s a b = tV s' a b) /\ (forall j, Sd j -> td s j = td s' j) /\ (forall j, Se j -> te s j = te s' j).
Lemma agr_weak (SV SV' : nat -> nat -> Prop) (Sd Sd' Se Se' : nat -> Prop) s s' : agr SV Sd Se s s' -> (forall a b, SV' a b -> SV a b) -> (forall j, Sd' j -> Sd j) -> (forall j, Se' j -> Se j) -> agr SV' Sd' Se' s s'.
Proof. intros (H1 & H2 & H3) W1 W2 W3. repeat split; auto. Qed.
Lemma agr_setV (SV : nat -> nat -> Prop) Sd Se s s' a b v v' : agr SV Sd Se s s' -> v = v' -> agr (fun i j => SV i j \/ (i = a /\ j = b)) Sd Se (setV a b v s) (setV a b v' s').
Proof.
  intros (H1 & H2 & H3) ->. repeat split; try assumption. intros i j H. cbn. unfold put2. destruct (Nat.eqb_spec i a), (Nat.eqb_spec j b); cbn [andb]; try reflexivity; apply H1; destruct H as [H|[]]; try contradiction; assumption.
Qed.
Lemma agr_setd SV (Sd : nat -> Prop) Se s s' a v v' : agr SV Sd Se s s' -> v = v' -> agr SV (fun j => Sd j \/ j = a) Se (setd a v s) (setd a v' s').
Proof.
  intros (H1 & H2 & H3) ->. repeat split; try assumption. intros j H. cbn. unfold vset. destruct (Nat.eqb_spec j a); [reflexivity|]. apply H2. destruct H; [assumption|contradiction].
Qed.
Lemma agr_sete SV Sd (Se : nat -> Prop) s s' a v v' : agr SV Sd Se s s' -> v = v' -> agr SV Sd (fun j => Se j \/ j = a) (sete a v s) (sete a v' s').
Proof.
  intros (H1 & H2 & H3) ->. repeat split; try assumption. intros j H. cbn. unfold vset. destruct (Nat.eqb_spec j a); [reflexivity|]. apply H3. destruct H; [assumption|contradiction].
Qed.
Lemma agr_V SV Sd Se s s' a b : agr SV Sd Se s s' -> SV a b -> tV s a b = tV s' a b. Proof. intros (H & _). apply H. Qed.
Lemma agr_d SV Sd Se s s' j : agr SV Sd Se s s' -> Sd j -> td s j = td s' j. Proof. intros (_ & H & _). apply H. Qed.
Lemma agr_e SV Sd Se s s' j : agr SV Sd Se s s' -> Se j -> te s j = te s' j. Proof. intros (_ & _ & H). apply H. Qed.

(** the lower triangle, and the columns of the upper one that were already overwritten *)
Definition lowc (c : nat) (a b : nat) : Prop := (a < dim)%nat /\ (b < dim)%nat /\ ((b <= a)%nat \/ (c <= b)%nat).
Definition below (c : nat) (j : nat) : Prop := (c <= j)%nat /\ (j < dim)%nat.

Lemma init_agr s s' : (forall a b, lowc dim a b -> tV s a b = tV s' a b) -> agr (lowc dim) (below 0) (fun _ => False) (tred_init dim s) (tred_init dim s').
Proof.
  intros H. unfold tred_init.
  assert (K : agr (lowc dim) (fun j => (j < dim)%nat) (fun _ => False) (loop dim (fun j s => setd j (tV s (dim - 1)%nat j) s) s) (loop dim (fun j s => setd j (tV s (dim - 1)%nat j) s) s')).
  { apply (loop_rel (fun k => agr (lowc dim) (fun j => (j < k)%nat) (fun _ => False))).
    - repeat split; [exact H|lia|contradiction].
    - intros k a b Hk R. eapply agr_weak; [apply agr_setd; [exact R|]| | |].
      + apply (agr_V _ _ _ _ _ _ _ R). unfold lowc. lia.
      + intros a' b' W. exact W.
      + cbn. lia.
      + contradiction. }
  eapply agr_weak; [exact K|auto|unfold below; lia|auto].
Qed.
Lemma no_refl_agr i s s' : (0 < i)%nat -> (i < dim)%nat -> agr (lowc (i + 1)) (below 0) (below (i + 1)) s s' -> agr (lowc i) (below 0) (below i) (no_reflection i s) (no_reflection i s').
Proof.
  intros Hi0 Hi R. unfold no_reflection.
  assert (K : agr (fun a b => lowc (i + 1) a b \/ (b = i /\ (a < i)%nat)) (below 0) (below i)
     (loop i (fun j s => setV j i (@n0 A) (setV i j (@n0 A) (setd j (tV s (i - 1)%nat j) s))) (sete i (td s (i - 1)%nat) s))
     (loop i (fun j s => setV j i (@n0 A) (setV i j (@n0 A) (setd j (tV s (i - 1)%nat j) s))) (sete i (td s' (i - 1)%nat) s'))).
  { apply (loop_rel (fun k => agr (fun a b => lowc (i + 1) a b \/ (b = i /\ (a < k)%nat)) (below 0) (below i))).
    - eapply agr_weak; [apply agr_sete; [exact R|]| | |].
      + apply (agr_d _ _ _ _ _ _ R). unfold below. lia.
      + intros a b [W|W]; [exact W|lia].
      + auto.
      + unfold below. lia.
    - intros k a b Hk Q. eapply agr_weak; [apply agr_setV; [apply agr_setV; [apply agr_setd; [exact Q|]|reflexivity]|reflexivity]| | |].
      + apply (agr_V _ _ _ _ _ _ _ Q). left. unfold lowc. lia.
      + cbn. intros a' b' [W|W]; [left; left; left; exact W|]. destruct (Nat.eq_dec a' k) as [->|]; [right; lia|left; left; right; lia].
      + cbn. auto.
      + auto. }
  eapply agr_weak; [exact K| |auto|auto]. unfold lowc. intros a b W. destruct (le_lt_dec b a); [left; lia|]. destruct (Nat.eq_dec b i); [right; lia|left; lia].
Qed.
Definition agr2 SV Sd Se (p p' : tst * T) : Prop := agr SV Sd Se (fst p) (fst p') /\ snd p = snd p'.
Lemma scale_d_agr SV Se i c s s' : (i <= dim)%nat -> agr SV (below 0) Se s s' -> agr2 SV (below 0) Se (scale_d i c s) (scale_d i c s').
Proof.
  intros Hi R. unfold scale_d. apply (loop_rel (fun k => agr2 SV (below 0) Se)).
  - split; [exact R|reflexivity].
  - intros k [a h] [b h'] Hk (Q & E). cbn [fst snd] in *. subst h'.
    assert (V : td a k = td b k) by (apply (agr_d _ _ _ _ _ _ Q); unfold below; lia).
    split; cbn [fst snd].
    + eapply agr_weak; [apply agr_setd; [exact Q|rewrite V; reflexivity]|auto|cbn; auto|auto].
    + cbn. unfold vset. rewrite Nat.eqb_refl, V. reflexivity.
Qed.
Lemma div_e_agr SV i c s s' : (i <= dim)%nat -> agr SV (below 0) (below 0) s s' -> agr2 SV (below 0) (below 0) (div_e i c s) (div_e i c s').
Proof.
  intros Hi R. unfold div_e. apply (loop_rel (fun k => agr2 SV (below 0) (below 0))).
  - split; [exact R|reflexivity].
  - intros k [a h] [b h'] Hk (Q & E). cbn [fst snd] in *. subst h'.
    assert (V : te a k = te b k) by (apply (agr_e _ _ _ _ _ _ Q); unfold below; lia).
    assert (D : td a k = td b k) by (apply (agr_d _ _ _ _ _ _ Q); unfold below; lia).
    split; cbn [fst snd].
    + eapply agr_weak; [apply agr_sete; [exact Q|rewrite V; reflexivity]|auto|auto|cbn; auto].
    + cbn. unfold vset. rewrite Nat.eqb_refl, V, D. reflexivity.
Qed.
(** during the transformation of row i: the lower triangle, finished columns, and the part of column i written so far *)
Definition wrk (i k : nat) (a b : nat) : Prop := lowc (i + 1) a b \/ (b = i /\ (a < k)%nat).
Lemma apply_col_agr i j s s' : (j < i)%nat -> (i < dim)%nat -> agr (wrk i j) (below 0) (below 0) s s' -> agr (wrk i (j + 1)) (below 0) (below 0) (apply_col i j s) (apply_col i j s').
Proof.
  intros Hj Hi R. unfold apply_col. assert (D : td s j = td s' j) by (apply (agr_d _ _ _ _ _ _ R); unfold below; lia). rewrite <- D. set (f := td s j).
  assert (R1 : agr (wrk i (j + 1)) (below 0) (below 0) (setV j i f s) (setV j i f s')).
  { eapply agr_weak; [apply agr_setV; [exact R|reflexivity]| |auto|auto]. cbn. unfold wrk. intros a b [W|W]; [left; left; exact W|]. destruct (Nat.eq_dec a j); [right; lia|left; right; lia]. }
  set (s1 := setV j i f s) in *. set (s1' := setV j i f s') in *. clearbody s1 s1'.
  assert (G : (@nadd A (te s1 j) (@nmul A (tV s1 j j) f)) = @nadd A (te s1' j) (@nmul A (tV s1' j j) f)).
  { rewrite (agr_e _ _ _ _ _ j R1), (agr_V _ _ _ _ _ j j R1); [reflexivity|left; unfold lowc; lia|unfold below; lia]. }
  match goal with |- agr _ _ _ (let '(s, g) := loop ?m ?F ?x in _) (let '(s, g) := loop ?m ?F' ?x' in _) => assert (L : agr2 (wrk i (j + 1)) (below 0) (below 0) (loop m F x) (loop m F' x')) end.
  { apply (loop_rel (fun k => agr2 (wrk i (j + 1)) (below 0) (below 0))).
    - split; [exact R1|exact G].
    - intros q [a g] [b g'] Hq (Q & E). cbn [fst snd] in *. subst g'.
      assert (E1 : tV a (j + 1 + q)%nat j = tV b (j + 1 + q)%nat j) by (apply (agr_V _ _ _ _ _ _ _ Q); left; unfold lowc; lia).
      assert (E2 : td a (j + 1 + q)%nat = td b (j + 1 + q)%nat) by (apply (agr_d _ _ _ _ _ _ Q); unfold below; lia).
      assert (E3 : te a (j + 1 + q)%nat = te b (j + 1 + q)%nat) by (apply (agr_e _ _ _ _ _ _ Q); unfold below; lia).
      split; cbn [fst snd]; rewrite E1.
      + eapply agr_weak; [apply agr_sete; [exact Q|rewrite E3; reflexivity]|auto|auto|cbn; auto].
      + rewrite E2. reflexivity. }
  match goal with |- agr _ _ _ (let '(s, g) := ?x in _) (let '(s, g) := ?y in _) => destruct x as [a g], y as [b g'] end. destruct L as (Q & E). cbn [fst snd] in *. subst g'.
  eapply agr_weak; [apply agr_sete; [exact Q|reflexivity]|auto|auto|cbn; auto].
Qed.
Lemma update_col_agr i j s s' : (j < i)%nat -> (i < dim)%nat -> agr (wrk i i) (below 0) (below 0) s s' -> agr (wrk i i) (below 0) (below 0) (update_col i j s) (update_col i j s').
Proof.
  intros Hj Hi R. unfold update_col. rewrite (agr_d _ _ _ _ _ j R), (agr_e _ _ _ _ _ j R) by (unfold below; lia). set (f := td s' j). set (g := te s' j).
  match goal with |- agr _ _ _ (setV _ _ _ (setd _ (tV (loop ?m ?F ?x) _ _) _)) (setV _ _ _ (setd _ (tV (loop ?m ?F ?x') _ _) _)) => assert (L : agr (wrk i i) (below 0) (below 0) (loop m F x) (loop m F x')) end.
  { apply (loop_rel (fun k => agr (wrk i i) (below 0) (below 0))); [exact R|]. intros q a b Hq Q.
    eapply agr_weak; [apply agr_setV; [exact Q|]| |auto|auto].
    - rewrite (agr_V _ _ _ _ _ (j + q) j Q), (agr_e _ _ _ _ _ (j + q) Q), (agr_d _ _ _ _ _ (j + q) Q); [reflexivity| | |]; unfold wrk, lowc, below; lia.
    - cbn. auto. }
  eapply agr_weak; [apply agr_setV; [apply agr_setd; [exact L|]|reflexivity]| | |auto].
  - apply (agr_V _ _ _ _ _ _ _ L). unfold wrk, lowc. lia.
  - cbn. auto.
  - cbn. auto.
Qed.
Lemma reflection_agr i c s s' : (0 < i)%nat -> (i < dim)%nat -> agr (lowc (i + 1)) (below 0) (below (i + 1)) s s' ->
  agr2 (lowc i) (below 0) (below i) (reflection sqrt_ i c s) (reflection sqrt_ i c s').
Proof.
  intros Hi0 Hi R. unfold reflection. pose proof (scale_d_agr _ _ i c s s' ltac:(lia) R) as K. destruct (scale_d i c s) as [s1 h], (scale_d i c s') as [s1' h']. destruct K as (R1 & E). cbn [fst snd] in *. subst h'.
  rewrite (agr_d _ _ _ _ _ (i - 1) R1) by (unfold below; lia). set (f := td s1' (i - 1)%nat). set (g := if @nltb A (@n0 A) f then @nopp A (sqrt_ h) else sqrt_ h). set (h1 := @nsub A h (@nmul A f g)).
  assert (R2 : agr (lowc (i + 1)) (below 0) (below i) (sete i (@nmul A c g) s1) (sete i (@nmul A c g) s1')).
  { eapply agr_weak; [apply agr_sete; [exact R1|reflexivity]|auto|auto|unfold below; lia]. }
  assert (R3 : agr (lowc (i + 1)) (below 0) (below i) (setd (i - 1) (@nsub A f g) (sete i (@nmul A c g) s1)) (setd (i - 1) (@nsub A f g) (sete i (@nmul A c g) s1'))).
  { eapply agr_weak; [apply agr_setd; [exact R2|reflexivity]|auto|cbn; auto|auto]. }
  set (s3 := setd (i - 1) (@nsub A f g) (sete i (@nmul A c g) s1)) in *. set (s3' := setd (i - 1) (@nsub A f g) (sete i (@nmul A c g) s1')) in *. clearbody s3 s3'.
  assert (R4 : agr (wrk i 0) (below 0) (below 0) (loop i (fun j s => sete j (@n0 A) s) s3) (loop i (fun j s => sete j (@n0 A) s) s3')).
  { eapply agr_weak with (SV := lowc (i + 1)) (Sd := below 0) (Se := fun j => below i j \/ (j < i)%nat).
    - apply (loop_rel (fun k => agr (lowc (i + 1)) (below 0) (fun j => below i j \/ (j < k)%nat))).
      + eapply agr_weak; [exact R3|auto|auto|unfold below; intros; lia].
      + intros k a b Hk Q. eapply agr_weak; [apply agr_sete; [exact Q|reflexivity]|auto|auto|cbn; unfold below; intros; lia].
    - unfold wrk, lowc. intros; lia.
    - auto.
    - unfold below. intros; lia. }
  set (s4 := loop i (fun j s => sete j (@n0 A) s) s3) in *. set (s4' := loop i (fun j s => sete j (@n0 A) s) s3') in *. clearbody s4 s4'.
  assert (R5 : agr (wrk i i) (below 0) (below 0) (loop i (fun j s => apply_col i j s) s4) (loop i (fun j s => apply_col i j s) s4')).
  { apply (loop_rel (fun k => agr (wrk i k) (below 0) (below 0))); [exact R4|]. intros k a b Hk Q. apply apply_col_agr; assumption. }
  set (s5 := loop i (fun j s => apply_col i j s) s4) in *. set (s5' := loop i (fun j s => apply_col i j s) s4') in *. clearbody s5 s5'.
  pose proof (div_e_agr _ i h1 s5 s5' ltac:(lia) R5) as K. destruct (div_e i h1 s5) as [s6 p], (div_e i h1 s5') as [s6' p']. destruct K as (R6 & E). cbn [fst snd] in *. subst p'.
  set (hh := @ndiv A p (@nadd A h1 h1)).
  assert (R7 : agr (wrk i i) (below 0) (below 0) (loop i (fun j s => sete j (@nsub A (te s j) (@nmul A hh (td s j))) s) s6) (loop i (fun j s => sete j (@nsub A (te s j) (@nmul A hh (td s j))) s) s6')).
  { apply (loop_rel (fun k => agr (wrk i i) (below 0) (below 0))); [exact R6|]. intros k a b Hk Q.
    eapply agr_weak; [apply agr_sete; [exact Q|]|auto|auto|cbn; auto]. rewrite (agr_e _ _ _ _ _ k Q), (agr_d _ _ _ _ _ k Q) by (unfold below; lia). reflexivity. }
  set (s7 := loop i (fun j s => sete j (@nsub A (te s j) (@nmul A hh (td s j))) s) s6) in *. set (s7' := loop i (fun j s => sete j (@nsub A (te s j) (@nmul A hh (td s j))) s) s6') in *. clearbody s7 s7'.
  split; [|reflexivity]. cbn [fst].
  eapply agr_weak with (SV := wrk i i) (Sd := below 0) (Se := below 0).
  - apply (loop_rel (fun k => agr (wrk i i) (below 0) (below 0))); [exact R7|]. intros k a b Hk Q. apply update_col_agr; assumption.
  - unfold wrk, lowc. intros; lia.
  - auto.
  - unfold below. intros; lia.
Qed.
Lemma scale_agr SV Se i s s' : (i <= dim)%nat -> agr SV (below 0) Se s s' -> scale_of i s = scale_of i s'.
Proof. intros Hi R. unfold scale_of. apply loop_ext. intros k a Hk. rewrite (agr_d _ _ _ _ _ k R) by (unfold below; lia). reflexivity. Qed.
Lemma reduce_agr i s s' : (0 < i)%nat -> (i < dim)%nat -> agr (lowc (i + 1)) (below 0) (below (i + 1)) s s' -> agr (lowc i) (below 0) (below i) (reduce sqrt_ i s) (reduce sqrt_ i s').
Proof.
  intros Hi0 Hi R. unfold reduce. rewrite (scale_agr _ _ i s s' ltac:(lia) R). destruct (is_zero (scale_of i s')).
  - eapply agr_weak; [apply agr_setd; [apply no_refl_agr; eassumption|reflexivity]|auto|cbn; auto|auto].
  - pose proof (reflection_agr i (scale_of i s') s s' Hi0 Hi R) as K. destruct (reflection sqrt_ i (scale_of i s') s) as [a h], (reflection sqrt_ i (scale_of i s') s') as [b h']. destruct K as (Q & E). cbn [fst snd] in *. subst h'.
    eapply agr_weak; [apply agr_setd; [exact Q|reflexivity]|auto|cbn; auto|auto].
Qed.
(** from here on all entries agree *)
Definition full (a b : nat) : Prop := (a < dim)%nat /\ (b < dim)%nat.
Lemma accumulate_agr i s s' : (i < dim - 1)%nat -> agr full (below 0) (below 1) s s' -> agr full (below 0) (below 1) (accumulate dim i s) (accumulate dim i s').
Proof.
  intros Hi R. unfold accumulate.
  assert (R1 : agr full (below 0) (below 1) (setV i i (@n1 A) (setV (dim - 1) i (tV s i i) s)) (setV i i (@n1 A) (setV (dim - 1) i (tV s' i i) s'))).
  { eapply agr_weak; [apply agr_setV; [apply agr_setV; [exact R|]|reflexivity]| |auto|auto].
    - apply (agr_V _ _ _ _ _ _ _ R). unfold full. lia.
    - cbn. auto. }
  set (s1 := setV i i (@n1 A) (setV (dim - 1) i (tV s i i) s)) in *. set (s1' := setV i i (@n1 A) (setV (dim - 1) i (tV s' i i) s')) in *. clearbody s1 s1'.
  rewrite (agr_d _ _ _ _ _ (i + 1) R1) by (unfold below; lia). set (h := td s1' (i + 1)%nat).
  apply (loop_rel (fun k => agr full (below 0) (below 1))).
  2:{ intros k a b Hk Q. eapply agr_weak; [apply agr_setV; [exact Q|reflexivity]|cbn; auto|auto|auto]. }
  destruct (is_zero h); [exact R1|].
  apply (loop_rel (fun k => agr full (below 0) (below 1))).
  - apply (loop_rel (fun k => agr full (below 0) (below 1))); [exact R1|]. intros k a b Hk Q.
    eapply agr_weak; [apply agr_setd; [exact Q|]|auto|cbn; auto|auto]. rewrite (agr_V _ _ _ _ _ k (i + 1) Q) by (unfold full; lia). reflexivity.
  - intros j a b Hj Q.
    rewrite (loop_ext (i + 1) (fun k g => @nadd A g (@nmul A (tV a k (i + 1)%nat) (tV a k j))) (fun k g => @nadd A g (@nmul A (tV b k (i + 1)%nat) (tV b k j)))).
    2:{ intros k g Hk. rewrite (agr_V _ _ _ _ _ k (i + 1) Q), (agr_V _ _ _ _ _ k j Q) by (unfold full; lia). reflexivity. }
    generalize (loop (i + 1) (fun k g => @nadd A g (@nmul A (tV b k (i + 1)%nat) (tV b k j))) (@n0 A)). intros g.
    apply (loop_rel (fun k => agr full (below 0) (below 1))); [exact Q|]. intros k a' b' Hk Q'.
    eapply agr_weak; [apply agr_setV; [exact Q'|]|cbn; auto|auto|auto]. rewrite (agr_V _ _ _ _ _ k j Q'), (agr_d _ _ _ _ _ k Q'); [reflexivity|unfold below; lia|unfold full; lia].
Qed.
Lemma end_agr s s' : agr full (below 0) (below 1) s s' -> agr full (below 0) (below 0) (tred_end dim s) (tred_end dim s').
Proof.
  intros R. unfold tred_end.
  match goal with |- agr _ _ _ (if _ then sete _ _ (setV _ _ _ ?x) else _) (if _ then sete _ _ (setV _ _ _ ?y) else _) => assert (L : agr full (below 0) (below 1) x y) end.
  { apply (loop_rel (fun k => agr full (below 0) (below 1))); [exact R|]. intros k a b Hk Q.
    eapply agr_weak; [apply agr_setV; [apply agr_setd; [exact Q|]|reflexivity]|cbn; auto|cbn; auto|auto].
    apply (agr_V _ _ _ _ _ _ _ Q). unfold full. lia. }
  destruct (Nat.ltb_spec 0 dim).
  - eapply agr_weak; [apply agr_sete; [apply agr_setV; [exact L|reflexivity]|reflexivity]|cbn; auto|auto|cbn; unfold below; intros; lia].
  - destruct L as (L1 & L2 & _). repeat split; [exact L1|exact L2|unfold below; intros; lia].
Qed.
Lemma tred2_agr s s' : (forall a b, (a < dim)%nat -> (b <= a)%nat -> tV s a b = tV s' a b) -> agr full (below 0) (below 0) (tred2 sqrt_ dim s) (tred2 sqrt_ dim s').
Proof.
  intros H. unfold tred2. apply end_agr. apply (loop_rel (fun k => agr full (below 0) (below 1))).
  2:{ intros k a b Hk Q. apply accumulate_agr; assumption. }
  eapply agr_weak with (SV := lowc (dim - (dim - 1))) (Sd := below 0) (Se := below (dim - (dim - 1))).
  - apply (loop_rel (fun t => agr (lowc (dim - t)) (below 0) (below (dim - t)))).
    + rewrite Nat.sub_0_r. eapply agr_weak; [apply init_agr|auto|auto|unfold below; intros; lia].
      intros a b W. apply H; unfold lowc in W; lia.
    + intros t a b Ht Q. replace (dim - (t + 1))%nat with (dim - 1 - t)%nat by lia. apply reduce_agr; try lia. replace (dim - 1 - t + 1)%nat with (dim - t)%nat by lia. exact Q.
  - unfold full, lowc. intros; lia.
  - auto.
  - unfold below. intros; lia.
Qed.
(** the whole decomposition: equal results, whatever was in the upper triangle and in the workspaces *)
Lemma decomposition_lower (tql2 : nat -> list T -> list T -> list T -> list T * list T) (M M' : nat -> nat -> T) d d' e e' :
  (forall i j, (i < dim)%nat -> (j <= i)%nat -> M i j = M' i j) -> eigen_decomposition sqrt_ tql2 dim M d e = eigen_decomposition sqrt_ tql2 dim M' d' e'.
Proof.
  intros H. unfold eigen_decomposition. destruct (tred2_agr (mkT M d e) (mkT M' d' e') H) as (H1 & H2 & H3).
  assert (E1 : forall v w : nat -> T, (forall j, below 0 j -> v j = w j) -> arr1 dim v = arr1 dim w).
  { intros v w E. unfold arr1. apply map_ext_in. intros j Hj. apply in_seq in Hj. apply E. unfold below. lia. }
  f_equal; [|apply E1; exact H2|apply E1; exact H3].
  unfold arr2. assert (E2 : forall l, (forall i, In i l -> (i < dim)%nat) -> flat_map (fun i => map (tV (tred2 sqrt_ dim (mkT M d e)) i) (seq 0 dim)) l = flat_map (fun i => map (tV (tred2 sqrt_ dim (mkT M' d' e')) i) (seq 0 dim)) l).
  { induction l as [|i l IH]; intros Hl; [reflexivity|]. cbn [flat_map]. rewrite IH by (intros; apply Hl; right; assumption). f_equal.
    apply map_ext_in. intros j Hj. apply in_seq in Hj. apply H1. split; [apply Hl; left; reflexivity|lia]. }
  apply E2. intros i Hi. apply in_seq in Hi. lia.
Qed.
End P.
