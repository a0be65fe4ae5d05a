(** The QL iteration over the reals: orthogonal V, and d up to the dropped entries. *)
From Coq Require Import ZArith List Bool Reals Lia Lra.
From Verif Require Import Arith Vec LinModel RSum TredModel TredStep TredOrth TredReduce TqlModel TqlProofs TqlSweep.
Open Scope R_scope.
Local Notation st := (tst real).

Section N.
Variable n : nat.
Variable S : nat -> nat -> R.
Lemma rotate_spec i (w : rot real) : (i + 1 < n)%nat -> r_ok (rotate (A := real) sqrt n i w) = true -> r_ok w = true /\ exists C Q r : R, r <> 0 /\ C * C + Q * Q = 1 /\ r_p w = C * r /\ te (r_st w) i = Q * r /\
  let w' := rotate (A := real) sqrt n i w in
  r_c w' = C /\ r_s w' = Q /\ r_c2 w' = r_c w /\ r_s2 w' = r_s w /\ r_c3 w' = r_c2 w /\ r_p w' = C * td (r_st w) i - Q * (r_c w * te (r_st w) i) /\
  td (r_st w') = vset (A := real) (td (r_st w)) (i + 1) (r_c w * (C * r) + Q * (C * (r_c w * te (r_st w) i) + Q * td (r_st w) i))%R /\
  te (r_st w') = vset (A := real) (te (r_st w)) (i + 1) (r_s w * r)%R /\
  (forall a b, (a < n)%nat -> tV (r_st w') a b = rv i C Q (tV (r_st w) a) b).
Proof.
  intros Hi H. unfold rotate in *. cbv zeta in *. cbn [r_st r_c r_c2 r_c3 r_s r_s2 r_p r_ok te td sete setd] in *.
  assert (V : forall v, vset (A := real) (te (r_st w)) (i + 1) v i = te (r_st w) i) by (intros v; unfold vset; destruct (Nat.eqb_spec i (i + 1)); [lia|reflexivity]). rewrite !V.
  set (p := r_p w) in *. set (ei := te (r_st w) i) in *.
  assert (SQ : hypot2 (A := real) sqrt p ei * hypot2 (A := real) sqrt p ei = p * p + ei * ei :> R) by (apply sqrt_sqrt; cbn; nra).
  set (r := hypot2 (A := real) sqrt p ei) in *. apply andb_true_iff in H. destruct H as [H1 H2]. split; [exact H1|].
  assert (R0 : r <> 0 :> R) by (intros Z; rewrite (proj2 (is_zero_real r) Z) in H2; discriminate).
  exists (p / r), (ei / r), r. split; [exact R0|]. split; [|split; [|split]].
  - transitivity ((p * p + ei * ei) / (r * r)); [field; exact R0|]. rewrite <- SQ. field. exact R0.
  - toR. field. exact R0.
  - toR. field. exact R0.
  - match goal with |- context [rot_cols n i ?s ?c ?t] => pose proof (rot_cols_spec n i s c t) as (K1 & K2 & K3); set (z := rot_cols n i s c t) in * end. cbn zeta in K1, K2, K3.
    cbn [r_c r_s r_c2 r_s2 r_c3 r_p r_st]. split; [reflexivity|]. split; [reflexivity|]. split; [reflexivity|]. split; [reflexivity|]. split; [reflexivity|]. split; [reflexivity|]. split; [|split].
    + rewrite K1. cbn [td sete setd]. assert (PR : Rmult (Rdiv p r) r = p) by (clearbody r; toR; field; exact R0). rewrite PR. reflexivity.
    + rewrite K2. reflexivity.
    + intros a b Ha. rewrite K3. destruct (Nat.ltb_spec a n); [|lia]. reflexivity.
Qed.

(** the loop of rotations *)
Definition swp (l m : nat) (t : st) (q : nat) : rot real := loop q (fun q w => rotate (A := real) sqrt n (m - 1 - q) w) (mkR t (@n1 real) (@n1 real) (@n1 real) (@n0 real) (@n0 real) (td t m) true).
Lemma swp_inv l m (t : st) tau f : (l < m)%nat -> (m < n)%nat -> near n S tau (tV t) (mid l f m (td t) (te t) 1 0 (td t m)) -> iso n (tV t) ->
  forall q, (q <= m - l)%nat -> let w := swp l m t q in let j := (m - q)%nat in r_ok w = true ->
  near n S tau (tV (r_st w)) (mid l f j (td (r_st w)) (te (r_st w)) (r_c w) (r_s w) (r_p w)) /\ iso n (tV (r_st w)) /\
  (forall k, (k <= j)%nat -> td (r_st w) k = td t k) /\ (forall k, (k <= j)%nat -> te (r_st w) k = te t k) /\ (forall k, (m < k)%nat -> te (r_st w) k = te t k) /\
  r_p w = r_c w * td t j - r_s w * (r_c2 w * te t j) /\ (q = 0%nat -> r_s w = 0) /\ ((0 < q)%nat -> te (r_st w) m = 0) /\
  ((0 < q)%nat -> exists r, r <> 0 /\ r_s w * r = te t j /\ r_c w * r = r_c2 w * td t (j + 1)%nat - r_s2 w * (r_c3 w * te t (j + 1)%nat)).
Proof.
  intros Hl Hm N I q. induction q as [|q IH]; intros Hq w j Hok.
  - unfold j, w. rewrite Nat.sub_0_r. cbn. split; [exact N|]. split; [exact I|]. repeat (split; [reflexivity|]).
    split; [toR; ring|]. split; [reflexivity|]. split; intros; lia.
  - set (v := swp l m t q). assert (Ew : w = rotate (A := real) sqrt n (m - 1 - q) v) by reflexivity. set (i := (m - 1 - q)%nat) in *.
    assert (Hi : (i + 1 < n)%nat) by (unfold i; lia). assert (Ej : j = i) by (unfold i, j; lia).
    rewrite Ew in Hok. destruct (rotate_spec i v Hi Hok) as (Ov & C & Q & r & R0 & CQ & Ep & Ee & K). rewrite <- Ew in K. cbn zeta in K.
    destruct K as (K1 & K2 & K3 & K4 & K5 & K6 & K7 & K8 & K9).
    destruct (IH ltac:(lia) Ov) as (J1 & J2 & J3 & J4 & J5 & J6 & J7 & J8 & J9). fold v in J1, J2, J3, J4, J5, J6, J7, J8, J9. replace (m - q)%nat with (i + 1)%nat in * by (unfold i; lia).
    clearbody w v. assert (Dk : td (r_st v) i = td t i) by (apply J3; lia). assert (Ek : te (r_st v) i = te t i) by (apply J4; lia).
    rewrite Ej. split; [|split; [|split; [|split; [|split; [|split; [|split; [|split]]]]]]].
    + apply (near_rot n S tau i C Q (tV (r_st v)) _ (mid l f (i + 1) (td (r_st v)) (te (r_st v)) (r_c v) (r_s v) (r_p v))); try assumption.
      intros a b _ _. rewrite K1, K2, K6, K7, K8, Ep. apply (mid_step l f i (td (r_st v)) (te (r_st v)) (r_c v) (r_s v) C Q r); [unfold i; lia|exact CQ|exact Ee].
    + apply (iso_rot n i C Q (tV (r_st v))); assumption.
    + intros k Hk. rewrite K7. unfold vset. destruct (Nat.eqb_spec k (i + 1)); [lia|]. apply J3. lia.
    + intros k Hk. rewrite K8. unfold vset. destruct (Nat.eqb_spec k (i + 1)); [lia|]. apply J4. lia.
    + intros k Hk. rewrite K8. unfold vset. destruct (Nat.eqb_spec k (i + 1)); [unfold i in *; lia|]. apply J5. lia.
    + rewrite K1, K2, K3, K6, Dk, Ek. reflexivity.
    + lia.
    + intros _. rewrite K8. unfold vset. destruct (Nat.eqb_spec m (i + 1)) as [E|].
      * rewrite J7 by (unfold i in *; lia). toR. ring.
      * apply J8. unfold i in *; lia.
    + intros _. exists r. rewrite K1, K2, K3, K4, K5. split; [exact R0|]. split; [rewrite <- Ek; symmetry; exact Ee|]. rewrite <- J6. symmetry; exact Ep.
Qed.

Lemma sweep_spec l m (t : st) f tau del : (l < m)%nat -> (m < n)%nat -> te t l <> 0 -> (forall k, (k < l)%nat -> te t k = 0) -> 0 <= del -> ((m + 1 < n)%nat -> Rabs (te t m) <= del) ->
  near n S tau (tV t) (tri l f (td t) (te t)) -> iso n (tV t) -> forall t' f', ql_sweep (A := real) sqrt n l m t f = (t', f', true) ->
  near n S (tau + del) (tV t') (tri l f' (td t') (te t')) /\ iso n (tV t') /\ (forall k, (k < l)%nat -> te t' k = 0) /\ te t' m = 0.
Proof.
  intros Hl Hm E0 Z Hd Hdel N I t' f' E. unfold ql_sweep in E.
  destruct (shift (A := real) sqrt n l t) as [[t1 dl1] h] eqn:ES. destruct (shift_spec n l t E0 ltac:(lia) _ _ _ ES) as (S1 & S2 & S3 & S4 & S5 & S6 & S7). clear ES.
  change (loop (m - l) _ _) with (swp l m t1 (m - l)) in E. cbv zeta in E.
  assert (N1 : near n S (tau + del) (tV t1) (mid l (f + h) m (td t1) (te t1) 1 0 (td t1 m))).
  { rewrite S1. apply (near_drop n S tau del m (te t m) (tV t) (tri l f (td t) (te t))); [exact Hd|exact Hdel| |exact N].
    intros a b Ha Hb. rewrite S2. unfold mid, midl, tri.
    assert (D : forall k, (k < n)%nat -> td t1 k + (if (l <=? k)%nat then f + h else 0) = td t k + (if (l <=? k)%nat then f else 0)).
    { intros k Hk. destruct (Nat.leb_spec l k); [rewrite <- (S4 k) by assumption; ring|rewrite S3 by assumption; ring]. }
    destruct (Nat.eq_dec a b) as [<-|NE].
    - rewrite Nat.leb_refl, Nat.eqb_refl. assert (X : (if (a =? m)%nat then Rmult 1 (td t1 m) else td t1 a) = td t1 a) by (destruct (Nat.eqb_spec a m) as [->|]; [apply Rmult_1_l|reflexivity]). rewrite X.
      rewrite D by exact Ha. dec; cbn [andb orb]; subst; try (exfalso; lia); ring.
    - dec; cbn [andb orb]; subst; try (exfalso; lia); toR; try ring.
  }
  assert (I1 : iso n (tV t1)) by (rewrite S1; exact I).
  pose proof (swp_inv l m t1 (tau + del) (f + h) Hl Hm N1 I1 (m - l) (le_n _)) as K. cbn zeta in K. replace (m - (m - l))%nat with l in K by lia.
  set (w := swp l m t1 (m - l)) in *. clearbody w.
  pose proof (f_equal (fun z => fst (fst z)) E) as E1. pose proof (f_equal (fun z => snd (fst z)) E) as E2. pose proof (f_equal snd E) as E3. cbn [fst snd] in E1, E2, E3. clear E.
  destruct (K E3) as (J1 & J2 & J3 & J4 & J5 & J6 & _ & J8 & J9). clear K.
  destruct (J9 ltac:(lia)) as (r & R0 & R1 & R2). specialize (J8 ltac:(lia)).
  assert (W : te (r_st w) l = te t l) by (rewrite <- S2; apply J4; lia).
  match type of E1 with setd l (@nmul real (r_c w) ?p) _ = _ => assert (P : p = r_p w); [|rewrite P in E1] end.
  { rewrite W, J6, S2. rewrite S2, S5 in R2. rewrite S2 in R1. apply (Rmult_eq_reg_r r); [|exact R0]. apply (Rmult_eq_reg_r dl1); [|exact S6].
    transitivity (- (r_s w * r) * r_s2 w * r_c3 w * te t (l + 1)%nat * te t l); [toR; cbn; field; exact S6|].
    transitivity (((r_c w * r) * td t1 l - (r_s w * r) * (r_c2 w * te t l)) * dl1); [|toR; ring].
    rewrite R1, R2. transitivity (r_c2 w * dl1 * (td t1 l * dl1) - r_s2 w * r_c3 w * te t (l + 1)%nat * (td t1 l * dl1) - te t l * te t l * r_c2 w * dl1); [|toR; ring]. rewrite S7. toR; ring. }
  rewrite <- E1. cbn [tV td te setd sete]. rewrite <- E2.
  split; [|split; [exact J2|split]].
  - apply (near_ext n S (tau + del) _ _ _) with (2 := J1). intros a b Ha Hb. unfold tri, mid, midl, vset.
    assert (ZL : forall k, (k < l)%nat -> te (r_st w) k = 0) by (intros k Hk; rewrite J4, S2 by lia; apply Z; exact Hk).
    destruct (Nat.eq_dec a b) as [<-|NE].
    + rewrite Nat.leb_refl, Nat.eqb_refl. reflexivity.
    + dec; subst; try (exfalso; lia); try reflexivity; repeat match goal with |- context [te (r_st w) ?k] => rewrite (ZL k) by lia end; toR; ring.
  - intros k Hk. unfold vset. destruct (Nat.eqb_spec k l); [lia|]. rewrite J4, S2 by lia. apply Z; exact Hk.
  - unfold vset. destruct (Nat.eqb_spec m l); [lia|]. exact J8.
Qed.
End N.
