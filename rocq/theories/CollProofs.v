(** lu_system_solve solves every nonsingular system, and the collocation tableau built from it. *)
From Coq Require Import ZArith List Bool Lia Reals Lra.
From Verif Require Import Arith Vec LinModel LinProofs LinSolve PadeModel RSum PadeProofs PadeTop Poly CollModel.
Import ListNotations.
Open Scope R_scope.

Lemma scan_idamax n i (X : matR) : (i + 1 < n)%nat -> pivot_scan (A := real) n i X = (i + idamax (A := real) (n - i) (fun k => X (i + k)%nat i))%nat.
Proof.
  intros H. unfold pivot_scan, idamax. destruct (Nat.leb_spec (n - i) 1); [lia|]. replace (n - i - 1)%nat with (n - 1 - i)%nat by lia.
  assert (G : forall m, let s := loop m (fun t (s : R * nat) => let j := (i + 1 + t)%nat in let w := Rabs (X j i) in if Rltb (fst s) w then (w, j) else s) (Rabs (X i i), i) in
    let s' := loop m (fun k (s : R * nat) => let d := cabs (A := real) (X (i + S k)%nat i) in if Rltb (fst s) d then (d, S k) else s) (cabs (A := real) (X (i + 0)%nat i), 0%nat) in
    fst s = fst s' /\ snd s = (i + snd s')%nat).
  { induction m as [|m IH]; [cbv zeta; cbn [loop fst snd]; rewrite cabs_real, !Nat.add_0_r; split; reflexivity|]. cbn [loop]. cbv zeta in *. destruct IH as [I1 I2]. rewrite (cabs_real (X (i + S m)%nat i)).
    replace (i + 1 + m)%nat with (i + S m)%nat by lia. rewrite <- I1. match goal with |- context[if Rltb ?a ?b then _ else _] => destruct (Rltb a b) end; cbn [fst snd]; split; try reflexivity; try assumption. }
  exact (proj2 (G (n - 1 - i)%nat)).
Qed.
(** the two factorisations correspond: the eliminated entries differ in sign *)
Definition match_lu (n i : nat) (s : lu real) (t : lus real) : Prop :=
  (forall r c, (r < n)%nat -> (c < n)%nat -> ls_A t r c = if (c <? i)%nat && (c <? r)%nat then - lu_A s r c else lu_A s r c) /\
  (forall r, (r < n)%nat -> ls_perm t r = sigma (lu_piv s) i r).
Lemma swap_eq n i p (t : lus real) r c : (i <= p < n)%nat -> (c < n)%nat ->
  ls_A (pivot_swap n i p t) r c = ls_A t (tau i p r) c /\ ls_perm (pivot_swap n i p t) r = ls_perm t (tau i p r).
Proof.
  intros Hp Hc. unfold pivot_swap, tau. destruct (Nat.ltb_spec i p).
  - cbn [ls_A ls_perm]. destruct (Nat.ltb_spec c n); [|lia]. destruct (r =? i)%nat, (r =? p)%nat; split; reflexivity.
  - replace p with i by lia. destruct (Nat.eqb_spec r i) as [->|]; split; reflexivity.
Qed.
Lemma match_step n i s t A0 : (i + 1 < n)%nat -> Inv n A0 i s -> match_lu n i s t -> lu_info (lu_step n i s) = 0%Z -> match_lu n (S i) (lu_step n i s) (lus_step n i t).
Proof.
  intros Hi I [M1 M2] Ok. unfold lu_step in *. unfold lus_step.
  assert (Ep : pivot_scan (A := real) n i (ls_A t) = (i + idamax (A := real) (n - i) (fun k => lu_A s (i + k)%nat i))%nat).
  { rewrite scan_idamax by exact Hi. f_equal.
    assert (Q : forall k, (k < n - i)%nat -> ls_A t (i + k)%nat i = lu_A s (i + k)%nat i).
    { intros k Hk. rewrite M1 by lia. destruct (Nat.ltb_spec i i); [lia|reflexivity]. }
    unfold idamax. destruct (Nat.leb_spec (n - i) 1); [reflexivity|]. f_equal.
    assert (G : forall m, (m <= n - i - 1)%nat ->
      loop m (fun k (s : R * nat) => let d := cabs (A := real) (ls_A t (i + S k)%nat i) in if Rltb (fst s) d then (d, S k) else s) (cabs (A := real) (ls_A t (i + 0)%nat i), 0%nat) =
      loop m (fun k (s0 : R * nat) => let d := cabs (A := real) (lu_A s (i + S k)%nat i) in if Rltb (fst s0) d then (d, S k) else s0) (cabs (A := real) (lu_A s (i + 0)%nat i), 0%nat)).
    { induction m as [|m IH]; intros Hm; cbn [loop]; cbv zeta in *; [rewrite Q by lia; reflexivity|]. rewrite (Q (S m)) by lia. rewrite IH by lia. reflexivity. }
    exact (G (n - i - 1)%nat (Nat.le_refl _)). }
  set (p := (i + idamax (A := real) (n - i) (fun k => lu_A s (i + k)%nat i))%nat) in *. rewrite Ep.
  destruct (idamax_spec (n - i) (fun k => lu_A s (i + k)%nat i) ltac:(lia)) as (B1 & _ & _).
  assert (Hp : (i <= p < n)%nat) by (unfold p; lia).
  destruct (nonzero (A := real) (lu_A s p i)) eqn:Nz.
  2:{ exfalso. cbn [lu_info] in Ok. destruct (lu_info s =? 0)%Z eqn:Q; [lia|]. rewrite Ok in Q. discriminate Q. }
  cbn [lu_A lu_piv lu_info] in *. apply nonzero_real in Nz.
  set (X1 := if_swap (A := real) 0 n i p (lu_A s)).
  assert (EX1 : forall r c, (c < n)%nat -> X1 r c = lu_A s (tau i p r) c).
  { intros r c Hc. unfold X1. rewrite if_swap_eq. cbn [Nat.leb andb]. destruct (Nat.ltb_spec c n); [reflexivity|lia]. }
  assert (D : X1 i i <> 0). { rewrite EX1 by lia. unfold tau. rewrite Nat.eqb_refl. exact Nz. }
  assert (Y1 : forall r c, (r < n)%nat -> (c < n)%nat -> ls_A (pivot_swap n i p t) r c = if (c <? i)%nat && (c <? r)%nat then - X1 r c else X1 r c).
  { intros r c Hr Hc. rewrite (proj1 (swap_eq n i p t r c Hp Hc)), M1 by (try exact Hc; apply tau_lt; lia). rewrite EX1 by exact Hc.
    destruct (Nat.ltb_spec c i); cbn [andb]; [|reflexivity]. replace (c <? tau i p r)%nat with (c <? r)%nat; [reflexivity|].
    unfold tau. nb; try reflexivity; lia. }
  split.
  - intros r c Hr Hc. cbn [ls_A lu_A]. unfold eliminate, trail. cbv beta zeta. rewrite !scale_col_eq by exact D. rewrite !Y1 by lia.
    change (@nopp real) with Ropp. change (@ndiv real) with Rdiv. change (@nadd real) with Rplus. change (@nmul real) with Rmult. change (@n1 real) with 1.
    destruct (Nat.ltb_spec r n); [|lia]. destruct (Nat.ltb_spec c n); [|lia]. destruct (Nat.ltb_spec i i); [lia|]. rewrite !Nat.eqb_refl. cbn [andb].
    destruct (Nat.ltb_spec i r) as [Hr'|Hr']; cbn [andb].
    + destruct (Nat.lt_trichotomy c i) as [L|[->|L]].
      * destruct (Nat.eqb_spec c i); [lia|]. destruct (Nat.ltb_spec i c); [lia|]. destruct (Nat.ltb_spec c i); [|lia]. destruct (Nat.ltb_spec c (S i)); [|lia]. destruct (Nat.ltb_spec c r); [|lia]. reflexivity.
      * rewrite Nat.eqb_refl. destruct (Nat.ltb_spec i i); [lia|]. destruct (Nat.ltb_spec i (S i)); [|lia]. destruct (Nat.ltb_spec i r); [|lia]. cbn [andb]. revert D. generalize (X1 i i) (X1 r i). change (num real) with R. intros dd b D. field. exact D.
      * destruct (Nat.eqb_spec c i); [lia|]. destruct (Nat.ltb_spec i c); [|lia]. destruct (Nat.ltb_spec c i); [lia|]. destruct (Nat.ltb_spec c (S i)); [lia|]. destruct (Nat.ltb_spec i r); [|lia]. cbn [andb].
        revert D. generalize (X1 i i) (X1 r c) (X1 r i) (X1 i c). change (num real) with R. intros dd a b e D. field. exact D.
    + rewrite !andb_false_r. cbn [andb]. destruct (Nat.ltb_spec c r); [|rewrite !andb_false_r; reflexivity]. destruct (Nat.ltb_spec c i); [|lia]. destruct (Nat.ltb_spec c (S i)); [|lia]. reflexivity.
  - intros r Hr. cbn [ls_perm lu_piv sigma]. cbv beta. rewrite Nat.eqb_refl. rewrite (proj2 (swap_eq n i p t r 0 Hp ltac:(lia))), M2 by (apply tau_lt; lia).
    apply sigma_ext. intros k Hk. destruct (Nat.eqb_spec k i); [lia|reflexivity].
Qed.

(** info stays nonzero *)
Lemma info_mono n i s : lu_info (lu_step (A := real) n i s) = 0%Z -> lu_info s = 0%Z.
Proof.
  unfold lu_step. destruct (nonzero _); cbn [lu_info]; [auto|]. destruct (Z.eqb_spec (lu_info s) 0); auto.
Qed.
Lemma inv_loop n A0 piv : forall k, (k <= n)%nat -> Inv n A0 k (loop k (lu_step n) (mkLu (A := real) A0 piv 0)).
Proof. induction k as [|k IH]; intros Hk; cbn [loop]; [apply inv_init|]. apply inv_step; [lia|]. apply IH. lia. Qed.
Lemma info_loop n A0 piv : forall m k, (k <= m)%nat -> lu_info (loop m (lu_step n) (mkLu (A := real) A0 piv 0)) = 0%Z -> lu_info (loop k (lu_step n) (mkLu (A := real) A0 piv 0)) = 0%Z.
Proof.
  induction m as [|m IH]; intros k Hk H; [replace k with 0%nat by lia; exact H|].
  destruct (Nat.eq_dec k (S m)) as [->|]; [exact H|]. apply IH; [lia|]. cbn [loop] in H. exact (info_mono n m _ H).
Qed.
Lemma match_loop n A0 piv : lu_info (dgetf2 (A := real) n (mkLu A0 piv 0)) = 0%Z ->
  forall k, (k <= n - 1)%nat -> match_lu n k (loop k (lu_step n) (mkLu A0 piv 0)) (loop k (lus_step n) (mkLus A0 (fun k => k))).
Proof.
  intros Ok. induction k as [|k IH]; intros Hk; cbn [loop].
  - split; [intros r c _ _|intros r _; reflexivity]. destruct (Nat.ltb_spec c 0); [lia|reflexivity].
  - apply match_step with (A0 := A0); [lia|apply inv_loop; lia|apply IH; lia|].
    apply (info_loop n A0 piv n (S k)); [lia|exact Ok].
Qed.
(** the last factorisation step changes nothing *)
Lemma last_step n A0 s : (0 < n)%nat -> lu_info (lu_step (A := real) n (n - 1) s) = 0%Z -> Inv n A0 (n - 1) s ->
  (forall r c, (r < n)%nat -> (c < n)%nat -> lu_A (lu_step n (n - 1) s) r c = lu_A s r c) /\
  forall r, sigma (lu_piv (lu_step n (n - 1) s)) n r = sigma (lu_piv s) (n - 1) r.
Proof.
  intros Hn Ok I. unfold lu_step in *. replace (idamax (A := real) (n - (n - 1)) (fun i => lu_A s (n - 1 + i)%nat (n - 1)%nat)) with 0%nat in *.
  2:{ unfold idamax. destruct (Nat.leb_spec (n - (n - 1)) 1); [reflexivity|lia]. }
  rewrite Nat.add_0_r in *. destruct (nonzero (A := real) (lu_A s (n - 1)%nat (n - 1)%nat)) eqn:Nz.
  2:{ exfalso. cbn [lu_info] in Ok. destruct (lu_info s =? 0)%Z eqn:Q; [lia|]. rewrite Ok in Q. discriminate Q. }
  cbn [lu_A lu_piv lu_info] in *. split.
  - intros r c Hr Hc. unfold trail. destruct (Nat.ltb_spec (n - 1) r); [lia|]. cbn [andb]. unfold scale_col. destruct (Nat.ltb_spec (n - 1 + 1) n); [lia|].
    unfold if_swap. rewrite Nat.eqb_refl. reflexivity.
  - intros r. set (P := fun k : nat => _). assert (E : sigma P n r = sigma P (S (n - 1)) r) by (f_equal; lia). rewrite E. cbn [sigma]. unfold P at 2. rewrite Nat.eqb_refl. unfold P.
    rewrite (sigma_ext (fun k => if (k =? n - 1)%nat then (n - 1)%nat else lu_piv s k) (lu_piv s)).
    + f_equal. unfold tau. destruct (Nat.eqb_spec r (n - 1)) as [->|]; reflexivity.
    + intros k Hk. destruct (Nat.eqb_spec k (n - 1)); [lia|reflexivity].
Qed.
(** substitutions *)
Lemma forward_spec n (X B : matR) : forall r k, (r < n)%nat ->
  let Y := lus_forward (A := real) n X B in Y r k = B r k + sum r (fun i => X r i * Y i k).
Proof.
  unfold lus_forward. intros r k Hr. cbv zeta.
  set (outer := fun j0 (B : matR) => let j := S j0 in loop j (fun i B r k => if (r =? j)%nat then B j k + X j i * B i k else B r k) B).
  change (loop (n - 1) _ B) with (loop (n - 1) outer B).
  (* one row *)
  assert (In : forall j (B : matR) m, (m <= j)%nat -> forall r k, loop m (fun i B r k => if (r =? j)%nat then B j k + X j i * B i k else B r k) B r k =
    if (r =? j)%nat then B j k + sum m (fun i => X j i * B i k) else B r k).
  { intros j B0. induction m as [|m IH]; intros Hm r0 k0; cbn [loop sum]; [destruct (Nat.eqb_spec r0 j) as [->|]; lra|].
    destruct (Nat.eqb_spec r0 j) as [->|N].
    - rewrite !IH by lia. rewrite Nat.eqb_refl. destruct (Nat.eqb_spec m j); [lia|]. lra.
    - rewrite IH by lia. destruct (Nat.eqb_spec r0 j); [contradiction|reflexivity]. }
  assert (G : forall m, forall r k, loop m outer B r k = if (r <=? m)%nat then B r k + sum r (fun i => X r i * loop m outer B i k) else B r k).
  { induction m as [|m IH]; intros r0 k0.
    - cbn [loop]. destruct (Nat.leb_spec r0 0); [replace r0 with 0%nat by lia; cbn; lra|reflexivity].
    - cbn [loop]. assert (E : forall i k, outer m (loop m outer B) i k = if (i =? S m)%nat then loop m outer B (S m) k + sum (S m) (fun i => X (S m) i * loop m outer B i k) else loop m outer B i k).
      { intros i k1. unfold outer at 1. cbv zeta. apply (In (S m) (loop m outer B) (S m) (Nat.le_refl _)). }
      rewrite E. destruct (Nat.eqb_spec r0 (S m)) as [->|N].
      + destruct (Nat.leb_spec (S m) (S m)); [|lia]. rewrite (IH (S m) k0) at 1. destruct (Nat.leb_spec (S m) m); [lia|]. f_equal.
        apply sum_ext. intros i Hi. rewrite E. destruct (Nat.eqb_spec i (S m)); [lia|reflexivity].
      + rewrite IH. destruct (Nat.leb_spec r0 m), (Nat.leb_spec r0 (S m)); try lia; [|reflexivity]. f_equal.
        apply sum_ext. intros i Hi. rewrite E. destruct (Nat.eqb_spec i (S m)); [lia|reflexivity]. }
  rewrite (G (n - 1)%nat r k) at 1. destruct (Nat.leb_spec r (n - 1)); [reflexivity|lia].
Qed.
Lemma back_spec n (X B : matR) (D : forall l, (l < n)%nat -> X l l <> 0) : forall r k, (r < n)%nat ->
  let Y := lus_back (A := real) n X B in sum n (fun j => Uof X r j * Y j k) = B r k.
Proof.
  unfold lus_back. intros r k Hr. cbv zeta.
  set (inner := fun i t (B : matR) => loop t (fun u B => let j := (n - 1 - u)%nat in fun r k => if (r =? i)%nat then B i k - X i j * B j k else B r k) B).
  set (outer := fun t (B : matR) => let i := (n - 1 - t)%nat in let B := inner i t B in fun r k => if (r =? i)%nat then (1 / X i i) * B i k else B r k).
  change (loop n _ B) with (loop n outer B).
  assert (In : forall i (B : matR) m, (i + m < n)%nat -> forall r k, inner i m B r k = if (r =? i)%nat then B i k - sum m (fun u => X i (n - 1 - u)%nat * B (n - 1 - u)%nat k) else B r k).
  { intros i B0. unfold inner. induction m as [|m IH]; intros Hm r0 k0; cbn [loop sum]; [destruct (Nat.eqb_spec r0 i) as [->|]; lra|].
    cbv zeta. destruct (Nat.eqb_spec r0 i) as [->|N].
    - rewrite !IH by lia. rewrite Nat.eqb_refl. destruct (Nat.eqb_spec (n - 1 - m) i); [lia|]. lra.
    - rewrite IH by lia. destruct (Nat.eqb_spec r0 i); [contradiction|reflexivity]. }
  assert (G : forall t, (t <= n)%nat -> forall r k, (r < n)%nat ->
    if (n - t <=? r)%nat then X r r * loop t outer B r k + sum (n - 1 - r) (fun u => X r (n - 1 - u)%nat * loop t outer B (n - 1 - u)%nat k) = B r k else loop t outer B r k = B r k).
  { induction t as [|t IH]; intros Ht r0 k0 Hr0.
    - destruct (Nat.leb_spec (n - 0) r0); [lia|reflexivity].
    - cbn [loop]. assert (E : forall i k, outer t (loop t outer B) i k = if (i =? n - 1 - t)%nat then 1 / X (n - 1 - t)%nat (n - 1 - t)%nat * (loop t outer B i k - sum t (fun u => X i (n - 1 - u)%nat * loop t outer B (n - 1 - u)%nat k)) else loop t outer B i k).
      { intros i k1. unfold outer at 1. cbv zeta. rewrite !In by lia. rewrite Nat.eqb_refl. destruct (Nat.eqb_spec i (n - 1 - t)) as [->|]; reflexivity. }
      assert (E' : forall u k, (u < t)%nat -> outer t (loop t outer B) (n - 1 - u)%nat k = loop t outer B (n - 1 - u)%nat k).
      { intros u k1 Hu. rewrite E. destruct (Nat.eqb_spec (n - 1 - u) (n - 1 - t)); [lia|reflexivity]. }
      specialize (IH ltac:(lia) r0 k0 Hr0).
      destruct (Nat.eq_dec r0 (n - 1 - t)) as [Er|N].
      + destruct (Nat.leb_spec (n - S t) r0); [|lia]. destruct (Nat.leb_spec (n - t) r0); [lia|].
        replace (n - 1 - r0)%nat with t by lia. rewrite (sum_ext t _ (fun u => X r0 (n - 1 - u)%nat * loop t outer B (n - 1 - u)%nat k0)) by (intros u Hu; rewrite E' by exact Hu; reflexivity).
        rewrite E. destruct (Nat.eqb_spec r0 (n - 1 - t)); [|contradiction]. rewrite <- Er, IH. field. apply D, Hr0.
      + destruct (Nat.leb_spec (n - t) r0) as [L|L].
        * destruct (Nat.leb_spec (n - S t) r0); [|lia]. rewrite <- IH. rewrite E. destruct (Nat.eqb_spec r0 (n - 1 - t)); [contradiction|]. f_equal.
          apply sum_ext. intros u Hu. rewrite E' by lia. reflexivity.
        * destruct (Nat.leb_spec (n - S t) r0); [lia|]. rewrite E. destruct (Nat.eqb_spec r0 (n - 1 - t)); [contradiction|exact IH]. }
  specialize (G n (Nat.le_refl n) r k Hr). rewrite Nat.sub_diag in G. destruct (Nat.leb_spec 0 r); [|lia]. rewrite <- G.
  (* reorder the tail of row r *)
  replace n with (r + S (n - 1 - r))%nat at 1 by lia. rewrite sum_split. rewrite (sum_zero r) by (intros j Hj; unfold Uof; destruct (Nat.leb_spec r j); [lia|lra]).
  rewrite Rplus_0_l. change (S (n - 1 - r)) with (1 + (n - 1 - r))%nat. rewrite sum_split. cbn [sum]. rewrite Nat.add_0_r, Rplus_0_l.
  f_equal; [unfold Uof; destruct (Nat.leb_spec r r); [reflexivity|lia]|].
  assert (Rv : forall m (f : vecR), sum m f = sum m (fun u => f (m - 1 - u)%nat)).
  { clear. induction m as [|m IH]; intros f; [reflexivity|]. change (S m) with (1 + m)%nat at 1. rewrite sum_split. cbn [sum]. rewrite (IH (fun k => f (1 + k)%nat)).
    replace (S m - 1 - m)%nat with 0%nat by lia. rewrite Rplus_0_l, Rplus_comm. f_equal. apply sum_ext. intros k Hk. f_equal. lia. }
  rewrite Rv. apply sum_ext. intros u Hu. unfold Uof. replace (r + (1 + (n - 1 - r - 1 - u)))%nat with (n - 1 - u)%nat by lia.
  destruct (Nat.leb_spec r (n - 1 - u)); [reflexivity|lia].
Qed.
(** lu_system_solve solves every system whose matrix is nonsingular *)
Lemma lus_solves n (M B : matR) : ~ singular n M -> meq n (mm n M (lu_system_solve (A := real) n M B)) B.
Proof.
  intros NS. set (piv := fun _ : nat => 0%nat).
  assert (Ok : lu_info (dgetf2 (A := real) n (mkLu M piv 0)) = 0%Z).
  { destruct (dgesv n n M B piv) as [Y i] eqn:E. assert (I : i = 0%Z).
    { destruct (Z.eq_dec i 0) as [e|e]; [exact e|]. exfalso. apply NS. destruct (dgesv_singular n n M B piv Y i E e) as (_ & _ & v & V & K).
      exists v. split; [exact V|]. intros r Hr. unfold mv. rewrite <- vsum_sum. apply K, Hr. }
    unfold dgesv in E. injection E as _ E. rewrite E. exact I. }
  intros r0 c Hr0 Hc. assert (Hn : (0 < n)%nat) by lia.
  set (s := dgetf2 (A := real) n (mkLu M piv 0)) in *. assert (I : Inv n M n s) by apply inv_lu.
  set (s1 := loop (n - 1) (lu_step n) (mkLu (A := real) M piv 0)). set (t := loop (n - 1) (lus_step n) (mkLus (A := real) M (fun k => k))).
  assert (Es : s = lu_step n (n - 1) s1). { unfold s, dgetf2, s1. replace n with (S (n - 1)) at 1 by lia. reflexivity. }
  destruct (match_loop n M piv Ok (n - 1)%nat (Nat.le_refl _)) as [M1 M2]. fold s1 in M1, M2. fold t in M1, M2.
  destruct (last_step n M s1 Hn) as [L1 L2]; [rewrite <- Es; exact Ok|apply inv_loop; lia|]. rewrite <- Es in L1, L2.
  assert (Pv : forall j, (j < n)%nat -> (lu_piv s j < n)%nat) by (intros j Hj; pose proof (inv_piv _ _ _ _ I j Hj); lia).
  destruct (sigma_onto n (lu_piv s) n (Nat.le_refl n) Pv r0 Hr0) as (r & Hr & <-).
  assert (T : forall r c, (r < n)%nat -> (c < n)%nat -> ls_A t r c = if (c <? r)%nat then - lu_A s r c else lu_A s r c).
  { intros a b Ha Hb. rewrite M1, L1 by assumption. destruct (Nat.ltb_spec b (n - 1)), (Nat.ltb_spec b a); cbn [andb]; try reflexivity; lia. }
  unfold lu_system_solve. cbv zeta. fold t. set (Y := lus_forward (A := real) n (ls_A t) (permute_rhs (ls_perm t) B)). set (X := lus_back (A := real) n (ls_A t) Y).
  assert (Dg : forall l, (l < n)%nat -> ls_A t l l <> 0).
  { intros l Hl. rewrite T by assumption. destruct (Nat.ltb_spec l l); [lia|]. apply (inv_ok _ _ _ _ I Ok l Hl). }
  unfold mm. rewrite <- vsum_sum. rewrite (lu_apply n M s (fun k => X k c) r I Hr).
  (* U x = y *)
  assert (Ux : forall l, (l < n)%nat -> vsum (A := real) n (fun k => Uof (lu_A s) l k * X k c) = Y l c).
  { intros l Hl. rewrite vsum_sum. pose proof (back_spec n (ls_A t) Y Dg l c Hl) as Bs. cbv zeta in Bs. fold X in Bs. rewrite <- Bs. apply sum_ext. intros k Hk.
    unfold Uof. destruct (Nat.leb_spec l k) as [Lk|Lk]; [|reflexivity]. rewrite T by assumption. destruct (Nat.ltb_spec k l); [lia|reflexivity]. }
  rewrite (vsum_ext n _ (fun l => Lof (lu_A s) r l * Y l c)) by (intros l Hl; rewrite Ux by exact Hl; reflexivity).
  rewrite vsum_sum. pose proof (forward_spec n (ls_A t) (permute_rhs (ls_perm t) B) r c Hr) as F. cbv zeta in F. fold Y in F.
  assert (Ep : ls_perm t r = sigma (lu_piv s) n r) by (rewrite M2, L2 by exact Hr; reflexivity).
  unfold permute_rhs in F at 1. rewrite Ep in F.
  replace n with (r + S (n - 1 - r))%nat at 1 by lia. rewrite sum_split. change (S (n - 1 - r)) with (1 + (n - 1 - r))%nat. rewrite sum_split. cbn [sum]. rewrite Nat.add_0_r, Rplus_0_l.
  rewrite (sum_zero (n - 1 - r)).
  2:{ intros k Hk. unfold Lof. destruct (Nat.eqb_spec r (r + (1 + k))); [lia|]. destruct (Nat.ltb_spec (r + (1 + k)) r); [lia|lra]. }
  rewrite (sum_ext r _ (fun i => - (ls_A t r i * Y i c))).
  2:{ intros l Hl. unfold Lof. destruct (Nat.eqb_spec r l); [lia|]. destruct (Nat.ltb_spec l r); [|lia]. rewrite T by lia. destruct (Nat.ltb_spec l r); [lra|lia]. }
  rewrite sum_opp. unfold Lof. rewrite Nat.eqb_refl. change (num real) with R in *. lra.
Qed.
