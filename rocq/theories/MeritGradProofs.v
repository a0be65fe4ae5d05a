(** The computed merit gradient against the derivative of the merit function along the step. *)
From Coq Require Import ZArith List Bool Lia Reals Lra Psatz.
From Coquelicot Require Import Coquelicot.
From Verif Require Import Arith Vec MeritModel MeritGrad.
Import ListNotations.
Open Scope R_scope.

(** *** derivatives of |f| and max(0, f) away from zero *)
Lemma is_derive_locally_eq (f g : R -> R) x d : locally x (fun y => g y = f y) -> is_derive f x d -> is_derive g x d.
Proof. intros H D. apply is_derive_ext_loc with f; [|exact D]. apply filter_imp with (2 := H). intros y E. symmetry. exact E. Qed.
Lemma locally_pos (f : R -> R) x d : is_derive f x d -> 0 < f x -> locally x (fun y => 0 < f y).
Proof.
  intros D H. assert (C : continuous f x) by (apply (ex_derive_continuous (V := R_NormedModule)); exists d; exact D).
  apply (C (fun z => 0 < z)). apply open_gt. exact H.
Qed.
Lemma locally_neg (f : R -> R) x d : is_derive f x d -> f x < 0 -> locally x (fun y => f y < 0).
Proof.
  intros D H. assert (C : continuous f x) by (apply (ex_derive_continuous (V := R_NormedModule)); exists d; exact D).
  apply (C (fun z => z < 0)). apply open_lt. exact H.
Qed.
Lemma abs_derive (f : R -> R) x d : is_derive f x d -> f x <> 0 -> is_derive (fun y => Rabs (f y)) x (if Rltb 0 (f x) then d else - d).
Proof.
  intros D N. destruct (Rltb_spec 0 (f x)) as [H|H].
  - apply is_derive_locally_eq with f; [|exact D]. apply filter_imp with (2 := locally_pos f x d D H). intros y Hy. apply Rabs_pos_eq. lra.
  - assert (H1 : f x < 0) by lra. apply is_derive_locally_eq with (fun y => - f y).
    + apply filter_imp with (2 := locally_neg f x d D H1). intros y Hy. apply Rabs_left. exact Hy.
    + apply (is_derive_opp (V := R_NormedModule) f x d D).
Qed.
Lemma pos_derive (f : R -> R) x d : is_derive f x d -> f x <> 0 -> is_derive (fun y => if Rltb 0 (f y) then f y else 0) x (if Rltb 0 (f x) then d else 0).
Proof.
  intros D N. destruct (Rltb_spec 0 (f x)) as [H|H].
  - apply is_derive_locally_eq with f; [|exact D]. apply filter_imp with (2 := locally_pos f x d D H). intros y Hy. destruct (Rltb_spec 0 (f y)); lra.
  - assert (H1 : f x < 0) by lra. apply is_derive_locally_eq with (fun _ => 0).
    + apply filter_imp with (2 := locally_neg f x d D H1). intros y Hy. destruct (Rltb_spec 0 (f y)); lra.
    + apply (is_derive_const (V := R_NormedModule) 0 x).
Qed.
Lemma derive_eq (f : R -> R) (x v w : R) : v = w -> is_derive f x v -> is_derive f x w.
Proof. intros ->. auto. Qed.
Lemma vsum_derive (n : nat) (f : nat -> R -> R) (d : nat -> R) x : (forall k, (k < n)%nat -> is_derive (f k) x (d k)) ->
  is_derive (fun y => vsum (A := real) n (fun k => f k y)) x (vsum (A := real) n d).
Proof.
  induction n as [|n IH]; intros H; cbn [vsum].
  - apply (is_derive_const (V := R_NormedModule) 0 x).
  - apply (is_derive_plus (V := R_NormedModule) (fun y => vsum (A := real) n (fun k => f k y)) (f n)).
    + apply IH. intros; apply H; lia.
    + apply H. lia.
Qed.

(** *** the value of the merit function as double sums *)
Definition mk (n : nat) (f : nat -> R) : list R := map f (seq 0 n).
Lemma fold_comb (h : R -> R -> R) (u v : nat -> R) : forall n s (a : R),
  fold_left (fun (a : R) (p : R * R) => a + h (fst p) (snd p)) (combine (map u (seq s n)) (map v (seq s n))) a =
  a + vsum (A := real) n (fun j => h (u (s + j)%nat) (v (s + j)%nat)).
Proof.
  intros n s a. rewrite <- (fold_seq_vsum (fun k => h (u k) (v k)) n s a). revert s a.
  induction n as [|n IH]; intros s a; [reflexivity|]. cbn [seq map combine fold_left fst snd]. apply IH.
Qed.
Lemma fold_stage (g : R -> list R * list R -> R) (val : nat -> R) (F G : nat -> list R)
  (H : forall i a, g a (F i, G i) = a + val i) : forall n s (a : R),
  fold_left g (combine (map F (seq s n)) (map G (seq s n))) a = a + vsum (A := real) n (fun i => val (s + i)%nat).
Proof.
  intros n s a. rewrite <- (fold_seq_vsum val n s a). revert s a.
  induction n as [|n IH]; intros s a; [reflexivity|]. cbn [seq map combine fold_left]. rewrite H. apply IH.
Qed.
Definition merit_at (M : nat) (c : nat -> R) (nd : nat -> nat) (g : nat -> nat -> R) (wp : nat -> nat -> R)
  (nc : nat -> nat) (h : nat -> nat -> R) (wl : nat -> nat -> R) : R :=
  merit_value (A := real) (mk (S M) c) (map (fun i => mk (nd i) (g i)) (seq 0 M)) (map (fun i => mk (nc i) (h i)) (seq 0 (S M)))
    (mkDuals (map (fun i => mk (nd i) (wp i)) (seq 0 M)) (map (fun i => mk (nc i) (wl i)) (seq 0 (S M)))).
Lemma merit_at_sums M c nd g wp nc h wl :
  merit_at M c nd g wp nc h wl =
  vsum (A := real) (S M) c
  + vsum (A := real) M (fun i => vsum (A := real) (nd i) (fun j => Rabs (wp i j) * Rabs (g i j)))
  + vsum (A := real) (S M) (fun i => vsum (A := real) (nc i) (fun j => Rabs (wl i j) * (if Rltb 0 (h i j) then h i j else 0))).
Proof.
  unfold merit_at, merit_value. cbn [du_pi du_lam].
  rewrite (fold_stage _ (fun i => vsum (A := real) (nd i) (fun j => Rabs (wp i j) * Rabs (g i j)))).
  2:{ intros i a. cbn [fst snd]. unfold mk. apply (fold_comb (fun x y => Rabs y * Rabs x)). }
  rewrite (fold_stage _ (fun i => vsum (A := real) (nc i) (fun j => Rabs (wl i j) * (if Rltb 0 (h i j) then h i j else 0)))).
  2:{ intros i a. cbn [fst snd]. unfold mk. etransitivity; [|exact (fold_comb (fun x y => Rabs y * (if Rltb 0 x then x else 0)) (h i) (wl i) (nc i) 0 a)].
      apply fold_left_ext_in. intros b [x y] _. cbn. destruct (Rltb 0 x); lra. }
  unfold sum_list, mk.
  assert (E : forall n s (a : R), fold_left (@nadd real) (map c (seq s n)) a = a + vsum (A := real) n (fun k => c (s + k)%nat)).
  { intros n s a. rewrite <- (fold_seq_vsum c n s a). revert s a. induction n as [|n IH]; intros s a; [reflexivity|]. cbn [seq map fold_left]. apply IH. }
  rewrite E. cbn [Nat.add]. change (@n0 real) with 0. change (@nadd real) with Rplus. rewrite !Rplus_0_l. reflexivity.
Qed.

(** *** the computed gradient as double sums *)
Definition d0 : gdata real := mkGd 0 0 0 0 0 (fun _ => 0) (fun _ => 0) (fun _ _ => 0) (fun _ => 0) (fun _ => 0%nat) (fun _ _ => 0) (fun _ => (-1)%Z) (fun _ => 0) (fun _ => 0) (fun _ => 0).
Lemma fold_nth {X} (f : R -> X -> R) (d : X) (v : X -> R) (H : forall a s, f a s = a + v s) l : forall a : R,
  fold_left f l a = a + vsum (A := real) (length l) (fun i => v (nth i l d)).
Proof.
  induction l as [|x l IH] using rev_ind; intros a; [cbn; lra|].
  rewrite fold_left_app. cbn [fold_left]. rewrite H, IH, app_length. cbn [length]. rewrite Nat.add_1_r. cbn [vsum].
  rewrite (vsum_ext (length l) (fun i => v (nth i l d)) (fun i => v (nth i (l ++ [x]) d))).
  2:{ intros k Hk. rewrite app_nth1 by assumption. reflexivity. }
  rewrite nth_middle. change (@nadd real) with Rplus. lra.
Qed.
Definition gap_term (s next : gdata real) : R :=
  vsum (A := real) (gd_nx next) (fun j => gd_wpi s j * (if Rltb 0 (gd_gap s j) then gap_step s next j else - gap_step s next j)).
Lemma grad_gap_sum s next (a : R) : grad_gap s next a = a + gap_term s next.
Proof.
  unfold grad_gap, gap_term. rewrite <- (fold_seq0 (fun j => gd_wpi s j * (if Rltb 0 (gd_gap s j) then gap_step s next j else - gap_step s next j)) (gd_nx next) a).
  apply fold_left_ext_in. intros b j _. cbn. destruct (Rltb 0 (gd_gap s j)); lra.
Qed.
Lemma vsum_shift n (f : nat -> R) : vsum (A := real) (S n) f = f 0%nat + vsum (A := real) n (fun k => f (S k)).
Proof. change (S n) with (1 + n)%nat. rewrite vsum_split. cbn. lra. Qed.
Lemma grad_dyn_sum l : forall a : R, grad_dyn l a = a + vsum (A := real) (length l - 1) (fun i => gap_term (nth i l d0) (nth (S i) l d0)).
Proof.
  induction l as [|s l IH]; intros a; [cbn; lra|]. destruct l as [|next r]; [cbn; lra|].
  change (grad_dyn (s :: next :: r) a) with (grad_dyn (next :: r) (grad_gap s next a)). rewrite IH, grad_gap_sum. cbn [length]. rewrite !Nat.sub_succ, !Nat.sub_0_r. rewrite vsum_shift. cbn [nth]. lra.
Qed.
Definition slack_step (s : gdata real) (j : nat) : R := match slack_of s j with Some k => gd_step s k | None => 0 end.
Definition con_term (s : gdata real) (j : nat) : R := if Rltb 0 (gd_con s j) then gd_wlam s j * (con_dir s j - slack_step s j) else 0.
Lemma grad_con_sum s (a : R) : grad_con s a = a + vsum (A := real) (2 * (gd_nb s + gd_ng s)) (con_term s).
Proof.
  unfold grad_con. rewrite <- (fold_seq0 (con_term s) (2 * (gd_nb s + gd_ng s)) a).
  apply fold_left_ext_in. intros b j _. unfold con_term, slack_step. change (@nltb real) with Rltb. change (@n0 real) with 0.
  destruct (Rltb 0 (gd_con s j)); [|cbn; lra]. cbn zeta. destruct (slack_of s j); cbn; lra.
Qed.

(** *** the derivative of constraint [j] of stage [s] along the step, from the meaning of the rows:
    rows below nb + ng are  lower - value - slack, the next nb + ng are  value - upper - slack, where
    value is a bounded variable or a general constraint *)
Definition value_step (s : gdata real) (j : nat) : R :=
  if (j <? gd_nb s)%nat then gd_step s (gd_idxb s j)
  else vsum (A := real) (gd_nx s + gd_nu s) (fun r => gd_DCt s r (j - gd_nb s)%nat * gd_step s r).
Definition true_step (s : gdata real) (j : nat) : R :=
  let m := (gd_nb s + gd_ng s)%nat in
  let sl k off := if (0 <=? gd_rev s k)%Z then gd_step s (gd_nx s + gd_nu s + Z.to_nat (gd_rev s k) + off)%nat else 0 in
  if (j <? m)%nat then - value_step s j - sl j 0%nat else value_step s (j - m)%nat - sl (j - m)%nat (gd_ns s).
(** the error of the computed gradient *)
Definition lower_error (s : gdata real) : R :=
  vsum (A := real) (gd_nb s + gd_ng s) (fun j => if Rltb 0 (gd_con s j) then 2 * gd_wlam s j * value_step s j else 0).

Lemma con_dir_value s j : (j < 2 * (gd_nb s + gd_ng s))%nat ->
  con_dir s j = value_step s (if (j <? gd_nb s + gd_ng s)%nat then j else j - (gd_nb s + gd_ng s))%nat.
Proof.
  intros Hj. unfold con_dir, value_step. cbn zeta.
  destruct (Nat.ltb_spec j (gd_nb s)); destruct (Nat.ltb_spec j (gd_nb s + gd_ng s)); try lia.
  - destruct (Nat.ltb_spec j (gd_nb s)); [reflexivity|lia].
  - destruct (Nat.ltb_spec j (gd_nb s)); [lia|reflexivity].
  - destruct (Nat.ltb_spec j (2 * gd_nb s + gd_ng s)); destruct (Nat.ltb_spec (j - (gd_nb s + gd_ng s)) (gd_nb s)); try lia.
    + f_equal. f_equal. lia.
    + unfold vdot. apply vsum_ext. intros k _. replace (j - 2 * gd_nb s - gd_ng s)%nat with (j - (gd_nb s + gd_ng s) - gd_nb s)%nat by lia. reflexivity.
Qed.
Lemma con_terms s : vsum (A := real) (2 * (gd_nb s + gd_ng s)) (con_term s) =
  vsum (A := real) (2 * (gd_nb s + gd_ng s)) (fun j => if Rltb 0 (gd_con s j) then gd_wlam s j * true_step s j else 0) + lower_error s.
Proof.
  set (m := (gd_nb s + gd_ng s)%nat). replace (2 * m)%nat with (m + m)%nat by lia. rewrite !vsum_split. unfold lower_error. fold m.
  assert (U : vsum (A := real) m (fun k => con_term s (m + k)) =
    vsum (A := real) m (fun k => if Rltb 0 (gd_con s (m + k)) then gd_wlam s (m + k)%nat * true_step s (m + k) else 0)).
  { apply vsum_ext. intros k Hk. unfold con_term. destruct (Rltb 0 (gd_con s (m + k))); [|reflexivity]. f_equal.
    rewrite con_dir_value by (fold m; lia). unfold true_step, slack_step, slack_of. fold m. cbn zeta.
    destruct (Nat.ltb_spec (m + k) m); [lia|]. destruct (0 <=? gd_rev s (m + k - m))%Z; reflexivity. }
  rewrite U.
  assert (L : vsum (A := real) m (con_term s) =
    vsum (A := real) m (fun j => if Rltb 0 (gd_con s j) then gd_wlam s j * true_step s j else 0) +
    vsum (A := real) m (fun j => if Rltb 0 (gd_con s j) then 2 * gd_wlam s j * value_step s j else 0)).
  { rewrite <- vsum_plus. apply vsum_ext. intros k Hk. unfold con_term. destruct (Rltb 0 (gd_con s k)); [|lra].
    rewrite con_dir_value by (fold m; lia). unfold true_step, slack_step, slack_of. fold m. cbn zeta.
    destruct (Nat.ltb_spec k m); [|lia]. destruct (0 <=? gd_rev s k)%Z; lra. }
  rewrite L. lra.
Qed.

Section D.
Variable l : list (gdata real).
Variable M : nat.
Hypothesis Len : length l = S M.
Notation st i := (nth i l d0).
(** along the step: stage costs, shooting gaps and constraint rows as functions of the step length *)
Variable c : nat -> R -> R.
Variable g : nat -> nat -> R -> R.
Variable nrow : nat -> nat.
Variable h : nat -> nat -> R -> R.
Hypothesis Hc : forall i, (i <= M)%nat -> is_derive (c i) 0 (vsum (A := real) (nvar (st i)) (fun k => gd_cost (st i) k * gd_step (st i) k)).
Hypothesis Hg : forall i j, (i < M)%nat -> (j < gd_nx (st (S i)))%nat ->
  g i j 0 = gd_gap (st i) j /\ g i j 0 <> 0 /\ 0 <= gd_wpi (st i) j /\
  is_derive (g i j) 0 (vsum (A := real) (gd_nx (st i) + gd_nu (st i)) (fun k => gd_BAbt (st i) k j * gd_step (st i) k)
                       - gd_step (st (S i)) (gd_nu (st (S i)) + j)%nat).
Hypothesis Hrow : forall i, (i <= M)%nat -> (2 * (gd_nb (st i) + gd_ng (st i)) <= nrow i)%nat.
Hypothesis Hh : forall i j, (i <= M)%nat -> (j < nrow i)%nat -> h i j 0 <> 0 /\ 0 <= gd_wlam (st i) j /\
  ((j < 2 * (gd_nb (st i) + gd_ng (st i)))%nat -> h i j 0 = gd_con (st i) j /\ is_derive (h i j) 0 (true_step (st i) j)) /\
  ((2 * (gd_nb (st i) + gd_ng (st i)) <= j)%nat -> h i j 0 < 0 /\ exists d, is_derive (h i j) 0 d).
Definition merit_line (a : R) : R :=
  merit_at M (fun i => c i a) (fun i => gd_nx (st (S i))) (fun i j => g i j a) (fun i => gd_wpi (st i)) nrow (fun i j => h i j a) (fun i => gd_wlam (st i)).

Lemma merit_line_derive : is_derive merit_line 0
  (merit_gradient l - vsum (A := real) (S M) (fun i => lower_error (st i))).
Proof.
  apply is_derive_ext with (f := fun a => vsum (A := real) (S M) (fun i => c i a)
    + vsum (A := real) M (fun i => vsum (A := real) (gd_nx (st (S i))) (fun j => Rabs (gd_wpi (st i) j) * Rabs (g i j a)))
    + vsum (A := real) (S M) (fun i => vsum (A := real) (nrow i) (fun j => Rabs (gd_wlam (st i) j) * (if Rltb 0 (h i j a) then h i j a else 0)))).
  { intros a. unfold merit_line. rewrite merit_at_sums. reflexivity. }
  assert (E : merit_gradient l - vsum (A := real) (S M) (fun i => lower_error (st i)) =
     vsum (A := real) (S M) (fun i => vsum (A := real) (nvar (st i)) (fun k => gd_cost (st i) k * gd_step (st i) k))
     + vsum (A := real) M (fun i => gap_term (st i) (st (S i)))
     + vsum (A := real) (S M) (fun i => vsum (A := real) (2 * (gd_nb (st i) + gd_ng (st i))) (fun j => if Rltb 0 (gd_con (st i) j) then gd_wlam (st i) j * true_step (st i) j else 0))).
  { unfold merit_gradient, grad_cost, grad_ineq. rewrite grad_dyn_sum, Len. cbn [Nat.sub]. rewrite Nat.sub_0_r.
    rewrite (fold_nth _ d0 (fun s => vdot (nvar s) (gd_cost s) (gd_step s))) by reflexivity.
    rewrite (fold_nth (fun (a : R) s => grad_con s a) d0 (fun s => vsum (A := real) (2 * (gd_nb s + gd_ng s)) (con_term s))) by (intros a s; apply grad_con_sum).
    rewrite Len. change (@nadd real) with Rplus. change (@n0 real) with 0.
    rewrite (vsum_ext (S M) (fun i => vsum (A := real) (2 * (gd_nb (st i) + gd_ng (st i))) (con_term (st i))) _ (fun i _ => con_terms (st i))).
    rewrite vsum_plus. unfold vdot. change (@nmul real) with Rmult. lra. }
  rewrite E. apply (is_derive_plus (V := R_NormedModule)); [apply (is_derive_plus (V := R_NormedModule))|].
  - apply vsum_derive. intros i Hi. apply Hc. lia.
  - apply (vsum_derive M (fun i a => vsum (A := real) (gd_nx (st (S i))) (fun j => Rabs (gd_wpi (st i) j) * Rabs (g i j a)))). intros i Hi.
    unfold gap_term. apply (vsum_derive _ (fun j a => Rabs (gd_wpi (st i) j) * Rabs (g i j a))). intros j Hj.
    destruct (Hg i j Hi Hj) as (E1 & E2 & E3 & E4). rewrite Rabs_pos_eq by exact E3. rewrite <- E1.
    apply (is_derive_scal (fun y => Rabs (g i j y))). apply (abs_derive (g i j) 0 _ E4 E2).
  - apply (vsum_derive (S M) (fun i a => vsum (A := real) (nrow i) (fun j => Rabs (gd_wlam (st i) j) * (if Rltb 0 (h i j a) then h i j a else 0)))). intros i Hi.
    assert (Hi' : (i <= M)%nat) by lia. specialize (Hrow i Hi').
    replace (nrow i) with (2 * (gd_nb (st i) + gd_ng (st i)) + (nrow i - 2 * (gd_nb (st i) + gd_ng (st i))))%nat by lia.
    apply is_derive_ext with (f := fun a =>
      vsum (A := real) (2 * (gd_nb (st i) + gd_ng (st i))) (fun j => Rabs (gd_wlam (st i) j) * (if Rltb 0 (h i j a) then h i j a else 0)) +
      vsum (A := real) (nrow i - 2 * (gd_nb (st i) + gd_ng (st i))) (fun k => Rabs (gd_wlam (st i) (2 * (gd_nb (st i) + gd_ng (st i)) + k)%nat)
        * (if Rltb 0 (h i (2 * (gd_nb (st i) + gd_ng (st i)) + k)%nat a) then h i (2 * (gd_nb (st i) + gd_ng (st i)) + k)%nat a else 0))).
    { intros a. rewrite vsum_split. reflexivity. }
    match goal with |- is_derive _ _ ?v => replace v with (v + vsum (A := real) (nrow i - 2 * (gd_nb (st i) + gd_ng (st i))) (fun _ => 0)) by (rewrite vsum_0; apply Rplus_0_r) end.
    apply (is_derive_plus (V := R_NormedModule)).
    + apply (vsum_derive _ (fun j a => Rabs (gd_wlam (st i) j) * (if Rltb 0 (h i j a) then h i j a else 0))). intros j Hj.
      assert (Hj2 : (j < nrow i)%nat) by lia. destruct (Hh i j Hi' Hj2) as (E1 & E2 & E3 & _). destruct (E3 Hj) as [E4 E5].
      rewrite Rabs_pos_eq by exact E2. rewrite <- E4.
      match goal with |- is_derive _ _ ?v => replace v with (gd_wlam (st i) j * (if Rltb 0 (h i j 0) then true_step (st i) j else 0)) by (destruct (Rltb 0 (h i j 0)); [reflexivity|apply Rmult_0_r]) end.
      apply (is_derive_scal (fun y => if Rltb 0 (h i j y) then h i j y else 0)). apply (pos_derive (h i j) 0 _ E5 E1).
    + apply (vsum_derive _ (fun k a => Rabs (gd_wlam (st i) (2 * (gd_nb (st i) + gd_ng (st i)) + k)%nat)
        * (if Rltb 0 (h i (2 * (gd_nb (st i) + gd_ng (st i)) + k)%nat a) then h i (2 * (gd_nb (st i) + gd_ng (st i)) + k)%nat a else 0)) (fun _ => 0)).
      intros k Hk. set (j := (2 * (gd_nb (st i) + gd_ng (st i)) + k)%nat). assert (Hj2 : (j < nrow i)%nat) by (unfold j; lia).
      destruct (Hh i j Hi' Hj2) as (E1 & E2 & _ & E3). destruct E3 as [E4 [d E5]]; [unfold j; lia|].
      apply derive_eq with (Rabs (gd_wlam (st i) j) * (if Rltb 0 (h i j 0) then d else 0)); [destruct (Rltb_spec 0 (h i j 0)); [lra|apply Rmult_0_r]|].
      apply (is_derive_scal (fun y => if Rltb 0 (h i j y) then h i j y else 0)). apply (pos_derive (h i j) 0 _ E5 E1).
Qed.
End D.

(** no violated lower constraint: the computed gradient is the derivative *)
Lemma no_lower_error (s : gdata real) : (forall j, (j < gd_nb s + gd_ng s)%nat -> gd_con s j <= 0) -> lower_error s = 0.
Proof. intros H. apply vsum_zero. intros j Hj. specialize (H j Hj). destruct (Rltb_spec 0 (gd_con s j)); lra. Qed.

(** a violated lower bound: one variable, bound 1 at the point 0, step -1 away from the bound *)
Definition bad_stage : gdata real := mkGd 1 0 1 0 0 (fun _ => 0) (fun _ => 0) (fun _ _ => 0)
  (fun j => match j with O => 1 | _ => -2 end) (fun _ => 0%nat) (fun _ _ => 0) (fun _ => (-1)%Z) (fun _ => 0) (fun _ => 1) (fun _ => -1).
(** lower row: 1 - (0 - a); upper row: (0 - a) - 2 *)
Definition bad_rows (j : nat) (a : R) : R := match j with O => 1 - (0 - a) | _ => (0 - a) - 2 end.
Lemma bad_gradient :
  is_derive (merit_line [bad_stage] 0 (fun _ _ => 0) (fun _ _ _ => 0) (fun _ => 2%nat) (fun _ => bad_rows)) 0 1 /\
  merit_gradient [bad_stage] = -1.
Proof.
  assert (G : merit_gradient [bad_stage] = -1).
  { unfold merit_gradient, grad_cost, grad_ineq, grad_con. cbn. unfold con_dir, slack_of. cbn.
    destruct (Rltb_spec 0 1); [|lra]. destruct (Rltb_spec 0 (-2)); [lra|]. lra. }
  split; [|exact G].
  replace 1 with (merit_gradient [bad_stage] - vsum (A := real) 1 (fun i => lower_error (nth i [bad_stage] d0))).
  2:{ rewrite G. unfold lower_error. cbn. destruct (Rltb_spec 0 1); [|lra]. unfold value_step. cbn. lra. }
  apply merit_line_derive; [reflexivity|..].
  - intros i Hi. replace i with 0%nat by lia. unfold vsum, nvar. cbn. replace (0 + 0 * -1) with 0 by lra. apply (is_derive_const (V := R_NormedModule) 0 0).
  - intros i j Hi. lia.
  - intros i Hi. replace i with 0%nat by lia. cbn. lia.
  - intros i j Hi Hj. replace i with 0%nat by lia. cbn [nth].
    assert (J : j = 0%nat \/ j = 1%nat) by lia. destruct J as [-> | ->].
    + split; [cbn; lra|]. split; [cbn; lra|]. split; [|cbn; lia]. intros _. split; [cbn; lra|].
      unfold bad_rows. apply is_derive_ext with (f := fun a => 1 + a); [intros; cbn; lra|].
      replace (true_step bad_stage 0) with (0 + 1) by (unfold true_step, value_step; cbn; lra).
      apply (is_derive_plus (V := R_NormedModule)); [apply (is_derive_const (V := R_NormedModule) 1 0)|apply (is_derive_id (K := R_AbsRing) 0)].
    + split; [cbn; lra|]. split; [cbn; lra|]. split; [|cbn; lia]. intros _. split; [cbn; lra|].
      unfold bad_rows. apply is_derive_ext with (f := fun a => - a + -2); [intros; cbn; lra|].
      replace (true_step bad_stage 1) with (- (1) + 0) by (unfold true_step, value_step; cbn; lra).
      apply (is_derive_plus (V := R_NormedModule)); [apply (is_derive_opp (V := R_NormedModule) (fun a => a) 0 1), (is_derive_id (K := R_AbsRing) 0)|apply (is_derive_const (V := R_NormedModule) (-2) 0)].
Qed.
