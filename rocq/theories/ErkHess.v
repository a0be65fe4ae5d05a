(** The Hessian sweep of the explicit integrator. *)
From Coq Require Import ZArith List Bool Lia Reals Lra Psatz.
From Coquelicot Require Import Coquelicot.
From Verif Require Import Arith Vec LinModel LinProofs RSum Poly CollModel ErkModel ErkProofs ErkSens ErkAdj.
Import ListNotations.
Open Scope R_scope.

(** offset of column j in the packed lower triangle, and the place of entry (i, j) *)
Fixpoint coff (n j : nat) : nat := match j with O => O | S j => (coff n j + (n - j))%nat end.
Definition pidx (n i j : nat) : nat := (coff n j + (i - j))%nat.
Lemma coff_eq n j : (j <= n)%nat -> (2 * coff n j + j * j = 2 * n * j + j)%nat.
Proof. induction j as [|j IH]; intros Hj; cbn [coff]; [lia|]. specialize (IH ltac:(lia)). nia. Qed.
Lemma coff_mono n j k : (j <= k)%nat -> (coff n j <= coff n k)%nat.
Proof. induction 1; cbn [coff]; lia. Qed.
Lemma coff_n n : coff n n = ((n + 1) * n / 2)%nat.
Proof. pose proof (coff_eq n n (le_n n)) as E. apply Nat.div_unique with 0%nat; nia. Qed.
Lemma pidx_lt n i j : (j <= i < n)%nat -> (pidx n i j < (n + 1) * n / 2)%nat.
Proof. intros H. rewrite <- coff_n. unfold pidx. pose proof (coff_mono n (S j) n ltac:(lia)) as C. cbn [coff] in C. lia. Qed.

Lemma pos_inj (n i j i' j' : nat) : (i < n)%nat -> (i' < n)%nat -> (i + n * j = i' + n * j')%nat -> i = i' /\ j = j'.
Proof. intros. assert (j = j') by nia. subst. lia. Qed.
Section Pack.
Variable n : nat.
Variable packed H0 : vecR.
Let body (j t : nat) (st : vecR * nat) := (vset (A := real) (vset (A := real) (fst st) (j + t + n * j)%nat (packed (snd st))) (j + n * (j + t))%nat (packed (snd st)), (snd st + 1)%nat).
Let inv (jj m : nat) (st : vecR * nat) := snd st = (coff n jj + m)%nat /\
  forall i j, (j <= i < n)%nat -> (j < jj \/ (j = jj /\ i < jj + m))%nat -> fst st (i + n * j)%nat = packed (pidx n i j) /\ fst st (j + n * i)%nat = packed (pidx n i j).
Lemma pack_body jj m st : (jj + m < n)%nat -> inv jj m st -> inv jj (S m) (body jj m st).
Proof.
  intros Hm (C & V). unfold body. split; cbn [fst snd]; [lia|]. intros i j Hij Hd.
  assert (D : (i = jj + m /\ j = jj)%nat \/ ~ (i = jj + m /\ j = jj)%nat /\ (j < jj \/ (j = jj /\ i < jj + m))%nat) by lia.
  assert (Eq : (i = jj + m /\ j = jj)%nat -> pidx n i j = snd st) by (intros [-> ->]; unfold pidx; rewrite C; lia).
  unfold vset. split.
  - destruct (Nat.eqb_spec (i + n * j) (jj + n * (jj + m))) as [E|E].
    + apply pos_inj in E; [|lia|lia]. rewrite Eq by lia. reflexivity.
    + destruct (Nat.eqb_spec (i + n * j) (jj + m + n * jj)) as [E2|E2]; [apply pos_inj in E2; [|lia|lia]; rewrite Eq by lia; reflexivity|].
      destruct D as [[-> ->]|[_ D]]; [lia|]. apply (V i j Hij D).
  - destruct (Nat.eqb_spec (j + n * i) (jj + n * (jj + m))) as [E|E].
    + apply pos_inj in E; [|lia|lia]. rewrite Eq by lia. reflexivity.
    + destruct (Nat.eqb_spec (j + n * i) (jj + m + n * jj)) as [E2|E2]; [apply pos_inj in E2; [|lia|lia]; rewrite Eq by lia; reflexivity|].
      destruct D as [[-> ->]|[_ D]]; [lia|]. apply (V i j Hij D).
Qed.
Lemma pack_col jj st : (jj <= n)%nat -> inv jj 0 st -> forall m, (jj + m <= n)%nat -> inv jj m (loop m (body jj) st).
Proof. intros Hj I. induction m as [|m IH]; intros Hm; cbn [loop]; [exact I|]. apply pack_body; [lia|]. apply IH. lia. Qed.
Lemma hess_out_spec i j : (j <= i < n)%nat -> hess_out (A := real) n packed H0 (i + n * j)%nat = packed (pidx n i j) /\ hess_out (A := real) n packed H0 (j + n * i)%nat = packed (pidx n i j).
Proof.
  intros Hij. unfold hess_out. assert (G : forall k, (k <= n)%nat -> inv k 0 (loop k (fun j st => loop (n - j) (body j) st) (H0, 0%nat))).
  { induction k as [|k IH]; intros Hk; cbn [loop].
    - split; [reflexivity|]. intros; lia.
    - destruct (pack_col k _ ltac:(lia) (IH ltac:(lia)) (n - k)%nat ltac:(lia)) as (C & V). split; [cbn [coff]; lia|]. intros i' j' Hij' Hd. apply V; lia. }
  apply (proj2 (G n (le_n n)) i j Hij). lia.
Qed.
End Pack.

(** second order part of the promise: one tensor [H p x u r a b], indices over (x, u) *)
Notation hes := (vecR -> vecR -> vecR -> nat -> nat -> nat -> R).
Definition cat (nx : nat) (v w : vecR) : vecR := fun k => if (k <? nx)%nat then v k else w (k - nx)%nat.
Definition Jxu (nx : nat) (Jx Ju : jac) p x u r k : R := if (k <? nx)%nat then Jx p x u r k else Ju p x u r (k - nx)%nat.
(** column i of the seed matrix [Sx Su; 0 I] *)
Definition seedcol (nx : nat) (Sx Su : vecR) (i : nat) : vecR := fun k =>
  if (k <? nx)%nat then (if (i <? nx)%nat then Sx (nx * i + k)%nat else Su (nx * (i - nx) + k)%nat) else if (k =? i)%nat then 1 else 0.
Record consistent2 (M : erk_model real) (nx nu np : nat) (Jx Ju : jac) (H : hes) : Prop := mkConsistent2 {
  c2_loc : forall p p' x x' u u', agree np p p' -> agree nx x x' -> agree nu u u' -> forall r k l, (r < nx)%nat -> (k < nx + nu)%nat -> (l < nx + nu)%nat -> H p x u r k l = H p' x' u' r k l;
  c2_sym : forall p x u r k l, (r < nx)%nat -> (k < nx + nu)%nat -> (l < nx + nu)%nat -> H p x u r k l = H p x u r l k;
  c2_diff : forall (P X U : R -> vecR) (dX dU : vecR),
    (forall k, (k < np)%nat -> is_derive (fun t => P t k) 0 0) -> (forall k, (k < nx)%nat -> is_derive (fun t => X t k) 0 (dX k)) ->
    (forall k, (k < nu)%nat -> is_derive (fun t => U t k) 0 (dU k)) -> forall r k, (r < nx)%nat -> (k < nx + nu)%nat ->
    is_derive (fun t => Jxu nx Jx Ju (P t) (X t) (U t) r k) 0 (sum (nx + nu) (fun l => H (P 0) (X 0) (U 0) r k l * cat nx dX dU l));
  c2_hes : forall p x Sx Su lam u g h, expl_ode_hes M p x Sx Su lam u = (g, h) -> forall i j, (j <= i < nx + nu)%nat ->
    h (pidx (nx + nu) i j) = sum nx (fun r => lam r * sum (nx + nu) (fun k => sum (nx + nu) (fun l => H p x u r k l * seedcol nx Sx Su i k * seedcol nx Sx Su j l))) }.

Section Hess.
Variable M : erk_model real.
Variable nx nu np : nat.
Variable Jx Ju Jp : jac.
Variable H : hes.
Hypothesis HM : consistent M nx nu np Jx Ju Jp.
Hypothesis HM2 : consistent2 M nx nu np Jx Ju H.
Variable o : erk_opts real.
Hypothesis Ox : e_nx o = nx.
Hypothesis Ou : e_nu o = nu.
Hypothesis Op : e_np o = np.
Hypothesis Fwd : e_fwd o = true.
Variable inp : erk_in real.
Let N := e_num_steps o.
Let p := i_p inp.
Let u := i_u inp.
Let z n := erk_traj M o inp n.
Let K n := erk_K M o inp (z n) (i_stale inp n).
Let a n s := stage_arg o inp s (z n) (K n).
Let n2 := (nx + nu)%nat.
(** extended column *)
Definition W n s q : vecR := fun k => if (k <? nx)%nat then col nx (a n s) q k else if (k =? q)%nat then 1 else 0.
Variable q c : nat.
Hypothesis Hq : (q < n2)%nat.
Hypothesis Hc : (c < n2)%nat.
Definition FH n s : vecR := fun i => sum n2 (fun k => sum n2 (fun l => H p (a n s) u i k l * W n s c l) * W n s q k).

Variable f fp ad hs : bool.
Let o' := with_sens o f fp ad hs.
Hypothesis Fwd' : e_fwd o' = true.
Variable inpt : R -> erk_in real.
Hypothesis IT : forall t, i_T (inpt t) = i_T inp.
Hypothesis Ip0 : agree np (i_p (inpt 0)) p.
Hypothesis Iu0 : agree nu (i_u (inpt 0)) u.
Hypothesis Ix0 : agree nx (i_x (inpt 0)) (i_x inp).
Hypothesis Ipd : forall k, (k < np)%nat -> is_derive (fun t => i_p (inpt t) k) 0 0.
Hypothesis Iud : forall k, (k < nu)%nat -> is_derive (fun t => i_u (inpt t) k) 0 (if (nx + k =? c)%nat then 1 else 0).
Hypothesis Ixd : forall k, (k < nx)%nat -> is_derive (fun t => i_x (inpt t) k) 0 (i_S_forw inp (nx * c + k)%nat).
Hypothesis ISf : forall t k, (k < nx * n2)%nat -> i_S_forw (inpt t) k = i_S_forw inp k.
Let zt t n := erk_traj M o' (inpt t) n.
Let Kt t n := erk_K M o' (inpt t) (zt t n) (i_stale (inpt t) n).
Let at_ t n s := stage_arg o' (inpt t) s (zt t n) (Kt t n).

Lemma Hq' : (q < nx + nu + nfp o)%nat. Proof. unfold n2 in *. lia. Qed.
Lemma Hq'' : (q < nx + nu + nfp o')%nat. Proof. unfold n2 in *. lia. Qed.
Lemma Hc' : (c < nx + nu + nfp o)%nat. Proof. unfold n2 in *. lia. Qed.
Lemma Ud k : (k < nu)%nat -> is_derive (fun t => i_u (inpt t) k) 0 (dU nx nu c k).
Proof.
  intros Hk. replace (dU nx nu c k) with (if (nx + k =? c)%nat then 1 else 0); [apply Iud, Hk|]. unfold dU.
  destruct (Nat.eqb_spec (nx + k) c) as [E|E].
  - destruct (Nat.leb_spec nx c); [|lia]. destruct (Nat.ltb_spec c (nx + nu)); [|lia]. destruct (Nat.eqb_spec k (c - nx)); [reflexivity|lia].
  - destruct (Nat.leb_spec nx c); [|reflexivity]. cbn [andb]. destruct (c <? nx + nu)%nat; [|reflexivity]. cbn [andb]. destruct (Nat.eqb_spec k (c - nx)); [lia|reflexivity].
Qed.
Lemma Pd k : (k < np)%nat -> is_derive (fun t => i_p (inpt t) k) 0 (dP nx nu c k).
Proof. intros Hk. replace (dP nx nu c k) with 0; [apply Ipd, Hk|]. unfold dP. destruct (Nat.leb_spec (nx + nu) c); [unfold n2 in *; lia|reflexivity]. Qed.
Lemma Xd k : (k < nx)%nat -> is_derive (fun t => i_x (inpt t) k) 0 (if (c <? nx + nu)%nat then i_S_forw inp (nx * c + k)%nat else 0).
Proof. intros Hk. destruct (Nat.ltb_spec c (nx + nu)); [apply Ixd, Hk|unfold n2 in *; lia]. Qed.
Lemma first n : agree nx (zt 0 n) (z n) /\ forall i, (i < nx)%nat -> is_derive (fun t => zt t n i) 0 (col nx (z n) c i).
Proof. apply (traj_tangent M nx nu np Jx Ju Jp HM o Ox Ou Op inp Fwd c Hc' f fp ad hs inpt IT Ip0 Iu0 Ix0 Pd Ud Xd n). Qed.
Lemma first_stage n s : (s < e_ns o)%nat -> agree nx (at_ 0 n s) (a n s) /\ forall i, (i < nx)%nat -> is_derive (fun t => at_ t n s i) 0 (col nx (a n s) c i).
Proof.
  intros Hs. destruct (first n) as [F0 Fd].
  apply (stage_tangent M nx nu np Jx Ju Jp HM o Ox Ou Op inp Fwd c Hc' f fp ad hs inpt IT Ip0 Iu0 Pd Ud Xd (fun t => zt t n) (z n) (fun t => i_stale (inpt t) n) (i_stale inp n) F0 Fd s Hs).
Qed.
Lemma arg_sumH t n s i : at_ t n s i = zt t n i + sum s (fun j => e_step o inp * e_A o j s * Kt t n j i).
Proof. unfold at_. rewrite stage_arg_sum. unfold e_step. rewrite IT. reflexivity. Qed.
(** a row of the column system, all indices of (x, u) at once *)
Lemma sum_xu (X Y : vecR) : sum n2 (fun k => if (k <? nx)%nat then X k else Y (k - nx)%nat) = sum nx X + sum nu Y.
Proof.
  unfold n2. rewrite sum_split. f_equal; apply sum_ext; intros k Hk.
  - destruct (Nat.ltb_spec k nx); [reflexivity|lia].
  - destruct (Nat.ltb_spec (nx + k) nx); [lia|]. f_equal. lia.
Qed.
Lemma D_xu pp x uu i : D nx nu Ju Jp pp x uu q i = sum nu (fun k => Ju pp x uu i k * (if (nx + k =? q)%nat then 1 else 0)).
Proof.
  unfold D. destruct (Nat.ltb_spec q nx).
  - symmetry. apply sum_zero. intros k _. destruct (Nat.eqb_spec (nx + k) q); [lia|lra].
  - destruct (Nat.ltb_spec q (nx + nu)); [|unfold n2 in *; lia]. symmetry. rewrite (sum_one nu (q - nx)); [|lia|].
    + destruct (Nat.eqb_spec (nx + (q - nx)) q); [lra|lia].
    + intros k _ Ne. destruct (Nat.eqb_spec (nx + k) q); [lia|lra].
Qed.
Definition Wt t n s : vecR := fun k => if (k <? nx)%nat then col nx (at_ t n s) q k else if (k =? q)%nat then 1 else 0.
Lemma rhs_xu pp x uu i (v : vecR) : sum nx (fun k => Jx pp x uu i k * v k) + D nx nu Ju Jp pp x uu q i = sum n2 (fun k => Jxu nx Jx Ju pp x uu i k * (if (k <? nx)%nat then v k else if (k =? q)%nat then 1 else 0)).
Proof.
  rewrite D_xu, <- sum_xu. apply sum_ext. intros k _. unfold Jxu. destruct (Nat.ltb_spec k nx); [reflexivity|]. do 2 f_equal. replace (nx + (k - nx))%nat with k by lia. reflexivity.
Qed.
Lemma Kt_col t n s i : (s < e_ns o)%nat -> (i < nx)%nat -> col nx (Kt t n s) q i = sum n2 (fun k => Jxu nx Jx Ju (i_p (inpt t)) (at_ t n s) (i_u (inpt t)) i k * Wt t n s k).
Proof.
  intros Hs Hi. unfold Kt. rewrite erk_K_row by exact Hs. rewrite (rhs_col M nx nu np Jx Ju Jp HM o' Ox Ou Op (inpt t) Fwd') by (exact Hq'' || exact Hi). apply rhs_xu.
Qed.
Lemma K_col n s i : (s < e_ns o)%nat -> (i < nx)%nat -> col nx (K n s) q i = sum n2 (fun k => Jxu nx Jx Ju p (a n s) u i k * W n s q k).
Proof.
  intros Hs Hi. unfold K. rewrite erk_K_row by exact Hs. rewrite (rhs_col M nx nu np Jx Ju Jp HM o Ox Ou Op inp Fwd) by (exact Hq' || exact Hi). apply rhs_xu.
Qed.
Lemma derive_mult (g k : R -> R) (dg dk : R) : is_derive g 0 dg -> is_derive k 0 dk -> is_derive (fun t => g t * k t) 0 (dg * k 0 + g 0 * dk).
Proof. intros A B. apply (is_derive_mult g k 0 dg dk A B). intros; apply Rmult_comm. Qed.

Lemma second_stage n (V : vecR) : agree nx (col nx (zt 0 n) q) (col nx (z n) q) -> (forall i, (i < nx)%nat -> is_derive (fun t => col nx (zt t n) q i) 0 (V i)) ->
  forall s, (s < e_ns o)%nat -> agree nx (col nx (at_ 0 n s) q) (col nx (a n s) q) /\
  forall i, (i < nx)%nat -> col nx (Kt 0 n s) q i = col nx (K n s) q i /\
  is_derive (fun t => col nx (Kt t n s) q i) 0 (sum nx (fun k => Jx p (a n s) u i k * (V k + sum s (fun j => e_step o inp * e_A o j s * Derive (fun t => col nx (Kt t n j) q k) 0))) + FH n s i).
Proof.
  intros Z0 Zd. induction s as [s IH] using lt_wf_ind. intros Hs. destruct (first_stage n s Hs) as [F0 Fd].
  assert (A0 : agree nx (col nx (at_ 0 n s) q) (col nx (a n s) q)).
  { intros i Hi. unfold col. rewrite arg_sumH. unfold a. rewrite stage_arg_sum. f_equal; [apply (Z0 i Hi)|]. apply sum_ext. intros j Hj. destruct (IH j Hj ltac:(lia)) as (_ & E). pose proof (proj1 (E i Hi)) as E1. unfold col in E1. rewrite E1. reflexivity. }
  assert (Ad : forall i, (i < nx)%nat -> is_derive (fun t => col nx (at_ t n s) q i) 0 (V i + sum s (fun j => e_step o inp * e_A o j s * Derive (fun t => col nx (Kt t n j) q i) 0))).
  { intros i Hi. apply is_derive_ext with (fun t => col nx (zt t n) q i + sum s (fun j => e_step o inp * e_A o j s * col nx (Kt t n j) q i)); [intros t; symmetry; apply arg_sumH|].
    apply derive_plus; [apply Zd, Hi|]. apply (derive_sum s (fun j t => e_step o inp * e_A o j s * col nx (Kt t n j) q i) 0 (fun j => e_step o inp * e_A o j s * Derive (fun t => col nx (Kt t n j) q i) 0)).
    intros j Hj. apply derive_scal, Derive_correct. destruct (IH j Hj ltac:(lia)) as (_ & E). eexists. apply (E i Hi). }
  split; [exact A0|]. intros i Hi.
  pose proof (c_loc _ _ _ _ _ _ _ HM (i_p (inpt 0)) p (at_ 0 n s) (a n s) (i_u (inpt 0)) u Ip0 F0 Iu0 i Hi) as (_ & L1 & L2 & _).
  assert (LJ : forall k, (k < n2)%nat -> Jxu nx Jx Ju (i_p (inpt 0)) (at_ 0 n s) (i_u (inpt 0)) i k = Jxu nx Jx Ju p (a n s) u i k).
  { intros k Hk. unfold Jxu. destruct (Nat.ltb_spec k nx); [apply L1; assumption|]. apply L2. unfold n2 in Hk. lia. }
  assert (LW : forall k, (k < n2)%nat -> Wt 0 n s k = W n s q k).
  { intros k Hk. unfold Wt, W. destruct (Nat.ltb_spec k nx) as [L|L]; [apply (A0 k L)|reflexivity]. }
  split.
  { rewrite Kt_col, K_col by assumption. apply sum_ext. intros k Hk. rewrite LJ, LW by exact Hk. reflexivity. }
  apply is_derive_ext with (fun t => sum n2 (fun k => Jxu nx Jx Ju (i_p (inpt t)) (at_ t n s) (i_u (inpt t)) i k * Wt t n s k)); [intros t; symmetry; apply Kt_col; assumption|].
  set (dW := fun k => if (k <? nx)%nat then V k + sum s (fun j => e_step o inp * e_A o j s * Derive (fun t => col nx (Kt t n j) q k) 0) else 0).
  assert (DW : forall k, (k < n2)%nat -> is_derive (fun t => Wt t n s k) 0 (dW k)).
  { intros k Hk. unfold Wt, dW. destruct (Nat.ltb_spec k nx) as [L|L]; [apply Ad, L|]. apply (is_derive_const (V := R_NormedModule)). }
  assert (DJ : forall k, (k < n2)%nat -> is_derive (fun t => Jxu nx Jx Ju (i_p (inpt t)) (at_ t n s) (i_u (inpt t)) i k) 0 (sum n2 (fun l => H p (a n s) u i k l * W n s c l))).
  { intros k Hk. pose proof (c2_diff _ _ _ _ _ _ _ HM2 (fun t => i_p (inpt t)) (fun t => at_ t n s) (fun t => i_u (inpt t)) _ _ Ipd Fd Iud i k Hi Hk) as Dv. cbv beta in Dv. fold n2 in Dv.
    rewrite (sum_ext n2 _ (fun l => H p (a n s) u i k l * W n s c l)) in Dv; [exact Dv|]. intros l Hl. f_equal.
    - apply (c2_loc _ _ _ _ _ _ _ HM2); assumption.
    - unfold cat, W. destruct (Nat.ltb_spec l nx); [reflexivity|]. replace (nx + (l - nx))%nat with l by lia. reflexivity. }
  pose proof (derive_sum n2 (fun k t => Jxu nx Jx Ju (i_p (inpt t)) (at_ t n s) (i_u (inpt t)) i k * Wt t n s k) 0 _ (fun k Hk => derive_mult _ _ _ _ (DJ k Hk) (DW k Hk))) as Dv. cbv beta in Dv.
  rewrite sum_plus in Dv. rewrite Rplus_comm in Dv. replace (sum nx _ + FH n s i) with (sum n2 (fun k => Jxu nx Jx Ju (i_p (inpt 0)) (at_ 0 n s) (i_u (inpt 0)) i k * dW k) + sum n2 (fun k => sum n2 (fun l => H p (a n s) u i k l * W n s c l) * Wt 0 n s k)); [exact Dv|].
  f_equal.
  - unfold n2. rewrite sum_split. rewrite (sum_zero nu).
    2:{ intros k Hk. unfold dW. destruct (Nat.ltb_spec (nx + k) nx); [lia|lra]. }
    rewrite Rplus_0_r. apply sum_ext. intros k Hk. rewrite LJ by (unfold n2; lia). unfold Jxu, dW. destruct (Nat.ltb_spec k nx); [reflexivity|lia].
  - unfold FH. apply sum_ext. intros k Hk. rewrite LW by exact Hk. reflexivity.
Qed.
Lemma second_step n (V : vecR) : agree nx (col nx (zt 0 n) q) (col nx (z n) q) -> (forall i, (i < nx)%nat -> is_derive (fun t => col nx (zt t n) q i) 0 (V i)) ->
  agree nx (col nx (zt 0 (S n)) q) (col nx (z (S n)) q) /\ exists V', tangent M nx Jx o inp n V V' (FH n) /\ forall i, (i < nx)%nat -> is_derive (fun t => col nx (zt t (S n)) q i) 0 (V' i).
Proof.
  intros Z0 Zd. pose proof (second_stage n V Z0 Zd) as CS.
  assert (Et : forall t i, col nx (zt t (S n)) q i = col nx (zt t n) q i + sum (e_ns o) (fun s => e_step o inp * e_b o s * col nx (Kt t n s) q i)).
  { intros t i. unfold col, zt. cbn [erk_traj]. rewrite erk_step_sum. unfold e_step. rewrite IT. reflexivity. }
  split.
  - intros i Hi. rewrite Et. unfold col at 3. unfold z. cbn [erk_traj]. rewrite erk_step_sum. f_equal; [apply (Z0 i Hi)|]. apply sum_ext. intros s Hs. destruct (CS s Hs) as (_ & E). rewrite (proj1 (E i Hi)). reflexivity.
  - exists (fun i => V i + sum (e_ns o) (fun s => e_step o inp * e_b o s * Derive (fun t => col nx (Kt t n s) q i) 0)). split.
    + exists (fun s i => Derive (fun t => col nx (Kt t n s) q i) 0), (fun s i => V i + sum s (fun j => e_step o inp * e_A o j s * Derive (fun t => col nx (Kt t n j) q i) 0)). split; [reflexivity|split; [|reflexivity]].
      intros s i Hs Hi. apply is_derive_unique. apply (CS s Hs). exact Hi.
    + intros i Hi. apply is_derive_ext with (fun t => col nx (zt t n) q i + sum (e_ns o) (fun s => e_step o inp * e_b o s * col nx (Kt t n s) q i)); [intros t; symmetry; apply Et|].
      apply derive_plus; [apply Zd, Hi|]. apply (derive_sum (e_ns o) (fun s t => e_step o inp * e_b o s * col nx (Kt t n s) q i) 0 (fun s => e_step o inp * e_b o s * Derive (fun t => col nx (Kt t n s) q i) 0)).
      intros s Hs. apply derive_scal, Derive_correct. destruct (CS s Hs) as (_ & E). eexists. apply (E i Hi).
Qed.
Lemma init_colt t i : (i < nx)%nat -> col nx (zt t 0) q i = i_S_forw inp (nx * q + i)%nat.
Proof.
  intros Hi. unfold zt. cbn [erk_traj]. rewrite (init_col nx nu np o' Ox Ou Op (inpt t) Fwd') by (exact Hq'' || exact Hi). destruct (Nat.ltb_spec q (nx + nu)); [|unfold n2 in *; lia]. apply ISf. unfold n2 in *. nia.
Qed.
Lemma second_traj n : agree nx (col nx (zt 0 n) q) (col nx (z n) q) /\ (forall i, (i < nx)%nat -> ex_derive (fun t => col nx (zt t n) q i) 0) /\
  forall m, (m < n)%nat -> tangent M nx Jx o inp m (fun i => Derive (fun t => col nx (zt t m) q i) 0) (fun i => Derive (fun t => col nx (zt t (S m)) q i) 0) (FH m).
Proof.
  induction n as [|n (IH0 & IHd & IHt)].
  - split; [|split; [|intros; lia]].
    + intros i Hi. rewrite init_colt by exact Hi. unfold z. cbn [erk_traj]. rewrite (init_col nx nu np o Ox Ou Op inp Fwd) by (exact Hq' || exact Hi). destruct (Nat.ltb_spec q (nx + nu)); [reflexivity|unfold n2 in *; lia].
    + intros i Hi. exists 0. apply is_derive_ext with (fun t : R => i_S_forw inp (nx * q + i)%nat); [intros t; symmetry; apply init_colt, Hi|]. apply (is_derive_const (V := R_NormedModule)).
  - destruct (second_step n (fun i => Derive (fun t => col nx (zt t n) q i) 0) IH0) as (A0 & v' & Tg & Dv).
    { intros i Hi. apply Derive_correct, IHd, Hi. }
    split; [exact A0|]. split; [intros i Hi; eexists; apply Dv, Hi|]. intros m Hm. destruct (Nat.eq_dec m n) as [->|Ne]; [|apply IHt; lia].
    destruct Tg as (kp & w & T1 & T2 & T3). exists kp, w. split; [exact T1|]. split; [exact T2|]. intros i Hi. rewrite <- T3 by exact Hi. apply is_derive_unique, Dv, Hi.
Qed.
(** the accumulated packed entries *)
Hypothesis Hes : e_sens_hess o = true.
Lemma AG_hess n s i j : (s < e_ns o)%nat -> (j <= i < n2)%nat -> AG M o inp n s (n2 + pidx n2 i j)%nat =
  sum nx (fun r => AL M o inp n s r * sum n2 (fun k => sum n2 (fun l => H p (a n s) u r k l * W n s i k * W n s j l))).
Proof.
  intros Hs Hij. assert (E : AG M o inp n s = adj_rhs M o inp (a n s) (AL M o inp n s) (i_stale_adj inp n s)) by (unfold AG; apply adj_G_row, Hs). rewrite E. unfold adj_rhs. rewrite Ox, Ou, Hes.
  destruct (expl_ode_hes M (i_p inp) (a n s) (view nx (a n s)) (view (off_Su o) (a n s)) (AL M o inp n s) (i_u inp)) as [g h] eqn:EH. fold n2.
  unfold inb. pose proof (pidx_lt n2 i j Hij) as PL. destruct (Nat.leb_spec n2 (n2 + pidx n2 i j)); [|lia]. destruct (Nat.ltb_spec (n2 + pidx n2 i j) (n2 + (n2 + 1) * n2 / 2)); [|lia]. cbn [andb].
  replace (n2 + pidx n2 i j - n2)%nat with (pidx n2 i j) by lia. unfold n2 in Hij |- *. rewrite (c2_hes _ _ _ _ _ _ _ HM2 _ _ _ _ _ _ _ _ EH i j Hij). fold n2.
  assert (SW : forall b k, (b < n2)%nat -> seedcol nx (view nx (a n s)) (view (off_Su o) (a n s)) b k = W n s b k).
  { intros b k Hb. unfold seedcol, W, col, view, off_Su. rewrite Ox. destruct (Nat.ltb_spec k nx); [|reflexivity]. destruct (Nat.ltb_spec b nx); f_equal; nia. }
  apply sum_ext. intros r Hr. f_equal. apply sum_ext. intros k Hk. apply sum_ext. intros l Hl. rewrite !SW by (fold n2 in Hij; lia). reflexivity.
Qed.
Theorem hess_derivative : is_derive (fun t => sum nx (fun i => i_S_adj inp i * col nx (zt t N) q i)) 0 (adj_traj M o inp N (n2 + (if (c <=? q)%nat then pidx n2 q c else pidx n2 c q))%nat).
Proof.
  destruct (second_traj N) as (_ & ED & Tg).
  pose proof (adj_run M nx nu np Jx Ju Jp HM o Ox Ou Op inp (fun n i => Derive (fun t => col nx (zt t n) q i) 0) FH Tg) as E. cbv beta in E. fold N in E.
  rewrite (sum_zero nx (fun i => adj_traj M o inp N i * Derive (fun t => col nx (zt t 0) q i) 0)) in E.
  2:{ intros i Hi. replace (Derive (fun t => col nx (zt t 0) q i) 0) with 0; [lra|]. symmetry. apply is_derive_unique. apply is_derive_ext with (fun t : R => i_S_forw inp (nx * q + i)%nat); [intros t; symmetry; apply init_colt, Hi|]. apply (is_derive_const (V := R_NormedModule)). }
  rewrite Rplus_0_l in E.
  assert (ES : sum nx (fun i => i_S_adj inp i * Derive (fun t => col nx (zt t N) q i) 0) = adj_traj M o inp N (n2 + (if (c <=? q)%nat then pidx n2 q c else pidx n2 c q))%nat).
  { etransitivity; [exact E|]. unfold N. rewrite (adj_total M nx nu np o Ox Ou Op). unfold adj_init. rewrite Ox. destruct (Nat.ltb_spec (n2 + (if (c <=? q)%nat then pidx n2 q c else pidx n2 c q)) nx) as [B|B]; [unfold n2 in B at 1; lia|].
    change (@n0 real) with 0. rewrite Rplus_0_l. apply sum_ext. intros n _. apply sum_ext. intros s Hs.
    destruct (Nat.leb_spec c q) as [L|L]; rewrite AG_hess by (assumption || lia); apply sum_ext; intros r Hr; f_equal; unfold FH.
    - apply sum_ext. intros k Hk. rewrite <- sum_scal_r. apply sum_ext. intros l Hl. lra.
    - rewrite sum_swap. apply sum_ext. intros k Hk. rewrite <- sum_scal_r. apply sum_ext. intros l Hl. rewrite (c2_sym _ _ _ _ _ _ _ HM2 p (a n s) u r l k) by assumption. lra. }
  rewrite <- ES. apply (derive_sum nx (fun i t => i_S_adj inp i * col nx (zt t N) q i) 0 (fun i => i_S_adj inp i * Derive (fun t => col nx (zt t N) q i) 0)). intros i Hi. apply derive_scal, Derive_correct, ED, Hi.
Qed.
End Hess.
