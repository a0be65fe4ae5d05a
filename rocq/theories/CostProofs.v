From Coq Require Import ZArith List Bool Lia Reals Lra FunctionalExtensionality.
From Coquelicot Require Import Coquelicot.
From Verif Require Import Arith Vec LinModel Poly LinProofs OcpProofs BghEvalProofs BghAdjProofs CostModel RSum CostSpec.
Import ListNotations.
Open Scope R_scope.

Ltac nq := nb; repeat match goal with |- context [(?a =? ?b)%nat] => destruct (Nat.eqb_spec a b); [try lia|try lia] end.
Section S.
Variable d : cdim.
Notation nx := (cnx d). Notation nu := (cnu d). Notation nz := (cnz d). Notation ny := (cny d). Notation ns := (cns d).
Notation nv := (nu + nx)%nat.

(** ** the data *)
Definition rel (c : cmodel real) (D : data) : Prop :=
  (forall i j, (i < ny)%nat -> (j < ny)%nat -> W c i j = dW D i j) /\
  (forall i j, (i < nu)%nat -> (j < ny)%nat -> Cyt c i j = dVu D j i) /\
  (forall i j, (i < nx)%nat -> (j < ny)%nat -> Cyt c (nu + i)%nat j = dVx D j i) /\
  (forall j k, (j < ny)%nat -> (k < nz)%nat -> Vz c j k = dVz D j k) /\
  (forall j, (j < ny)%nat -> yref c j = dyref D j) /\
  (forall k, (k < ns)%nat -> Zs c k = dZl D k) /\ (forall k, (k < ns)%nat -> Zs c (ns + k)%nat = dZu D k) /\
  (forall k, (k < ns)%nat -> zs c k = dzl D k) /\ (forall k, (k < ns)%nat -> zs c (ns + k)%nat = dzu D k) /\
  scaling c = dscaling D.
Lemma rel_start c : rel c (data_of d c).
Proof. unfold rel, data_of; cbn. repeat split; intros; reflexivity. Qed.
Ltac pk := unfold pack, pack_tran, packv; nb; cbn [andb]; repeat rewrite Nat.sub_0_r.
Ltac ar := match goal with |- ?f ?a = ?f ?b => replace a with b by (try lia; nia); reflexivity end.
Lemma rel_set c D f v : rel c D -> rel (model_set d f v c) (assign d f v D).
Proof.
  intros (H1 & H2 & H3 & H4 & H5 & H6 & H7 & H8 & H9 & H10). unfold rel.
  destruct f; cbn [model_set assign dW dVx dVu dVz dyref dZl dZu dzl dzu dscaling W Cyt Vz yref Zs zs scaling put_Cyt put_Zs put_zs];
    repeat split; intros; auto; try (pk; try lia; auto; ar).
Qed.
Lemma neq0_false (x : R) : neq0 (A := real) x = false -> x = 0.
Proof.
  unfold neq0. cbn [nleb real]. intro H. apply negb_false_iff, andb_true_iff in H. destruct H as (H1 & H2).
  change (Rleb x 0 = true) in H1. change (Rleb 0 x = true) in H2.
  destruct (Rleb_spec x 0); [|discriminate H1]. destruct (Rleb_spec 0 x); [|discriminate H2]. lra.
Qed.
Lemma diag_ok V : diag_of (A := real) d V = true -> forall i j, (i < ny)%nat -> (j < ny)%nat -> i <> j -> V i j = 0.
Proof.
  unfold diag_of. destruct (4 <? ny)%nat; [|discriminate]. intros H i j Hi Hj Hn.
  rewrite forallb_forall in H. specialize (H i ltac:(apply in_seq; lia)). rewrite forallb_forall in H. specialize (H j ltac:(apply in_seq; lia)).
  apply orb_true_iff in H. destruct H as [H|H]; [apply Nat.eqb_eq in H; congruence|]. apply neq0_false. now apply negb_true_iff in H.
Qed.

(** ** the factor *)
Definition Fac (diag : bool) (L : matR) (Dg : vecR) : matR := fun k c => if diag then (if (k =? c)%nat then Dg c else 0) else (if (c <=? k)%nat then L k c else 0).
Lemma weigh_val diag L Dg (J : matR) r c : (c < ny)%nat -> weigh (A := real) d diag L Dg J r c = sum ny (fun k => J r k * Fac diag L Dg k c).
Proof.
  intro Hc. unfold weigh, Fac. destruct diag.
  - rewrite (sum_one ny c); [rewrite Nat.eqb_refl; rr; apply Rmult_1_l|exact Hc|]. intros k Hk Hn. nq. apply Rmult_0_r.
  - rrs. rewrite Rmult_1_l. apply sum_ext. intros k Hk. nb; rr; lra.
Qed.
Lemma weighv_val diag L Dg (x : vecR) c : (c < ny)%nat -> weighv (A := real) d diag L Dg x c = sum ny (fun k => Fac diag L Dg k c * x k).
Proof.
  intro Hc. unfold weighv, Fac. destruct diag.
  - rewrite (sum_one ny c); [rewrite Nat.eqb_refl; reflexivity|exact Hc|]. intros k Hk Hn. nq. apply Rmult_0_l.
  - rrs. apply sum_ext. intros k Hk. nb; rr; lra.
Qed.
Variable potrf : nat -> matR -> matR.
Variable sq : R -> R.
Definition factored (D : data) (c : cmodel real) (m : cmem real) : Prop :=
  forall k l, (k < ny)%nat -> (l < ny)%nat -> sum ny (fun j => Fac (is_diag c) (W_chol m) (W_chol_diag m) k j * Fac (is_diag c) (W_chol m) (W_chol_diag m) l j) = dW D k l.
(** the factor belongs to W *)
Definition fresh_factor (c : cmodel real) (m : cmem real) : Prop :=
  if is_diag c then forall i, (i < ny)%nat -> W_chol_diag m i = sq (W c i i) else W_chol m = potrf ny (W c).
Lemma factor_ok D c m : rel c D -> (is_diag c = true -> forall i j, (i < ny)%nat -> (j < ny)%nat -> i <> j -> W c i j = 0) -> weight_ok d potrf sq D -> fresh_factor c m -> factored D c m.
Proof.
  intros (HW & _) HD (Hs & Hq & Hp) HF k l Hk Hl. unfold fresh_factor in HF. unfold Fac. destruct (is_diag c).
  - destruct (Nat.eq_dec k l) as [<-|Hn].
    + rewrite (sum_one ny k); [|exact Hk|]; [rewrite Nat.eqb_refl, HF by exact Hk; rewrite HW by auto; now apply Hq|]. intros j Hj Hn. nq; try lra.
    + rewrite sum_zero; [rewrite <- HW, HD by auto; reflexivity|]. intros j Hj. nq; try congruence; lra.
  - rewrite HF. assert (G : forall k l, (k < ny)%nat -> (l <= k)%nat -> sum ny (fun j => (if (j <=? k)%nat then potrf ny (W c) k j else 0) * (if (j <=? l)%nat then potrf ny (W c) l j else 0)) = dW D k l).
    { clear k l Hk Hl. intros k l Hk Hl. rewrite <- (Hp (W c) HW k l Hk Hl). replace ny with (S l + (ny - S l))%nat at 1 by lia. rewrite (sum_split (S l) (ny - S l)).
      rewrite (sum_zero (ny - S l)). 2: { intros j Hj. nb; lra. } rewrite Rplus_0_r. apply sum_ext. intros j Hj. nb; reflexivity. }
    destruct (Nat.le_gt_cases l k) as [H|H]; [apply G; auto|].
    rewrite Hs by auto. rewrite <- (G l k Hl ltac:(lia)). apply sum_ext. intros j Hj. apply Rmult_comm.
Qed.
Lemma syrk_val D c m (J : matR) al acc (Q : matR) r s : factored D c m -> (r < nv)%nat -> (s <= r)%nat ->
  syrk (A := real) nv ny al (weigh d (is_diag c) (W_chol m) (W_chol_diag m) J) acc Q r s = (if acc then Q r s else 0) + al * sum ny (fun i => sum ny (fun j => J r i * dW D i j * J s j)).
Proof.
  intros HF Hr Hs. unfold syrk. nb. cbn [andb].
  assert (E : vsum (A := real) ny (fun j => nmul (a := real) (weigh (A := real) d (is_diag c) (W_chol m) (W_chol_diag m) J r j) (weigh (A := real) d (is_diag c) (W_chol m) (W_chol_diag m) J s j)) = sum ny (fun i => sum ny (fun j => J r i * dW D i j * J s j))).
  { rrs. rewrite (sum_ext ny _ (fun j => sum ny (fun k => sum ny (fun l => J r k * (Fac (is_diag c) (W_chol m) (W_chol_diag m) k j * Fac (is_diag c) (W_chol m) (W_chol_diag m) l j) * J s l)))).
    2: { intros j Hj. rewrite !weigh_val by exact Hj. rewrite <- sum_scal_r. apply sum_ext. intros k Hk. rewrite <- sum_scal. apply sum_ext. intros l Hl. ring. }
    rewrite (sum_swap ny ny). apply sum_ext. intros k Hk. rewrite (sum_swap ny ny). apply sum_ext. intros l Hl. rewrite sum_scal_r, sum_scal, HF by auto. reflexivity. }
  destruct acc; rewrite E; rr; [reflexivity|]. symmetry. apply Rplus_0_l.
Qed.
Lemma norm_val D c m (r : vecR) : factored D c m ->
  vdot (A := real) ny (weighv d (is_diag c) (W_chol m) (W_chol_diag m) r) (weighv d (is_diag c) (W_chol m) (W_chol_diag m) r) = sum ny (fun i => sum ny (fun j => r i * dW D i j * r j)).
Proof.
  intro HF. unfold vdot. rrs. rewrite (sum_ext ny _ (fun j => sum ny (fun k => sum ny (fun l => r k * (Fac (is_diag c) (W_chol m) (W_chol_diag m) k j * Fac (is_diag c) (W_chol m) (W_chol_diag m) l j) * r l)))).
  2: { intros j Hj. rewrite !weighv_val by exact Hj. rewrite <- sum_scal_r. apply sum_ext. intros k Hk. rewrite <- sum_scal. apply sum_ext. intros l Hl. ring. }
  rewrite (sum_swap ny ny). apply sum_ext. intros k Hk. rewrite (sum_swap ny ny). apply sum_ext. intros l Hl. rewrite sum_scal_r, sum_scal, HF by auto. reflexivity.
Qed.
Lemma symv_val D c (x : vecR) i : rel c D -> (forall i j, (i < ny)%nat -> (j < ny)%nat -> dW D i j = dW D j i) -> (i < ny)%nat -> symv (A := real) d (W c) x i = sum ny (fun j => dW D i j * x j).
Proof.
  intros (HW & _) Hs Hi. unfold symv. rrs. rewrite Rmult_1_l. apply sum_ext. intros j Hj. nb; rewrite HW by auto; [reflexivity|]. rewrite Hs by auto. reflexivity.
Qed.

(** ** histories *)
Definition hess_ok (c : cmodel real) (m : cmem real) : Prop :=
  forall r s, (r < nv)%nat -> (s <= r)%nat -> hess m r s = syrk (A := real) nv ny (scaling c) (weigh d (is_diag c) (W_chol m) (W_chol_diag m) (Cyt c)) false (fun _ _ => 0) r s.
Definition inv (s : cmodel real * cmem real) (D : data) : Prop :=
  rel (fst s) D /\ (is_diag (fst s) = true -> forall i j, (i < ny)%nat -> (j < ny)%nat -> i <> j -> W (fst s) i j = 0) /\
  (W_changed (fst s) = false -> fresh_factor (fst s) (snd s)) /\ (W_changed (fst s) = false -> Cyt_changed (fst s) = false -> hess_ok (fst s) (snd s)).
Lemma inv_start c m : created c -> inv (c, m) (data_of d c).
Proof. intros (A & B). unfold inv; cbn. rewrite A, B. repeat split; try discriminate; try apply rel_start. Qed.
Lemma inv_same c m m' D : W_chol m' = W_chol m -> W_chol_diag m' = W_chol_diag m -> hess m' = hess m -> inv (c, m) D -> inv (c, m') D.
Proof. intros A B C. unfold inv, fresh_factor, hess_ok; cbn. rewrite A, B, C. auto. Qed.
Lemma factorise_fresh c m : fresh_factor c (factorise potrf sq d c m).
Proof. unfold fresh_factor, factorise. destruct (is_diag c); cbn [W_chol_diag W_chol]; [|reflexivity]. intros i Hi. nb. reflexivity. Qed.
Lemma inv_update_W s D : inv s D -> inv (ls_update_W potrf sq d s) D /\ W_changed (fst (ls_update_W potrf sq d s)) = false /\ Cyt_changed (fst (ls_update_W potrf sq d s)) = false.
Proof.
  destruct s as (c, m). intros (H1 & H2 & H3 & H4). cbn [fst snd] in *. unfold ls_update_W.
  destruct (W_changed c) eqn:EW.
  - cbn [flags Cyt_changed W_changed fst snd]. split; [|split; reflexivity]. split; [exact H1|]. split; [exact H2|]. split.
    + intros _. apply (factorise_fresh c m).
    + intros _ _ r s Hr Hs. cbn [hess fst snd]. unfold syrk. nb. reflexivity.
  - destruct (Cyt_changed c) eqn:EC; cbn [flags Cyt_changed W_changed fst snd].
    + split; [|split; [exact EW|reflexivity]]. split; [exact H1|]. split; [exact H2|]. split; [exact (fun _ => H3 eq_refl)|].
      intros _ _ r s Hr Hs. cbn [hess fst snd]. unfold syrk. nb. reflexivity.
    + rewrite EW, EC. split; [|split; reflexivity]. split; [exact H1|]. split; [exact H2|]. cbn [fst snd]. rewrite EW, EC. auto.
Qed.
Lemma inv_QZ s D : inv s D -> inv (set_QZ d s) D.
Proof. destruct s as (c, m). unfold set_QZ. apply inv_same; reflexivity. Qed.
Lemma inv_flag s D : inv s D -> inv (flags (fst s) true (Cyt_changed (fst s)), snd s) D.
Proof. destruct s as (c, m). intros (H1 & H2 & H3 & H4). split; [exact H1|]. split; [exact H2|]. split; intros; discriminate. Qed.
Lemma inv_set c m D f v : inv (c, m) D -> inv (model_set d f v c, m) (assign d f v D).
Proof.
  intros (H1 & H2 & H3 & H4). split; [now apply rel_set|]. cbn [fst snd] in *.
  destruct f; cbn [model_set put_Cyt put_Zs put_zs is_diag W W_changed Cyt_changed]; (split; [|split]); try (intros; discriminate); auto.
  apply diag_ok.
Qed.
Lemma finish_keeps integ c ux m : W_chol (finish (A := real) d integ c ux m) = W_chol m /\ W_chol_diag (finish d integ c ux m) = W_chol_diag m /\ hess (finish d integ c ux m) = hess m.
Proof. unfold finish. destruct (unscaled c); [|destruct integ]; repeat split. Qed.
Lemma finish_fun_keeps integ c ux m : W_chol (finish_fun (A := real) d integ c ux m) = W_chol m /\ W_chol_diag (finish_fun d integ c ux m) = W_chol_diag m /\ hess (finish_fun d integ c ux m) = hess m.
Proof. unfold finish_fun. destruct (unscaled c || integ); repeat split. Qed.
Lemma inv_step o s D : inv s D -> inv (ls_step d potrf sq o s) (data_step d D o).
Proof.
  intro H. destruct o; cbn [ls_step data_step].
  - destruct s as (c, m). now apply inv_set.
  - apply inv_update_W. now apply inv_flag.
  - apply inv_QZ. now apply inv_update_W.
  - destruct s as (c, m). unfold ls_update. refine (inv_same c m _ D _ _ _ H);
    match goal with |- context [finish d false c ux ?m0] => pose proof (finish_keeps false c ux m0) as (K1 & K2 & K3) end; [exact K1|exact K2|exact K3].
  - destruct s as (c, m). unfold ls_compute_fun. refine (inv_same c m _ D _ _ _ H);
    match goal with |- context [finish_fun d false c ux ?m0] => pose proof (finish_fun_keeps false c ux m0) as (K1 & K2 & K3) end; [exact K1|exact K2|exact K3].
Qed.
Lemma inv_run h s D : inv s D -> inv (ls_run d potrf sq h s) (current d h D).
Proof. revert s D. induction h as [|o h IH]; intros s D H; [exact H|]. cbn. apply IH. now apply inv_step. Qed.
End S.
