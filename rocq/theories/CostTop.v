From Coq Require Import ZArith List Bool Lia Reals Lra.
From Coquelicot Require Import Coquelicot.
From Verif Require Import Arith Vec LinModel Poly LinProofs OcpProofs BghEvalProofs BghAdjProofs BghEvalCases CostModel RSum CostSpec CostProofs.
Import ListNotations.
Open Scope R_scope.

Section S.
Variable d : cdim.
Notation nx := (cnx d). Notation nu := (cnu d). Notation nz := (cnz d). Notation ny := (cny d). Notation ns := (cns d).
Notation nv := (nu + nx)%nat.
Notation line ux e := (fun t : R => fun r : nat => ux r + t * e r).

(** ** slacks and scaling *)
Lemma slack_fun_ok c D (ux : vecR) (f : R) : rel d c D -> slack_fun (A := real) d c ux f = f + slack_cost d D ux.
Proof.
  intros (_ & _ & _ & _ & _ & H6 & H7 & H8 & H9 & _). unfold slack_fun, vdot. rewrite rcst_half, rcst_two. rrs.
  replace (2 * ns)%nat with (ns + ns)%nat by lia. rewrite (sum_split ns ns). unfold slack_cost.
  rewrite Rmult_plus_distr_l, <- !sum_scal. apply (f_equal2 Rplus); [reflexivity|]. apply (f_equal2 Rplus); apply sum_ext; intros k Hk.
  - rewrite H6, H8 by exact Hk. field.
  - rewrite H7, H9 by exact Hk. replace (nv + (ns + k))%nat with (nv + ns + k)%nat by lia. field.
Qed.
Lemma slack_term_derive (z Z x e : R) : is_derive (fun t => z * (x + t * e) + 1 / 2 * Z * (x + t * e) ^ 2) 0 ((z + Z * x) * e).
Proof. auto_derive; [exact I|]. field. Qed.
Lemma slack_derive c D (ux e : vecR) : rel d c D ->
  is_derive (fun t => slack_cost d D (line ux e t)) 0 (sum (2 * ns) (fun k => (zs c k + Zs c k * ux (nv + k)%nat) * e (nv + k)%nat)).
Proof.
  intros (_ & _ & _ & _ & _ & H6 & H7 & H8 & H9 & _). replace (2 * ns)%nat with (ns + ns)%nat by lia. rewrite (sum_split ns ns). unfold slack_cost.
  apply (derive_plus (fun t => sum ns (fun k => dzl D k * (ux (nv + k)%nat + t * e (nv + k)%nat) + 1 / 2 * dZl D k * (ux (nv + k)%nat + t * e (nv + k)%nat) ^ 2))
    (fun t => sum ns (fun k => dzu D k * (ux (nv + ns + k)%nat + t * e (nv + ns + k)%nat) + 1 / 2 * dZu D k * (ux (nv + ns + k)%nat + t * e (nv + ns + k)%nat) ^ 2))).
  - apply (is_derive_sum ns (fun k t => dzl D k * (ux (nv + k)%nat + t * e (nv + k)%nat) + 1 / 2 * dZl D k * (ux (nv + k)%nat + t * e (nv + k)%nat) ^ 2)).
    intros k Hk. rewrite H6, H8 by exact Hk. apply slack_term_derive.
  - apply (is_derive_sum ns (fun k t => dzu D k * (ux (nv + ns + k)%nat + t * e (nv + ns + k)%nat) + 1 / 2 * dZu D k * (ux (nv + ns + k)%nat + t * e (nv + ns + k)%nat) ^ 2)).
    intros k Hk. rewrite H7, H9 by exact Hk. replace (nv + (ns + k))%nat with (nv + ns + k)%nat by lia. apply slack_term_derive.
Qed.
Lemma unscaled_ok c : if unscaled (A := real) c then scaling c = 1 else scaling c <> 1.
Proof.
  unfold unscaled. change (nleb (a := real)) with Rleb. change (n1 (a := real)) with 1. 
  destruct (Rleb_spec (scaling c) 1); destruct (Rleb_spec 1 (scaling c)); cbn [andb]; change (num real) with R in *; lra.
Qed.
Lemma finish_fn c D ux m : rel d c D -> fn (finish (A := real) d false c ux m) = dscaling D * (fn m + slack_cost d D ux).
Proof.
  intro H. pose proof (unscaled_ok c) as U. assert (E : scaling c = dscaling D) by apply H. rewrite <- E. unfold finish. destruct (unscaled c); cbn [put_mem fn]; rewrite (slack_fun_ok c D ux) by exact H; rr.
  - rewrite U. symmetry; apply Rmult_1_l.
  - apply Rmult_comm.
Qed.
Lemma finish_fun_fn c D ux m : rel d c D -> fn (finish_fun (A := real) d false c ux m) = dscaling D * (fn m + slack_cost d D ux).
Proof.
  intro H. pose proof (unscaled_ok c) as U. assert (E : scaling c = dscaling D) by apply H. rewrite <- E. unfold finish_fun. destruct (unscaled c); cbn [put_mem fn orb]; rewrite (slack_fun_ok c D ux) by exact H; rr.
  - rewrite U. symmetry; apply Rmult_1_l.
  - apply Rmult_comm.
Qed.
Lemma finish_grad c D ux m k : rel d c D -> (k < nv + 2 * ns)%nat ->
  grad (finish (A := real) d false c ux m) k = dscaling D * (if (k <? nv)%nat then grad m k else zs c (k - nv)%nat + Zs c (k - nv)%nat * ux k).
Proof.
  intros H Hk. pose proof (unscaled_ok c) as U. assert (E : scaling c = dscaling D) by apply H. rewrite <- E. unfold finish. destruct (unscaled c); cbn [put_mem grad]; unfold scale_from, slack_grad; nb.
  all: try (rewrite U; symmetry; apply Rmult_1_l); reflexivity.
Qed.
Lemma finish_dir c D (ux e : vecR) m : rel d c D -> sum (nv + 2 * ns) (fun k => grad (finish (A := real) d false c ux m) k * e k) =
  dscaling D * (sum nv (fun k => grad m k * e k) + sum (2 * ns) (fun k => (zs c k + Zs c k * ux (nv + k)%nat) * e (nv + k)%nat)).
Proof.
  intro H. rewrite (sum_split nv (2 * ns)), Rmult_plus_distr_l, <- !sum_scal. apply (f_equal2 Rplus); apply sum_ext; intros k Hk; rewrite (finish_grad c D) by (auto; lia).
  - nb. apply Rmult_assoc.
  - nb. replace (nv + k - nv)%nat with k by lia. apply Rmult_assoc.
Qed.
Lemma finish_other integ c ux m : RSQ (finish (A := real) d integ c ux m) = RSQ m /\ QZ (finish d integ c ux m) = QZ m /\ res (finish d integ c ux m) = res m /\ oob (finish d integ c ux m) = oob m.
Proof. unfold finish. destruct (unscaled c); [|destruct integ]; repeat split. Qed.

(** ** quadratic part *)
Lemma quadratic_derive D (r : R -> vecR) (dr : vecR) : (forall i j, (i < ny)%nat -> (j < ny)%nat -> dW D i j = dW D j i) -> (forall j, (j < ny)%nat -> is_derive (fun t => r t j) 0 (dr j)) ->
  is_derive (fun t => quadratic d D (r t)) 0 (sum ny (fun i => sum ny (fun j => dW D i j * r 0 j) * dr i)).
Proof.
  intros Hs H. unfold quadratic.
  refine (is_derive_val _ _ _ _ (scal_derive (1 / 2) (fun t => sum ny (fun i => sum ny (fun j => r t i * dW D i j * r t j))) 0 _
    (is_derive_sum ny (fun i t => sum ny (fun j => r t i * dW D i j * r t j)) (fun i => sum ny (fun j => dW D i j * (dr i * r 0 j + r 0 i * dr j))) 0 _)) _).
  - intros i Hi. refine (is_derive_sum ny (fun j t => r t i * dW D i j * r t j) _ 0 _). intros j Hj.
    apply (is_derive_ext (fun t => dW D i j * (r t i * r t j))); [intro t; rewrite <- Rmult_assoc; f_equal; apply Rmult_comm|].
    apply scal_derive. apply prod_derive; auto.
  - assert (E : sum ny (fun i => sum ny (fun j => dW D i j * (r 0 i * dr j))) = sum ny (fun i => sum ny (fun j => dW D i j * (dr i * r 0 j)))).
    { rewrite (sum_swap ny ny). apply sum_ext. intros i Hi. apply sum_ext. intros j Hj. rewrite (Hs j i) by auto. ring. }
    rewrite (sum_ext ny _ (fun i => sum ny (fun j => dW D i j * (dr i * r 0 j)) + sum ny (fun j => dW D i j * (r 0 i * dr j)))).
    2: { intros i Hi. rewrite <- sum_plus. apply sum_ext. intros j Hj. ring. }
    rewrite sum_plus, E. rewrite (sum_ext ny (fun i => sum ny (fun j => dW D i j * r 0 j) * dr i) (fun i => sum ny (fun j => dW D i j * (dr i * r 0 j)))); [field|].
    intros i Hi. rewrite <- sum_scal_r. apply sum_ext. intros j Hj. ring.
Qed.
Lemma grad_pair (J : matR) (t g e : vecR) : sum nv (fun k => grad_of (A := real) d J t g k * e k) = sum ny (fun i => t i * sum nv (fun r => J r i * e r)).
Proof.
  unfold grad_of, mvn. rewrite (sum_ext nv _ (fun k => sum ny (fun i => t i * (J k i * e k)))).
  2: { intros k Hk. nb. rrs. rewrite Rmult_1_l, <- sum_scal_r. apply sum_ext. intros i Hi. ring. }
  rewrite (sum_swap nv ny). apply sum_ext. intros i Hi. now rewrite sum_scal.
Qed.
Lemma cost_derive D (rho : vecR -> vecR) (ux e dr : vecR) c : rel d c D -> (forall i j, (i < ny)%nat -> (j < ny)%nat -> dW D i j = dW D j i) ->
  (forall j, (j < ny)%nat -> is_derive (fun t => rho (line ux e t) j) 0 (dr j)) ->
  is_derive (fun t => cost d D rho (line ux e t)) 0
    (dscaling D * (sum ny (fun i => sum ny (fun j => dW D i j * rho (line ux e 0) j) * dr i) + sum (2 * ns) (fun k => (zs c k + Zs c k * ux (nv + k)%nat) * e (nv + k)%nat))).
Proof.
  intros H Hs Hr. unfold cost. apply (scal_derive (dscaling D) (fun t => quadratic d D (rho (line ux e t)) + slack_cost d D (line ux e t))).
  apply (derive_plus (fun t => quadratic d D (rho (line ux e t))) (fun t => slack_cost d D (line ux e t))).
  - apply (quadratic_derive D (fun t => rho (line ux e t))); auto.
  - now apply slack_derive.
Qed.
End S.
