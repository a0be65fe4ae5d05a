(** Statements about the iterate updates used by the property file. *)
From Coq Require Import ZArith List Bool Lia Reals Lra.
From Verif Require Import Arith Vec LinModel LinProofs RSum Poly StepModel StepProofs StepDdp.
Import ListNotations.
Open Scope R_scope.
Notation hpR := (heap real).
Ltac rl := rr; change (num real) with R in *; lra.

(** which locations an update may write *)
Definition in_iterate (d : sdims) (f : field) (i k : nat) : Prop := (i <= sN d)%nat /\
  match f with Fux => (k < snv d i)%nat | Flam => (k < 2 * sni d i)%nat | Fpi => (i < sN d)%nat /\ (k < snx d (S i))%nat | Fz => (i < sN d)%nat /\ (k < snz d i)%nat end.

Section C26.
Variable d : sdims.
Variable zd : zdata real.
Variables src qp dst : nat.
Hypothesis Nq : dst <> qp.
Variable alpha : R.
Variable full : bool.
Variable h : hpR.
Let h' : hpR := update_variables_sqp d zd src qp dst alpha full h.
Lemma upd_ux i k : in_iterate d Fux i k -> h' dst Fux i k = h src Fux i k + alpha * h qp Fux i k.
Proof. intros (Hi & Hk). unfold h'. rewrite update_val by exact Nq. rewrite Nat.eqb_refl. destruct (Nat.leb_spec i (sN d)); [|lia]. cbn [andb target]. destruct (Nat.ltb_spec k (snv d i)); [reflexivity|lia]. Qed.
Lemma upd_dual f i k : f = Flam \/ f = Fpi -> in_iterate d f i k -> h' dst f i k = if full then h qp f i k else (1 - alpha) * h src f i k + alpha * h qp f i k.
Proof.
  intros Hf (Hi & Hk). unfold h'. rewrite update_val by exact Nq. rewrite Nat.eqb_refl. destruct (Nat.leb_spec i (sN d)); [|lia]. cbn [andb target].
  destruct Hf as [-> | ->]; unfold target.
  - destruct (Nat.ltb_spec k (2 * sni d i)); [|lia]. destruct full; reflexivity.
  - destruct Hk as [H1 H2]. destruct (Nat.ltb_spec i (sN d)); [|lia]. destruct (Nat.ltb_spec k (snx d (S i))); [|lia]. cbn [andb]. destruct full; reflexivity.
Qed.
Lemma upd_z i k : in_iterate d Fz i k -> h' dst Fz i k = z_alg zd i k + alpha * sum (snu d i + snx d i) (fun r => dzduxt zd i r k * h qp Fux i r).
Proof.
  intros (Hi & H1 & H2). unfold h'. rewrite update_val by exact Nq. rewrite Nat.eqb_refl. destruct (Nat.leb_spec i (sN d)); [|lia]. cbn [andb]. unfold target.
  destruct (Nat.ltb_spec i (sN d)); [|lia]. destruct (Nat.ltb_spec k (snz d i)); [|lia]. cbn [andb]. rewrite vsum_sum. rl.
Qed.
Lemma upd_frame ob f i k : ob <> dst \/ ~ in_iterate d f i k -> h' ob f i k = h ob f i k.
Proof.
  intros N. unfold h'. rewrite update_val by exact Nq. destruct (Nat.eqb_spec ob dst) as [->|]; [|reflexivity]. destruct N as [N|N]; [contradiction|]. unfold in_iterate in N.
  destruct (Nat.leb_spec i (sN d)); [|reflexivity]. cbn [andb]. unfold target.
  destruct f.
  - destruct (Nat.ltb_spec k (snv d i)); [exfalso; apply N; lia|reflexivity].
  - destruct (Nat.ltb_spec k (2 * sni d i)); [exfalso; apply N; lia|reflexivity].
  - destruct (Nat.ltb_spec i (sN d)), (Nat.ltb_spec k (snx d (S i))); try reflexivity. exfalso; apply N; lia.
  - destruct (Nat.ltb_spec i (sN d)), (Nat.ltb_spec k (snz d i)); try reflexivity. exfalso; apply N; lia.
Qed.
Lemma convex_nonneg a x y : 0 <= a <= 1 -> 0 <= x -> 0 <= y -> 0 <= (1 - a) * x + a * y.
Proof. intros. assert (0 <= (1 - a) * x) by (apply Rmult_le_pos; lra). assert (0 <= a * y) by (apply Rmult_le_pos; lra). lra. Qed.
Lemma upd_nonneg i k : 0 <= alpha <= 1 -> in_iterate d Flam i k -> 0 <= h src Flam i k -> 0 <= h qp Flam i k -> 0 <= h' dst Flam i k.
Proof. intros Ha Hk H1 H2. rewrite upd_dual by auto. destruct full; [exact H2|]. apply convex_nonneg; assumption. Qed.
End C26.

Section C18.
Variable d : sdims.
Variable zd : zdata real.
Variables src qp dst : nat.
Hypothesis Nq : dst <> qp.
Variable alpha : R.
Variable K : nat -> matR.
Variable kff : nat -> vecR.
Variable phi : nat -> vecR -> vecR.
Variable full : bool.
Variable h : hpR.
Let h' : hpR := ddp_trial d zd src qp dst alpha K kff phi full h.
Lemma trial_x0 k : (k < snx d 0)%nat -> h' dst Fux 0%nat (snu d 0 + k)%nat = h src Fux 0%nat (snu d 0 + k)%nat + alpha * h qp Fux 0%nat (snu d 0 + k)%nat.
Proof. unfold h'. rewrite ddp_trial_ux. apply ddp_x0; exact Nq. Qed.
Lemma trial_rollout i r : (i < sN d)%nat -> (r < snx d (S i))%nat -> h' dst Fux (S i) (snu d (S i) + r)%nat = phi i (h' dst Fux i) r.
Proof. unfold h'. rewrite !ddp_trial_ux. apply ddp_rollout; exact Nq. Qed.
Lemma trial_control i r : src <> dst -> (i < sN d)%nat -> (r < snu d i)%nat ->
  h' dst Fux i r = h src Fux i r + alpha * kff i r + sum (snx d i) (fun c => K i r c * (h' dst Fux i (snu d i + c)%nat - h src Fux i (snu d i + c)%nat)).
Proof. unfold h'. rewrite !ddp_trial_ux. apply ddp_control; exact Nq. Qed.
Lemma trial_control_in_place i r : src = dst -> (i < sN d)%nat -> (r < snu d i)%nat -> h' dst Fux i r = h src Fux i r + alpha * kff i r.
Proof. unfold h'. rewrite !ddp_trial_ux. apply ddp_control_alias; exact Nq. Qed.
Lemma trial_duals f i k : f = Flam \/ f = Fpi -> in_iterate d f i k -> h' dst f i k = if full then h qp f i k else (1 - alpha) * h dst f i k + alpha * h qp f i k.
Proof.
  intros Hf (Hi & Hk). unfold h'. rewrite ddp_duals by assumption. destruct (Nat.leb_spec i (sN d)); [|lia].
  destruct Hf as [-> | ->]; unfold dtarget.
  - destruct (Nat.ltb_spec k (2 * sni d i)); [|lia]. destruct full; reflexivity.
  - destruct Hk as [H1 H2]. destruct (Nat.ltb_spec i (sN d)); [|lia]. destruct (Nat.ltb_spec k (snx d (S i))); [|lia]. cbn [andb]. destruct full; reflexivity.
Qed.
Lemma trial_others ob f st : ob <> dst -> h' ob f st = h ob f st.
Proof.
  intros N. unfold h', ddp_trial. set (F := ddp_primal d src qp dst alpha K kff phi h).
  assert (E : F ob f st = h ob f st). { unfold F, ddp_primal. cbv zeta. generalize (sN d). induction n as [|n IH]; cbn [loop]; [apply emap_loc; auto|]. rewrite <- IH. unfold ddp_stage. cbv zeta. rewrite !emap_loc by auto. reflexivity. }
  rewrite <- E. generalize F. generalize (S (sN d)). intros n G. induction n as [|n IH]; cbn [loop]; [reflexivity|]. rewrite <- IH.
  unfold z_update, ddp_dual. destruct full, (n <? sN d)%nat; cbv zeta; rewrite ?emap_loc by auto; reflexivity.
Qed.
(** the flag given to the trial does not influence the primal part *)
Lemma trial_blend f i k : (forall f i k, h dst f i k = h src f i k) \/ src = dst -> f = Flam \/ f = Fpi -> in_iterate d f i k ->
  h' dst f i k = if full then h qp f i k else (1 - alpha) * h src f i k + alpha * h qp f i k.
Proof. intros E Hf Hk. rewrite trial_duals by assumption. destruct E as [E|E]; [rewrite E|rewrite E]; reflexivity. Qed.
End C18.

(** two trials in the same buffer, the first with the full step, as the line search does *)
Lemma second_trial d zd src qp dst K kff phi K2 kff2 phi2 alpha2 full (h : hpR) f i k : dst <> qp -> f = Flam \/ f = Fpi -> in_iterate d f i k ->
  ddp_trial d zd src qp dst (alpha2 : R) K2 kff2 phi2 full (ddp_trial d zd src qp dst 1%R K kff phi full h) dst f i k = h qp f i k.
Proof.
  intros Nq Hf Hk. rewrite trial_duals by assumption. rewrite (trial_others d zd src qp dst) by auto. rewrite trial_duals by assumption. destruct full; rl.
Qed.
