(** The explicit integrator over the reals: forward sensitivities are derivatives, adjoints are their transpose. *)
From Coq Require Import ZArith List Bool Lia Reals Lra Psatz.
From Coquelicot Require Import Coquelicot.
From Verif Require Import Arith Vec LinModel LinProofs RSum Poly CollModel ErkModel.
Import ListNotations.
Open Scope R_scope.

Lemma nonzero_true (x : R) : nonzero (A := real) x = true -> x <> 0.
Proof. intros H E. subst x. unfold nonzero in H. cbn in H. destruct (Rleb_spec 0 0); [cbn in H; discriminate H|lra]. Qed.
Lemma nonzero_false (x : R) : nonzero (A := real) x = false -> x = 0.
Proof. intros H. unfold nonzero in H. cbn in H. destruct (Rleb_spec x 0), (Rleb_spec 0 x); cbn in H; try discriminate H. lra. Qed.
Lemma derive_sum (n : nat) (f : nat -> R -> R) (t : R) (d : nat -> R) : (forall k, (k < n)%nat -> is_derive (f k) t (d k)) -> is_derive (fun x => sum n (fun k => f k x)) t (sum n d).
Proof.
  induction n as [|n IH]; intros H; cbn [sum]; [apply (is_derive_const (V := R_NormedModule))|].
  apply (is_derive_plus (V := R_NormedModule) (fun x => sum n (fun k => f k x)) (f n)); [apply IH; intros; apply H; lia|apply H; lia].
Qed.
Lemma derive_scal (c : R) (f : R -> R) (t d : R) : is_derive f t d -> is_derive (fun x => c * f x) t (c * d).
Proof. intros H. apply (is_derive_scal f t c d H). Qed.
Lemma derive_plus (f g : R -> R) (t d e : R) : is_derive f t d -> is_derive g t e -> is_derive (fun x => f x + g x) t (d + e).
Proof. intros. apply (is_derive_plus (V := R_NormedModule) f g); assumption. Qed.

Section Alg.
Variable M : erk_model real.
Variable o : erk_opts real.
Variable inp : erk_in real.
Let h : R := e_step o inp.

Lemma stage_arg_sum s (z : vecR) (K : nat -> vecR) i : stage_arg o inp s z K i = z i + sum s (fun j => h * e_A o j s * K j i).
Proof.
  unfold stage_arg. assert (G : forall m, loop m (fun j (r : vecR) => if nonzero (A := real) (e_A o j s) then let a := e_A o j s * e_step o inp in fun i => r i + a * K j i else r) z i = z i + sum m (fun j => h * e_A o j s * K j i)).
  { induction m as [|m IH]; cbn [loop sum]; [lra|]. cbv zeta in *. destruct (nonzero (e_A o m s)) eqn:N; rewrite IH; unfold h.
    - generalize (e_step o inp) (e_A o m s) (K m i). intros a b c. change (num real) with R in *. generalize (sum m (fun j => a * e_A o j s * K j i)). intros. lra.
    - apply nonzero_false in N. rewrite N. generalize (sum m (fun j => e_step o inp * e_A o j s * K j i)). intros. rr; change (num real) with R in *; lra. }
  exact (G s).
Qed.
Lemma stage_arg_ext s (z : vecR) K K' : (forall j, (j < s)%nat -> K j = K' j) -> stage_arg o inp s z K = stage_arg o inp s z K'.
Proof.
  intros H. unfold stage_arg. assert (G : forall m, (m <= s)%nat -> loop m (fun j (r : vecR) => if nonzero (A := real) (e_A o j s) then let a := e_A o j s * e_step o inp in fun i => r i + a * K j i else r) z = loop m (fun j (r : vecR) => if nonzero (A := real) (e_A o j s) then let a := e_A o j s * e_step o inp in fun i => r i + a * K' j i else r) z).
  { induction m as [|m IH]; intros Hm; cbn [loop]; [reflexivity|]. cbv zeta in *. rewrite IH, (H m) by lia. reflexivity. }
  apply G. lia.
Qed.
(** every row is the right hand side at its own argument *)
Lemma erk_K_row z K0 s : (s < e_ns o)%nat -> erk_K M o inp z K0 s = stage_rhs M o inp (stage_arg o inp s z (erk_K M o inp z K0)) (K0 s).
Proof.
  intros Hs. unfold erk_K. set (f := fun s K j => if (j =? s)%nat then stage_rhs M o inp (stage_arg o inp s z K) (K s) else K j).
  assert (Keep : forall m j, (m <= j)%nat -> loop m f K0 j = K0 j).
  { induction m as [|m IH]; intros j Hj; cbn [loop]; [reflexivity|]. unfold f at 1. destruct (Nat.eqb_spec j m); [lia|]. apply IH. lia. }
  assert (Fix : forall m k j, (j < m)%nat -> loop (m + k) f K0 j = loop m f K0 j).
  { intros m. induction k as [|k IH]; intros j Hj; [rewrite Nat.add_0_r; reflexivity|]. rewrite Nat.add_succ_r. cbn [loop]. unfold f at 1. destruct (Nat.eqb_spec j (m + k)); [lia|]. apply IH, Hj. }
  replace (e_ns o) with (S s + (e_ns o - S s))%nat by lia. rewrite Fix by lia. cbn [loop]. unfold f at 1. rewrite Nat.eqb_refl. rewrite Keep by lia. f_equal.
  apply stage_arg_ext. intros j Hj. rewrite <- (Fix s (S (e_ns o - S s)) j Hj). f_equal. lia.
Qed.
Lemma erk_step_sum z K0 i : erk_step M o inp z K0 i = z i + sum (e_ns o) (fun s => h * e_b o s * erk_K M o inp z K0 s i).
Proof.
  unfold erk_step. generalize (erk_K M o inp z K0). intros K. induction (e_ns o) as [|n IH]; cbn [loop sum]; [lra|]. rewrite IH. unfold h.
  generalize (sum n (fun s => e_step o inp * e_b o s * K s i)). intros. rr; change (num real) with R in *; lra.
Qed.
Lemma adj_lam_sum s adj G i : adj_lam o inp s adj G i = h * e_b o s * adj i + sum (e_ns o - (s + 1)) (fun t => h * e_A o s (s + 1 + t)%nat * G (s + 1 + t)%nat i).
Proof.
  unfold adj_lam. induction (e_ns o - (s + 1))%nat as [|m IH]; cbn [loop sum]; [rewrite Rplus_0_r; reflexivity|]. cbv zeta in *.
  destruct (nonzero (e_A o s (s + 1 + m)%nat)) eqn:N; rewrite IH; unfold h.
  - generalize (sum m (fun t => e_step o inp * e_A o s (s + 1 + t)%nat * G (s + 1 + t)%nat i)). intros. rr; change (num real) with R in *; lra.
  - apply nonzero_false in N. rewrite N. generalize (sum m (fun t => e_step o inp * e_A o s (s + 1 + t)%nat * G (s + 1 + t)%nat i)). intros. rr; change (num real) with R in *; lra.
Qed.
Lemma adj_lam_ext s adj G G' : (forall j, (s < j < e_ns o)%nat -> G j = G' j) -> adj_lam o inp s adj G = adj_lam o inp s adj G'.
Proof.
  intros H. unfold adj_lam. assert (E : forall m, (m <= e_ns o - (s + 1))%nat -> 
    loop m (fun t lam => let j := (s + 1 + t)%nat in if nonzero (A := real) (e_A o s j) then let a := e_A o s j * e_step o inp in fun i => lam i + a * G j i else lam) (fun i => (e_step o inp * e_b o s) * adj i) =
    loop m (fun t lam => let j := (s + 1 + t)%nat in if nonzero (A := real) (e_A o s j) then let a := e_A o s j * e_step o inp in fun i => lam i + a * G' j i else lam) (fun i => (e_step o inp * e_b o s) * adj i)).
  { induction m as [|m IH]; intros Hm; cbn [loop]; [reflexivity|]. cbv zeta in *. rewrite IH, (H (s + 1 + m)%nat) by lia. reflexivity. }
  apply E. lia.
Qed.
Lemma adj_G_row z K adj G0 s : (s < e_ns o)%nat ->
  adj_G M o inp z K adj G0 s = adj_rhs M o inp (stage_arg o inp s z K) (adj_lam o inp s adj (adj_G M o inp z K adj G0)) (G0 s).
Proof.
  intros Hs. unfold adj_G. set (n := e_ns o) in *.
  set (f := fun t G => let s := (n - 1 - t)%nat in fun j => if (j =? s)%nat then adj_rhs M o inp (stage_arg o inp s z K) (adj_lam o inp s adj G) (G s) else G j).
  assert (Keep : forall m j, (m <= n)%nat -> (j < n - m)%nat -> loop m f G0 j = G0 j).
  { induction m as [|m IH]; intros j Hm Hj; cbn [loop]; [reflexivity|]. unfold f at 1. cbv zeta. destruct (Nat.eqb_spec j (n - 1 - m)); [lia|]. apply IH; lia. }
  assert (Fix : forall m k j, (m + k <= n)%nat -> (n - m <= j < n)%nat -> loop (m + k) f G0 j = loop m f G0 j).
  { intros m. induction k as [|k IH]; intros j Hm Hj; [rewrite Nat.add_0_r; reflexivity|]. rewrite Nat.add_succ_r. cbn [loop]. unfold f at 1. cbv zeta. destruct (Nat.eqb_spec j (n - 1 - (m + k))); [lia|]. apply IH; lia. }
  set (m := (n - 1 - s)%nat). assert (En : loop n f G0 = loop (S m + (n - S m)) f G0) by (f_equal; unfold m; lia).
  assert (E1 : loop n f G0 s = loop (S m) f G0 s) by (rewrite En; apply Fix; unfold m; lia). rewrite E1. cbn [loop]. unfold f at 1. cbv zeta.
  replace (n - 1 - m)%nat with s by (unfold m; lia). rewrite Nat.eqb_refl. rewrite Keep by (unfold m; lia). f_equal.
  apply adj_lam_ext. fold n. intros j Hj. symmetry. assert (En' : loop n f G0 = loop (m + (n - m)) f G0) by (f_equal; unfold m; lia). rewrite En'. apply Fix; unfold m; lia.
Qed.
Lemma adj_step_sum z K adj G0 i : adj_step M o inp z K adj G0 i = adj i + sum (e_ns o) (fun s => adj_G M o inp z K adj G0 s i).
Proof.
  unfold adj_step. generalize (adj_G M o inp z K adj G0). intros K'. induction (e_ns o) as [|n IH]; cbn [loop sum]; [lra|]. rewrite IH.
  generalize (sum n (fun s => K' s i)). intros. rr; change (num real) with R in *; lra.
Qed.
End Alg.
