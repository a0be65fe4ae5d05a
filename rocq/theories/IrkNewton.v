(** Newton's method on the stage equations: fixed points, and exactness for models that are affine in x, xdot and z. *)
From Coq Require Import ZArith List Bool Arith Lia Reals Lra FunctionalExtensionality.
From Coquelicot Require Import Coquelicot.
From Verif Require Import Arith Vec LinModel CollModel CollTop RSum IrkModel IrkSpec IrkProofs IrkSens.
Import ListNotations.
Open Scope R_scope.

Section S.
Variable M : irk_model real.
Variable o : irk_opts real.
Variable inp : irk_in real.
Variable lu_solve : nat -> matR -> vecR -> vecR.
Notation nx := (o_nx o). Notation nu := (o_nu o). Notation nz := (o_nz o). Notation np := (o_np o). Notation ns := (o_ns o).
Notation nf := (nx + nz)%nat.
Notation nK := ((nx + nz) * ns)%nat.
Notation h := (step o inp).
Notation u := (n_u inp).
Hypothesis LU : lu_ok nK lu_solve.
Notation newton := (newton M o inp lu_solve).
Definition zero_res ss (x K : vecR) := forall k, (k < nK)%nat -> residual M o inp ss x K k = 0.
Definition fresh ss it : bool := (o_jac_reuse o && (ss =? 0)%nat && (it =? 0)%nat) || negb (o_jac_reuse o).
Definition nstep ss it (x K : vecR) (F : matR) : vecR :=
  let F := if fresh ss it then dG_dK M o inp ss x K else F in fun k => if (k <? nK)%nat then - (1) * lu_solve nK F (residual M o inp ss x K) k + K k else K k.
(** a solution of the stage equations is not changed *)
Lemma newton_keeps n it ss (x K : vecR) F : nonsing nK F -> nonsing nK (dG_dK M o inp ss x K) -> zero_res ss x K -> fst (newton n it ss x K F) = K.
Proof.
  intros HF HG HZ. revert it F HF. induction n as [|n IH]; intros it F HF; [reflexivity|]. cbn [IrkModel.newton]. fold (fresh ss it).
  set (F1 := if fresh ss it then dG_dK M o inp ss x K else F). assert (HF1 : nonsing nK F1) by (unfold F1; destruct (fresh ss it); assumption).
  assert (E : (fun k => if (k <? nK)%nat then nadd (a := real) (nmul (a := real) (nopp (a := real) (n1 (a := real))) (lu_solve nK F1 (residual M o inp ss x K) k)) (K k) else K k) = K).
  { extensionality k. destruct (Nat.ltb_spec k nK) as [L|L]; [|reflexivity].
    assert (Z : lu_solve nK F1 (residual M o inp ss x K) k = 0).
    { apply (HF1 (lu_solve nK F1 (residual M o inp ss x K))); [|exact L]. intros r Hr. rewrite (LU F1 _ HF1 r Hr). now apply HZ. }
    rewrite Z. cbn. ring. }
  rewrite E. destruct (_ && _); [reflexivity|]. apply IH. exact HF1.
Qed.
(** and an iteration that changes nothing has found one *)
Lemma newton_found it ss (x K : vecR) F : nonsing nK F -> nonsing nK (dG_dK M o inp ss x K) -> agree nK (nstep ss it x K F) K -> zero_res ss x K.
Proof.
  intros HF HG HA k Hk. unfold nstep in HA. set (F1 := if fresh ss it then dG_dK M o inp ss x K else F) in *. assert (HF1 : nonsing nK F1) by (unfold F1; destruct (fresh ss it); assumption).
  rewrite <- (LU F1 _ HF1 k Hk). apply sum_zero. intros j Hj. specialize (HA j Hj). cbv zeta beta in HA. rewrite (proj2 (Nat.ltb_lt _ _) Hj) in HA.
  assert (Z : lu_solve nK F1 (residual M o inp ss x K) j = 0) by lra. rewrite Z. ring.
Qed.
Variable Cx Ck Cu Cz : matR.
Variable f0 : vecR -> R -> vecR.
Hypothesis Ex : m_fx M = fun _ _ _ _ _ => Cx. Hypothesis Ek : m_fk M = fun _ _ _ _ _ => Ck. Hypothesis Ez : m_fz M = fun _ _ _ _ _ => Cz.
Hypothesis Ef : forall x k w z t q, (q < nf)%nat -> m_f M x k w z t q = f0 w t q + sum nx (fun c => Cx q c * x c) + sum nx (fun c => Ck q c * k c) + sum nz (fun c => Cz q c * z c).
Lemma dG_const ss ss' (x x' K K' : vecR) : dG_dK M o inp ss x K = dG_dK M o inp ss' x' K'.
Proof. unfold dG_dK, at_stage. rewrite Ex, Ek, Ez. reflexivity. Qed.
Notation C := (dG_dK M o inp 0 (fun _ => 0) (fun _ => 0)).
Lemma res_diff ss (x K K' : vecR) r : (r < nK)%nat -> residual M o inp ss x K' r = residual M o inp ss x K r + sum nK (fun k => C r k * (K' k - K k)).
Proof.
  intros Hr. replace nK with (ns * nf)%nat in Hr by lia. destruct (blk_of r nf ns Hr) as [i [q [Hi [Hq ->]]]]. rewrite !residual_val, dG_dK_row by assumption.
  unfold lin, at_stage. rewrite !Ef by exact Hq. rewrite Ex, Ek, Ez. rewrite (sum_zero nu (fun c => _ * 0)) by (intros; ring).
  rewrite (sum_ext nx (fun c => Cx q c * stage_x o inp x K' i c) (fun c => Cx q c * stage_x o inp x K i c + Cx q c * (0 + h * sum ns (fun j => o_A o i j * (K' (j * nx + c)%nat - K (j * nx + c)%nat))))).
  2:{ intros c Hc. rewrite !stage_x_val by exact Hc. rewrite (sum_ext ns (fun j => o_A o i j * (_ - _)) (fun j => o_A o i j * K' (j * nx + c)%nat - o_A o i j * K (j * nx + c)%nat)) by (intros; ring). rewrite sum_minus. ring. }
  unfold shift.
  rewrite (sum_ext nx (fun c => Ck q c * K' (i * nx + c)%nat) (fun c => Ck q c * K (i * nx + c)%nat + Ck q c * (K' (i * nx + c)%nat - K (i * nx + c)%nat))) by (intros; ring).
  rewrite (sum_ext nz (fun c => Cz q c * K' (ns * nx + i * nz + c)%nat) (fun c => Cz q c * K (ns * nx + i * nz + c)%nat + Cz q c * (K' (ns * nx + i * nz + c)%nat - K (ns * nx + i * nz + c)%nat))) by (intros; ring).
  rewrite !sum_plus. match goal with |- ?a = ?b => change (@eq R a b) end. ring.
Qed.
Hypothesis HCns : nonsing nK C.
Lemma newton_affine n : forall it ss (x K : vecR) F, F = C \/ (ss = 0%nat /\ it = 0%nat) \/ o_jac_reuse o = false -> (0 < n)%nat \/ zero_res ss x K ->
  zero_res ss x (fst (newton n it ss x K F)) /\ ((0 < n)%nat \/ F = C -> snd (newton n it ss x K F) = C).
Proof.
  induction n as [|n IH]; intros it ss x K F HF HZ.
  - cbn [IrkModel.newton fst snd]. split; [destruct HZ; [lia|assumption]|intros [L|E]; [lia|exact E]].
  - cbn [IrkModel.newton]. fold (fresh ss it).
    assert (EF : (if fresh ss it then dG_dK M o inp ss x K else F) = C).
    { destruct (fresh ss it) eqn:Fr; [apply dG_const|]. destruct HF as [->|[[-> ->]|J]]; [reflexivity| |].
      - unfold fresh in Fr. destruct (o_jac_reuse o); discriminate Fr.
      - unfold fresh in Fr. rewrite J in Fr. discriminate Fr. }
    rewrite EF. set (K' := fun k : nat => if (k <? nK)%nat then _ else _).
    assert (Z : zero_res ss x K').
    { intros r Hr. rewrite (res_diff ss x K K' r Hr). rewrite (sum_ext nK _ (fun k => - (C r k * lu_solve nK C (residual M o inp ss x K) k))).
      - rewrite sum_opp. rewrite (LU C _ HCns r Hr). apply Rplus_opp_r.
      - intros k Hk. unfold K'. rewrite (proj2 (Nat.ltb_lt _ _) Hk). cbn. ring. }
    destruct (_ && _); [cbn [fst snd]; split; [exact Z|intros _; reflexivity]|].
    destruct (IH (S it) ss x K' C (or_introl eq_refl) (or_intror Z)) as [A B]. split; [exact A|]. intros _. apply B. right. reflexivity.
Qed.
Variable m : irk_mem real.
Variable F0 : matR.
Notation fwd := (forward M o inp lu_solve m F0).
Hypothesis HN : (0 < o_newton_iter o)%nat.
Lemma fwd_affine n : ((0 < n)%nat -> s_F (fwd n) = C) /\ zero_res n (s_x (fwd n)) (s_K (fwd (S n))).
Proof.
  induction n as [|n [IH1 IH2]].
  - split; [lia|]. rewrite (fwd_S (fun _ => M) (fun _ => 0) o inp lu_solve m F0 0). unfold irk_step.
    destruct (newton_affine (o_newton_iter o) 0 0 (s_x (fwd 0)) (s_K (fwd 0)) (s_F (fwd 0)) (or_intror (or_introl (conj eq_refl eq_refl))) (or_introl HN)) as [A _].
    destruct (IrkModel.newton _ _ _ _ _ _ _ _ _ _) as [K F]. exact A.
  - assert (E : s_F (fwd (S n)) = C).
    { rewrite (fwd_S (fun _ => M) (fun _ => 0) o inp lu_solve m F0 n). unfold irk_step.
      assert (HF : s_F (fwd n) = C \/ (n = 0%nat /\ 0%nat = 0%nat) \/ o_jac_reuse o = false) by (destruct n; [right; left; split; reflexivity|left; apply IH1; lia]).
      destruct (newton_affine (o_newton_iter o) 0 n (s_x (fwd n)) (s_K (fwd n)) (s_F (fwd n)) HF (or_introl HN)) as [_ B].
      destruct (IrkModel.newton _ _ _ _ _ _ _ _ _ _) as [K F]. cbn [s_F]. cbn [snd] in B. rewrite (B (or_introl HN)). destruct (_ || _); [apply dG_const|reflexivity]. }
    split; [intros _; exact E|]. rewrite (fwd_S (fun _ => M) (fun _ => 0) o inp lu_solve m F0 (S n)). unfold irk_step.
    destruct (newton_affine (o_newton_iter o) 0 (S n) (s_x (fwd (S n))) (s_K (fwd (S n))) (s_F (fwd (S n))) (or_introl E) (or_introl HN)) as [A _].
    destruct (IrkModel.newton _ _ _ _ _ _ _ _ _ _) as [K F]. exact A.
Qed.
End S.
