(** What update_qp_matrices adds to the constraint values. *)
From Coq Require Import ZArith List Bool Arith Lia Reals Lra.
From Verif Require Import Arith Vec LinModel BghEvalModel RSum BgpModel.
Open Scope R_scope.
Lemma fun_correction (g : bgp_in real) ux z lam dz m k : let b := g_b g in
  m_fun (p_update_qp_matrices g ux z lam dz m) k =
  if (k <? bnh b)%nat then m_fun m k - sum (bnu b + bnx b) (fun r => sum (bnz b) (fun q => dz r q * b_Jz b ux z q k) * ux r) else m_fun m k.
Proof.
  unfold p_update_qp_matrices, p_nonlinear. cbn zeta. destruct (Nat.ltb_spec 0 (bnh (g_b g))) as [H|H].
  - destruct (dgead _ _ _ _ _ _ _ _) as [D o]. cbn [m_fun]. destruct (Nat.ltb_spec k (bnh (g_b g))); [|reflexivity].
    unfold mvt. rewrite vsum_sum. rewrite (sum_ext _ _ (fun r => sum (bnz (g_b g)) (fun q => dz r q * b_Jz (g_b g) ux z q k) * ux r)).
    + cbn. ring.
    + intros r Hr. unfold z_jac. cbn. try rewrite vsum_sum. match goal with |- @eq _ ?x ?y => apply (Rminus_diag_uniq x y) end. ring.
  - cbn [m_fun]. destruct (Nat.ltb_spec k (bnh (g_b g))); [lia|reflexivity].
Qed.
