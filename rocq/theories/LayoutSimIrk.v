(** The workspace of the IRK integrator (LayoutSim.v) fits in its announced size. *)
From Coq Require Import ZArith List String Lia Bool.
From Verif Require Import Layout LayoutProofs LayoutNlp LayoutNlpProofs LayoutSolver LayoutSolverProofs LayoutMod
  LayoutModProofs LayoutSim LayoutSimProofs.
Import ListNotations.
Open Scope string_scope.
Open Scope Z_scope.

Section P.
Variable E : cenv.
Hypothesis HE : env_ok E.
Variable d : sim_dims.
Hypothesis Hd : sim_ok d.
Variable o : sim_opts.
Hypothesis Ho : sopts_ok o.

Lemma irk_ws_fits : obj_fits (irk_ws_obj E d o).
Proof.
  pose proof (nK_nn _ Hd _ Ho).
  destruct Hd as (? & ? & ? & ? & ? & ? & ? & ? & ? & ? & ?), Ho as [? ?].
  assert (Hst := Zle_0_nat (num_steps o)). unfold irk_ws_obj.
  generalize dependent (irk_nK d o). intros nK ?.
  generalize (sens_adj o || sens_hess o)%bool (sens_algebraic o || output_z o)%bool (sens_algebraic o && exact_z_output o)%bool.
  intros ah ao ae. generalize (sens_hess o) (sens_forw_p o). intros hess fp.
  destruct (cost_computation o); [destruct (cost_conl o)|]; destruct ao, hess; cbn [negb when app]; two.
  all: try (destruct ah, fp, ae; fin').
Qed.
End P.
