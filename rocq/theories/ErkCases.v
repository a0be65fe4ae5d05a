(** A concrete system for the explicit integrator: x' = p x^2 + u, midpoint rule. *)
From Coq Require Import ZArith List Bool Lia Reals Lra Psatz.
From Coquelicot Require Import Coquelicot.
From Verif Require Import Arith Vec LinModel LinProofs RSum Poly CollModel ErkModel ErkProofs ErkSens ErkAdj ErkHess ErkTop.
Import ListNotations.
Open Scope R_scope.

Definition ex_f (p x u : vecR) : R := p 0%nat * (x 0%nat * x 0%nat) + u 0%nat.
Definition ex_M : erk_model real := mkErkModel (A := real)
  (fun p x u _ => ex_f p x u)
  (fun p x Sx Su u => (fun _ => ex_f p x u, fun _ => 2 * p 0%nat * x 0%nat * Sx 0%nat, fun _ => 2 * p 0%nat * x 0%nat * Su 0%nat + 1))
  (fun p x Sp u _ => 2 * p 0%nat * x 0%nat * Sp 0%nat + x 0%nat * x 0%nat)
  (fun p x lam u k => if (k =? 0)%nat then 2 * p 0%nat * x 0%nat * lam 0%nat else lam 0%nat)
  (fun p x Sx Su lam u => (fun k => if (k =? 0)%nat then 2 * p 0%nat * x 0%nat * lam 0%nat else lam 0%nat,
     fun k => 2 * p 0%nat * lam 0%nat * match k with O => Sx 0%nat * Sx 0%nat | S O => Su 0%nat * Sx 0%nat | _ => Su 0%nat * Su 0%nat end)).
Definition ex_Jx : jac := fun p x u _ _ => 2 * p 0%nat * x 0%nat.
Definition ex_Ju : jac := fun p x u _ _ => 1.
Definition ex_Jp : jac := fun p x u _ _ => x 0%nat * x 0%nat.
Definition ex_H : hes := fun p x u _ k l => if ((k =? 0) && (l =? 0))%nat then 2 * p 0%nat else 0.
Definition ex_opts (fw fwp ad hs : bool) : erk_opts real := mkErkOpts (A := real) 1 1 1 2 1 (fun j s => if ((j =? 0) && (s =? 1))%nat then / 2 else 0) (fun s => if (s =? 1)%nat then 1 else 0) fw fwp ad hs.
Definition one (k : nat) : R := if (k =? 0)%nat then 1 else 0.
Definition ex_in : erk_in real := mkErkIn (A := real) one (fun _ => 0) one 1 one one (fun _ _ _ => 7) (fun _ _ _ => 7) (fun _ => 7).

Lemma ex_consistent : consistent ex_M 1 1 1 ex_Jx ex_Ju ex_Jp.
Proof.
  assert (L1 : forall r, (r < 1)%nat -> r = 0%nat) by (intros; lia).
  constructor.
  - intros p p' x x' u u' Hp Hx Hu r Hr. cbn. unfold ex_f, ex_Jx, ex_Ju, ex_Jp. rewrite (Hp 0%nat), (Hx 0%nat), (Hu 0%nat) by lia. auto.
  - intros P X U dP dX dU HP HX HU r Hr. cbn [expl_ode_fun ex_M sum]. unfold ex_f, ex_Jx, ex_Ju, ex_Jp. specialize (HP 0%nat ltac:(lia)). specialize (HX 0%nat ltac:(lia)). specialize (HU 0%nat ltac:(lia)).
    pose proof (derive_plus _ _ _ _ _ (derive_mult _ _ _ _ HP (derive_mult _ _ _ _ HX HX)) HU) as Dv. cbv beta in Dv.
    match type of Dv with is_derive _ _ ?a => match goal with |- is_derive _ _ ?b => replace b with a; [exact Dv|] end end. cbn; change (num real) with R in *; ring.
  - intros p x Sx Su u f fx fu E r Hr. cbn in E. injection E as <- <- <-. cbn [sum]. unfold ex_Jx, ex_Ju. rewrite (L1 r Hr). split; [reflexivity|]. split; intros c Hc; rewrite (L1 c Hc); cbn; change (num real) with R in *; ring.
  - intros p x Sp u r c Hr Hc. rewrite (L1 r Hr), (L1 c Hc). cbn. unfold ex_Jx, ex_Jp. change (num real) with R in *; ring.
  - intros p x lam u. cbn [expl_vde_adj ex_M sum]. unfold ex_Jx, ex_Ju. split; intros k Hk; rewrite (L1 k Hk); cbn; change (num real) with R in *; ring.
  - intros p x Sx Su lam u g H E. cbn in E. injection E as <- <-. cbn [sum]. unfold ex_Jx, ex_Ju. split; intros k Hk; rewrite (L1 k Hk); cbn; change (num real) with R in *; ring.
Qed.
Lemma ex_consistent2 : consistent2 ex_M 1 1 1 ex_Jx ex_Ju ex_H.
Proof.
  constructor.
  - intros p p' x x' u u' Hp Hx Hu r k l _ _ _. unfold ex_H. rewrite (Hp 0%nat) by lia. reflexivity.
  - intros p x u r k l _ _ _. unfold ex_H. rewrite andb_comm. reflexivity.
  - intros P X U dX dU HP HX HU r k Hr Hk. cbn [Nat.add sum]. unfold Jxu, ex_Jx, ex_Ju, ex_H, cat. specialize (HP 0%nat ltac:(lia)). specialize (HX 0%nat ltac:(lia)).
    destruct k as [|[|k]]; [| |lia]; cbn [Nat.ltb Nat.leb Nat.eqb Nat.sub andb].
    + pose proof (derive_mult _ _ _ _ (derive_scal 2 _ _ _ HP) HX) as Dv. cbv beta in Dv. match type of Dv with is_derive _ _ ?a => match goal with |- is_derive _ _ ?b => replace b with a; [exact Dv|] end end. cbn; change (num real) with R in *; ring.
    + match goal with |- is_derive _ _ ?b => replace b with 0; [apply (is_derive_const (V := R_NormedModule))|] end. cbn; change (num real) with R in *; ring.
  - intros p x Sx Su lam u g h E i j Hij. cbn in E. injection E as <- <-.
    destruct i as [|[|i]], j as [|[|j]]; try lia; unfold pidx; cbn [coff Nat.sub Nat.add sum]; unfold ex_H, seedcol; cbn; change (num real) with R in *; ring.
Qed.
Lemma ex_dims a b c d : dims (ex_opts a b c d) 1 1 1. Proof. repeat split. Qed.
(** all sensitivities of the example: xn = x + (x + x^2/2)^2 at x = 1 *)
Lemma ex_step_val : e_step (ex_opts true true true true) ex_in = 1.
Proof. unfold e_step. cbn. lra. Qed.
Ltac crunch := repeat (rewrite ?erk_step_sum, ?stage_arg_sum, ?adj_lam_sum); rewrite ?ex_step_val.
Lemma ex_K i : let K := erk_K ex_M (ex_opts true true true true) ex_in (erk_init (ex_opts true true true true) ex_in) (i_stale ex_in 0) in
  K 0%nat i = match i with 0%nat => 1 | 1%nat => 2 | 2%nat => 1 | 3%nat => 1 | _ => 7 end /\
  K 1%nat i = match i with 0%nat => 9/4 | 1%nat => 6 | 2%nat => 5/2 | 3%nat => 15/4 | _ => 7 end.
Proof.
  intros K. assert (H0 : forall i, K 0%nat i = match i with 0%nat => 1 | 1%nat => 2 | 2%nat => 1 | 3%nat => 1 | _ => 7 end).
  { intros j. unfold K. rewrite erk_K_row by (cbn; lia). unfold stage_rhs. cbn [e_fwd ex_opts e_sens_forw orb e_nx e_nu e_np expl_vde_for ex_M off_Sp off_Su e_nf e_nfp e_sens_forw_p].
    destruct j as [|[|[|[|j]]]]; unfold inb, ex_f, view, e_nf, e_nfp; cbn; unfold one; cbn; try lra. }
  assert (A1 : forall i, stage_arg (ex_opts true true true true) ex_in 1 (erk_init (ex_opts true true true true) ex_in) K i = erk_init (ex_opts true true true true) ex_in i + / 2 * K 0%nat i).
  { intros j. rewrite stage_arg_sum, ex_step_val. cbn [sum]. cbn [e_A ex_opts Nat.eqb andb]. lra. }
  split; [apply H0|]. unfold K. rewrite erk_K_row by (cbn; lia). fold K. unfold stage_rhs. cbn [e_fwd ex_opts e_sens_forw orb e_nx e_nu e_np expl_vde_for expl_vde_for_p ex_M off_Sp off_Su e_nf e_nfp e_sens_forw_p].
  change (mkErkOpts (A := real) _ _ _ _ _ _ _ _ _ _ _) with (ex_opts true true true true).
  destruct i as [|[|[|[|i]]]]; unfold inb, ex_f, view, e_nf, e_nfp; cbn [Nat.leb Nat.ltb Nat.add Nat.mul Nat.sub andb e_fwd ex_opts e_sens_forw e_sens_forw_p orb e_nx e_nu e_np]; 
  change (mkErkOpts (A := real) _ _ _ _ _ _ _ _ _ _ _) with (ex_opts true true true true); rewrite ?A1, ?H0; cbn; unfold one; cbn; try lra.
Qed.
Definition exo := ex_opts true true true true.
Lemma ex_z i : (i < 4)%nat -> erk_traj ex_M exo ex_in 1 i = match i with 0%nat => 13/4 | 1%nat => 7 | 2%nat => 5/2 | _ => 15/4 end.
Proof.
  intros Hi. cbn [erk_traj]. rewrite erk_step_sum. unfold exo. rewrite ex_step_val. change (e_ns (ex_opts true true true true)) with 2%nat. cbn [sum]. destruct (ex_K i) as [K0 K1]. cbv zeta in K0, K1. rewrite K0, K1.
  destruct i as [|[|[|[|i]]]]; [| | | |lia]; unfold erk_init, inb; cbn; unfold one; cbn; lra.
Qed.
Lemma ex_arg1 i : (i < 3)%nat -> stage_arg exo ex_in 1 (erk_init exo ex_in) (erk_K ex_M exo ex_in (erk_init exo ex_in) (i_stale ex_in 0)) i = match i with 0%nat => 3/2 | 1%nat => 2 | _ => /2 end.
Proof.
  intros Hi. rewrite stage_arg_sum. unfold exo. rewrite ex_step_val. cbn [sum]. rewrite (proj1 (ex_K i)). destruct i as [|[|[|i]]]; [| | |lia]; unfold erk_init, inb; cbn; unfold one; cbn; lra.
Qed.
Definition exG := adj_G ex_M exo ex_in (erk_init exo ex_in) (erk_K ex_M exo ex_in (erk_init exo ex_in) (i_stale ex_in 0)) (adj_init exo ex_in) (i_stale_adj ex_in 0).
Lemma ex_lam1 : adj_lam exo ex_in 1 (adj_init exo ex_in) exG 0%nat = 1.
Proof. rewrite adj_lam_sum. unfold exo. rewrite ex_step_val. cbn. unfold one. cbn. lra. Qed.
Lemma ex_G1 i : (i < 5)%nat -> exG 1%nat i = match i with 0%nat => 3 | 1%nat => 1 | 2%nat => 8 | 3%nat => 2 | _ => /2 end.
Proof.
  intros Hi. unfold exG. rewrite adj_G_row by (cbn; lia). fold exG. unfold adj_rhs. change (e_sens_hess exo) with true. change (e_nx exo) with 1%nat. change (e_nu exo) with 1%nat. change (off_Su exo) with 2%nat. cbv iota. cbn [expl_ode_hes ex_M].
  rewrite ex_lam1. unfold view. cbn [Nat.add]. rewrite !ex_arg1 by lia. destruct i as [|[|[|[|[|i]]]]]; [| | | | |lia]; unfold inb; cbn; unfold one; cbn; lra.
Qed.
Lemma ex_lam0 : adj_lam exo ex_in 0 (adj_init exo ex_in) exG 0%nat = 3/2.
Proof. rewrite adj_lam_sum. unfold exo. rewrite ex_step_val. change (e_ns (ex_opts true true true true) - (0 + 1))%nat with 1%nat. cbn [sum Nat.add]. rewrite ex_G1 by lia. cbn. unfold one. cbn. lra. Qed.
Lemma ex_arg0 i : stage_arg exo ex_in 0 (erk_init exo ex_in) (erk_K ex_M exo ex_in (erk_init exo ex_in) (i_stale ex_in 0)) i = erk_init exo ex_in i.
Proof. rewrite stage_arg_sum. cbn [sum]. lra. Qed.
Lemma ex_G0 i : (i < 5)%nat -> exG 0%nat i = match i with 0%nat => 3 | 1%nat => 3/2 | 2%nat => 3 | _ => 0 end.
Proof.
  intros Hi. unfold exG. rewrite adj_G_row by (cbn; lia). fold exG. unfold adj_rhs. change (e_sens_hess exo) with true. change (e_nx exo) with 1%nat. change (e_nu exo) with 1%nat. change (off_Su exo) with 2%nat. cbv iota. cbn [expl_ode_hes ex_M].
  rewrite ex_lam0. unfold view. cbn [Nat.add]. rewrite !ex_arg0. destruct i as [|[|[|[|[|i]]]]]; [| | | | |lia]; unfold erk_init, inb; cbn; unfold one; cbn; lra.
Qed.
Lemma ex_adj i : (i < 5)%nat -> adj_traj ex_M exo ex_in 1 i = match i with 0%nat => 7 | 1%nat => 5/2 | 2%nat => 11 | 3%nat => 2 | _ => /2 end.
Proof.
  intros Hi. cbn [adj_traj]. change (e_num_steps exo - 1 - 0)%nat with 0%nat. cbn [erk_traj]. rewrite adj_step_sum. fold exG. change (e_ns exo) with 2%nat. cbn [sum]. rewrite ex_G0, ex_G1 by lia.
  destruct i as [|[|[|[|[|i]]]]]; [| | | | |lia]; unfold adj_init; cbn; unfold one; cbn; lra.
Qed.
Lemma ex_run : exists out, sim_erk ex_M exo ex_in = Some out /\ o_xn out 0%nat = 13/4 /\ o_S_forw out 0%nat = 7 /\ o_S_forw out 1%nat = 5/2 /\ o_S_p out 0%nat = 15/4 /\
  o_S_adj out 0%nat = 7 /\ o_S_adj out 1%nat = 5/2 /\ o_S_hess out 0%nat = 11 /\ o_S_hess out 1%nat = 2 /\ o_S_hess out 3%nat = /2.
Proof.
  eexists. split; [reflexivity|]. cbn [o_xn o_S_forw o_S_p o_S_adj o_S_hess e_sens_forw exo ex_opts]. change (e_num_steps _) with 1%nat. unfold view. cbn [e_nx e_nu Nat.add orb e_sens_adj e_sens_hess]. change (mkErkOpts (A := real) _ _ _ _ _ _ _ _ _ _ _) with exo.
  change (off_Sp exo + 0)%nat with 3%nat. change (e_nx exo + 0)%nat with 1%nat. change (e_nx exo + 1)%nat with 2%nat. rewrite !ex_z, !ex_adj by lia. repeat split.
  - pose proof (hess_out_spec 2 (fun i => adj_traj ex_M exo ex_in 1 (S (S i))) (i_stale_S ex_in) 0 0 ltac:(lia)) as [E _]. etransitivity; [exact E|]. apply (ex_adj 2). lia.
  - pose proof (hess_out_spec 2 (fun i => adj_traj ex_M exo ex_in 1 (S (S i))) (i_stale_S ex_in) 1 0 ltac:(lia)) as [E _]. etransitivity; [exact E|]. apply (ex_adj 3). lia.
  - pose proof (hess_out_spec 2 (fun i => adj_traj ex_M exo ex_in 1 (S (S i))) (i_stale_S ex_in) 1 1 ltac:(lia)) as [E _]. etransitivity; [exact E|]. apply (ex_adj 4). lia.
Qed.
