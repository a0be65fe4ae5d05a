(** Concrete runs of the dynamics modules: x+ = x u at x = 3, u = 2. *)
From Coq Require Import ZArith List Bool Arith Lia Reals Lra.
From Coquelicot Require Import Coquelicot.
From Verif Require Import Arith Vec LinModel Arr RSum BghAdjProofs IrkModel IrkSpec IrkCostProofs DynModel DynSpec DynProofs DynTop.
Import ListNotations.
Open Scope R_scope.

Definition lst (l : list R) : vecR := fun k => nth k l 0.
Definition exd : dims := mkD 1 1 1 1 1.
(** the memory of this integrator counts the calls; z = x + u *)
Definition exev (op : sopts) (i : sim_in real) (o : sim_out real) (m : R) : sim_out real * R :=
  let x := i_x i 0%nat in let u := i_u i 0%nat in
  (mkSR (lst [x * u]) (lst [x + u]) (if so_forw op then lst [u; x] else s_S_forw o) (if so_adj op then lst [u * i_S_adj i 0%nat; x * i_S_adj i 0%nat] else s_S_adj o)
     (if so_hess op then lst [0; i_S_adj i 0%nat; i_S_adj i 0%nat; 0] else s_S_hess o) (lst [1; 1]), m + 1).
Definition exy : dyn_in real := mkDI (lst [2; 3]) (lst [0; 5]) (lst [7]) 1 (lst [4]) true true false 1.
Definition z0 : vecR := fun _ => 0.
Definition exin0 : sim_in real := mkSI z0 z0 0 z0 z0 false.
Definition exout0 : sim_out real := mkSR z0 z0 z0 z0 z0 z0.
Definition exst (adj : bool) : dyn_st real R := mkDS exin0 exout0 (mkSO true adj true false) 0 (Some true) z0 z0 z0 (fun _ _ => 0) (fun _ _ => 0) (fun _ _ => 0) (fun _ _ => 0).
Definition exsg (g : vecR) (m : R) : R := 10 * g 0%nat + m.
Definition exch (m : R) : matR := fun _ _ => m.

Definition isS {B} (x : option B) : bool := match x with Some _ => true | None => false end.
Definition get {B} (b : B) (x : option B) : B := match x with Some s => s | None => b end.
Lemma get_some {B} (b : B) (x : option B) : isS x = true -> x = Some (get b x).
Proof. destruct x; [reflexivity|discriminate]. Qed.
Definition exup (adj : bool) := cont_update exev exsg exch exd exy (exst adj).
Definition ex1 (adj : bool) := get (exst adj) (exup adj).
Lemma ex1_ok adj : cont_update exev exsg exch exd exy (exst adj) = Some (ex1 adj).
Proof. apply get_some. destruct adj; vm_compute; reflexivity. Qed.
Ltac ev := cbv -[Rplus Rmult Ropp Rminus Rdiv Rinv IZR].
Lemma ex_update adj : exists s', cont_update exev exsg exch exd exy (exst adj) = Some s' /\ t_fun s' 0%nat = 1 /\ t_BAbt s' 0%nat 0%nat = 3 /\ t_BAbt s' 1%nat 0%nat = 2 /\
  t_adj s' 0%nat = -21 /\ t_adj s' 1%nat = -14 /\ t_adj s' 2%nat = 7 /\ t_z s' 0%nat = 5 /\ t_RSQrq s' 1%nat 0%nat = 7 /\ t_sm s' = 41 /\ t_flag s' = Some false.
Proof. exists (ex1 adj). split; [apply ex1_ok|]. destruct adj; repeat split; ev; try ring. Qed.
Definition ex2 := get (exst true) (cont_fun_adj exev exsg exd exy (exst true)).
Definition ex3 := get (exst true) (cont_fun exev exsg exd exy (exst true)).
Lemma ex_fun_adj : exists s', cont_fun_adj exev exsg exd exy (exst true) = Some s' /\ t_fun s' 0%nat = 1 /\ t_adj s' 0%nat = -21 /\ t_adj s' 1%nat = -14 /\ t_adj s' 2%nat = 7 /\ t_z s' 0%nat = 0.
Proof. exists ex2. split; [apply get_some; vm_compute; reflexivity|]. repeat split; ev; ring. Qed.
(** the contract of the integrator holds for it *)
Lemma ex_contract : forall i o m, adjoint_ok exd (out_J exd (fst (exev (mkSO true true true false) i o m))) i (fst (exev (mkSO true true true false) i o m)).
Proof. intros i o m c Hc. destruct c as [|[|c]]; [| |cbn in Hc; lia]; ev; ring. Qed.

Theorem hess_full_refuted : exists (ev : sopts -> sim_in real -> sim_out real -> R -> sim_out real * R) sg ch d y s s', d_nx1 d = d_nx d /\ y_hess y = true /\ so_cost (t_opts s) = false /\
  cont_update ev sg ch d y s = Some s' /\ (forall a b, t_hess s a b = 0) /\ (forall a b, (a < d_nx d + d_nu d)%nat -> (b < d_nx d + d_nu d)%nat -> out_H d (t_out s') a b = out_H d (t_out s') b a) /\
  exists a b, (a < d_nu d + d_nx d)%nat /\ (b < d_nu d + d_nx d)%nat /\ t_RSQrq s' a b <> t_RSQrq s' b a.
Proof.
  exists exev, exsg, exch, exd, exy, (exst true), (ex1 true). split; [reflexivity|]. split; [reflexivity|]. split; [reflexivity|]. split; [apply ex1_ok|]. split; [intros; reflexivity|]. split.
  - intros a b Ha Hb. cbn in Ha, Hb. destruct a as [|[|a]]; [| |lia]; (destruct b as [|[|b]]; [| |lia]); ev; ring.
  - exists 0%nat, 1%nat. split; [cbn; lia|]. split; [cbn; lia|]. ev. lra.
Qed.
Theorem fun_z_refuted : exists (ev : sopts -> sim_in real -> sim_out real -> R -> sim_out real * R) sg d y s s', d_nx1 d = d_nx d /\
  cont_fun ev sg d y s = Some s' /\ exists k, (k < d_nz d)%nat /\ t_z s' k <> s_zn (t_out s') k.
Proof. exists exev, exsg, exd, exy, (exst true), ex3. split; [reflexivity|]. split; [apply get_some; vm_compute; reflexivity|]. exists 0%nat. split; [cbn; lia|]. ev. lra. Qed.

(** two states at the beginning, one at the end: x1+ = x1 + 2 x2, x2+ = x2 *)
Definition d21 : dims := mkD 2 0 0 1 0.
Definition ev21 (op : sopts) (i : sim_in real) (o : sim_out real) (m : R) : sim_out real * R :=
  (mkSR (lst [i_x i 0%nat + 2 * i_x i 1%nat; i_x i 1%nat]) z0 (lst [1; 0; 2; 1]) z0 z0 z0, m).
Definition y21 : dyn_in real := mkDI (lst [0; 0]) (lst [0]) (lst [1]) 1 z0 false false false 1.
Definition s21 : dyn_st real R := mkDS exin0 exout0 (mkSO true false false false) 0 None z0 z0 z0 (fun _ _ => 0) (fun _ _ => 0) (fun _ _ => 0) (fun _ _ => 0).
Definition ex4 := get s21 (cont_update ev21 exsg exch d21 y21 s21).
Theorem fewer_states_refuted : exists (ev : sopts -> sim_in real -> sim_out real -> R -> sim_out real * R) sg ch d y s s', (d_nx1 d < d_nx d)%nat /\
  cont_update ev sg ch d y s = Some s' /\ exists r k, (r < d_nx1 d)%nat /\ (k < d_nx d)%nat /\ t_BAbt s' (d_nu d + k)%nat r <> out_J d (t_out s') r k.
Proof.
  exists ev21, exsg, exch, d21, y21, s21, ex4.
  split; [cbn; lia|]. split; [apply get_some; vm_compute; reflexivity|]. exists 0%nat, 1%nat. split; [cbn; lia|]. split; [cbn; lia|]. ev. lra.
Qed.
Theorem more_states_refuted : forall (SM : Type) (ev : sopts -> sim_in real -> sim_out real -> SM -> sim_out real * SM) sg ch (d : dims) (y : dyn_in real) s,
  (d_nx d < d_nx1 d)%nat -> (0 < d_nx d + d_nu d)%nat -> cont_update ev sg ch d y s = None.
Proof. intros. apply cont_more_l; assumption. Qed.
Theorem disc_adj_refuted : forall (M : disc_model real) (d : dims) (y : dyn_in real) s, (d_nu d + d_nx d < d_nx1 d)%nat -> (0 < d_nu d + d_nx d)%nat -> disc_fun_adj M d y s = None.
Proof. intros M d y s H H0. unfold disc_fun_adj. rewrite (proj2 (Nat.leb_gt _ _) H), (proj2 (Nat.eqb_neq (d_nu d + d_nx d) 0)) by lia. reflexivity. Qed.

(** discrete dynamics x+ = (x u, x) with one state before and two after *)
Definition exM : disc_model real := mkDM (fun x u r => match r with O => x 0%nat * u 0%nat | _ => x 0%nat end) (fun x u k r => match r with O => match k with O => x 0%nat | _ => u 0%nat end | _ => match k with O => 0 | _ => 1 end end)
  (fun x u p a b => if (a =? b)%nat then 0 else p 0%nat).
Definition dd : dims := mkD 1 1 0 2 1.
Lemma exM_consistent : disc_consistent exM 1 1 2.
Proof.
  split.
  - intros x x' u u' Hx Hu. split.
    + intros r Hr. destruct r; cbn; rewrite (Hx 0%nat) by lia; [rewrite (Hu 0%nat) by lia|]; reflexivity.
    + intros k r Hk Hr. destruct r, k; cbn; try rewrite (Hx 0%nat) by lia; try rewrite (Hu 0%nat) by lia; reflexivity.
  - intros X U dX dU HX HU r Hr. pose proof (HX 0%nat ltac:(lia)) as D1. pose proof (HU 0%nat ltac:(lia)) as D2. destruct r as [|r].
    + refine (is_derive_val _ _ _ _ (mul_der _ _ _ _ _ D1 D2) _). cbn. ring.
    + refine (is_derive_val _ _ _ _ D1 _). cbn. ring.
Qed.
Definition yd : dyn_in real := mkDI (lst [2; 3]) (lst [0; 5; 4]) (lst [7; 1]) 1 z0 true true false 1.
Definition sd : disc_st real := mkDC z0 z0 (fun _ _ => 0) (fun _ _ => 0) (fun _ _ => 0).
Lemma ex_disc : let s := disc_update exM dd yd sd in c_fun s 0%nat = 1 /\ c_fun s 1%nat = -1 /\ c_BAbt s 0%nat 0%nat = 3 /\ c_BAbt s 1%nat 0%nat = 2 /\ c_adj s 0%nat = -21 /\ c_adj s 1%nat = -15 /\ c_adj s 2%nat = 7 /\ c_adj s 3%nat = 1.
Proof. cbv zeta. repeat split; ev; ring. Qed.
