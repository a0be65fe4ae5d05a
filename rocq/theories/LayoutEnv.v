(** A concrete environment (64-bit target, blasfeo-like buffer rounding) and concrete dimensions,
    used by the non-vacuity examples. *)
From Coq Require Import ZArith String List Lia.
From Verif Require Import Layout LayoutProofs LayoutNlp.
Import ListNotations.
Open Scope Z_scope.

Definition env64 : cenv := mkEnv
  (fun _ => 48) (fun _ => 20)
  (fun m => align_char_to 64 (8 * m)) (fun m n => align_char_to 64 (8 * (m * n)))
  (fun _ _ => 128).

Lemma env64_ok : env_ok env64.
Proof.
  unfold env_ok, env64; cbn [so soi ms_dvec ms_dmat sub].
  assert (A : forall x, x <= align_char_to 64 x /\ align_char_to 64 x mod 64 = 0).
  { intros x. split; [apply align_ge|apply align_mod]; lia. }
  repeat split; intros; try lia; try apply A.
  destruct (A (8 * m)) as [_ H']. apply Z.mod_divide in H'; [|lia]. destruct H' as [k ->].
  replace (k * 64) with (k * 8 * 8) by lia. apply Z.mod_mul. lia.
Qed.

(** Horizon [n], 4 states, 2 controls, 1 algebraic variable, 1 slack, 3 parameters, 6 inequality
    rows at every stage. *)
Definition dims_ex (n : nat) : nlp_dims := mkDims n
  (fun _ => 8) (fun _ => 4) (fun _ => 2) (fun _ => 1) (fun _ => 1) (fun _ => 3)
  (fun _ => 6) (fun _ => 3) (fun _ => 1) (fun _ => 1) 2 1.
Lemma dims_ex_ok n : dims_ok (dims_ex n).
Proof. unfold dims_ok, dims_ex; cbn; repeat split; intros; lia. Qed.

(** One shooting interval, [u] controls at stage 0 and no inequality rows. *)
Definition dims_unc (u : Z) : nlp_dims := mkDims 1
  (fun _ => 4 + u) (fun _ => 4) (fun _ => u) (fun _ => 0) (fun _ => 0) (fun _ => 0)
  (fun _ => 0) (fun _ => 0) (fun _ => 0) (fun _ => 0) 0 0.
Lemma dims_unc_ok u : 0 <= u -> dims_ok (dims_unc u).
Proof. intros H. unfold dims_ok, dims_unc; cbn [nv nx nu nz ns np ni nb ng ni_nl np_global n_global_data]; repeat split; intros; lia. Qed.
Lemma dims_ex_rows n : nu (dims_ex n) 0 <= 2 * ni (dims_ex n) 0.
Proof. cbn [nu ni dims_ex]. lia. Qed.
