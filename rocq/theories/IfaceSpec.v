(** What the flat vectors of the interface contain. *)
From Coq Require Import ZArith List Bool.
From Verif Require Import Arr ArrProofs DimsModel DimsSpec IfaceModel.
Import ListNotations.
Open Scope Z_scope.

(** number of values of a field at a stage, and number of stages that have the field *)
Definition field_size (d : ndims) (f : field) (i : nat) : Z :=
  match f with
  | Fx => nx (d i) | Fu => nu (d i) | Fsl | Fsu => ns (d i) | Fs => 2 * ns (d i) | Fz => nz (d i) | Fpi => nx (d (S i)) | Flam => 2 * ni (d i) | Fp => np (d i)
  end.
Definition stages (N : nat) (f : field) : nat := match f with Fu | Fz | Fpi => N | _ => S N end.
(** the part of stage i starts here *)
Definition flat_start (d : ndims) (f : field) (i : nat) : Z := total i (field_size d f).
Definition flat_length (N : nat) (d : ndims) (f : field) : Z := total (stages N f) (field_size d f).
(** fields that share memory *)
Definition clash (f g : field) : bool :=
  match f, g with
  | Fx, Fx | Fu, Fu | Fz, Fz | Fpi, Fpi | Flam, Flam | Fp, Fp | Fs, Fs | Fsl, Fsl | Fsu, Fsu | Fs, Fsl | Fs, Fsu | Fsl, Fs | Fsu, Fs => true
  | _, _ => false
  end.
(** the buffers as created from the dimensions; ocp_nlp_common.c:885-919, :990-1050 *)
Definition sized {T} (n : nat) (f : nat -> Z) (L : list (list T)) : Prop := length L = n /\ forall i l, nth_error L i = Some l -> len l = f i.
Record allocated {T} (N : nat) (d : ndims) (s : store T) : Prop := {
  al_ux : sized (S N) (fun i => nv (d i)) (ux s); al_z : sized (S N) (fun i => nz (d i)) (zz s); al_pi : sized N (fun i => nx (d (S i))) (pi s);
  al_lam : sized (S N) (fun i => 2 * ni (d i)) (lam s); al_p : sized (S N) (fun i => np (d i)) (pv s); al_mask : sized (S N) (fun i => 2 * ni (d i)) (dmask s) }.
Definition dims_ok (N : nat) (d : ndims) : Prop :=
  forall i, (i <= N)%nat -> 0 <= nx (d i) /\ 0 <= nu (d i) /\ 0 <= nz (d i) /\ 0 <= ns (d i) /\ 0 <= ni (d i) /\ 0 <= np (d i) /\ nv (d i) = nu (d i) + nx (d i) + 2 * ns (d i).
(** fields of ocp_nlp_out_set and ocp_nlp_out_get, and the stages they exist at ("u" and "z" also at the last stage) *)
Definition single (f : field) : bool := match f with Fs | Fp => false | _ => true end.
Definition inside (N : nat) (f : field) (i : nat) : Prop := match f with Fpi => (i < N)%nat | _ => (i <= N)%nat end.
